(** Writing a whole DynamicsDump out (src/qutip_qtrl/dump.py:674-745).  Opening
    and closing files succeeds, and the directory is ready (Model/DumpDir.v). *)
From Coq Require Import Reals.
From RecordUpdate Require Import RecordUpdate.
From Verif.Model Require Import Base Str Dyn Dump DumpEvo.
Local Open Scope string_scope.
Local Open Scope list_scope.

Section Out.
Context {A : Alg} {F : Type}.
Variable fmt : sval F -> string -> string.

(** dump.py:734-735 without a file: [for di in self.evo_dumps: di.writeout(None)]. *)
Fixpoint items_out (dir base ext : string) (l : list (item A)) (fs : mfiles (A := A)) : outcome (mfiles (A := A)) :=
  match l with
  | [] => (fs, None)
  | i :: l' => let '(fs, e) := writeout_kinds dir base ext i fs in
               match e with Some e => (fs, Some e) | None => items_out dir base ext l' fs end
  end.
(** dump.py:702-745 [writeout()]. *)
Definition dwriteout (s : dstate A F) : outcome (dstate A F) :=
  let dd := s_dump s in
  let '(dd, text) :=
    if ds_summary (dd_sw dd)
    then let '(dd, p) := dsummary_file dd in (dd, write p (summary_text fmt evo_cols (dd_sep dd) (dd_sums dd)) (s_text s))
    else (dd, s_text s) in
  let '(fs, e) := items_out (dd_dir dd) (dd_base dd) (dd_ext dd) (dd_items dd) (s_data s) in
  (mkDS dd text fs, e).

(** dump.py:734-735 with a stream, and 689-701, 709-725: [writeout(f)]. *)
Fixpoint items_stream (l : list (item A)) : writing :=
  match l with [] => ([], None) | i :: l' => and_then (writeout_stream i) (items_stream l') end.
Definition dwriteout_stream (dd : ddump A F) : writing :=
  and_then (if ds_summary (dd_sw dd) then [Txt (summary_text fmt evo_cols (dd_sep dd) (dd_sums dd))] else [], None)
           (items_stream (dd_items dd)).
End Out.
