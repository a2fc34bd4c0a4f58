(** Where the dump files go (src/qutip_qtrl/dump.py:86-99, 157-217, 264-272,
    338-390; optimizer.py:349-360 and 414-419): the directory, the names and
    the cached paths of an OptimDump over a history of assignments and log
    entries.  Only the paths that are opened are followed here; what is written
    is in Model/Dump.v, where the directory is fixed.

    [create_dir] (io.py:7-60, Model/Io.v) is external: [mkdir k v] is the
    outcome of its [k]-th call, with the (made absolute) path it returns. *)
From Coq Require Import String List Bool.
From RecordUpdate Require Import RecordUpdate.
From Verif.Model Require Import Base Str Dump.
Local Open Scope string_scope.
Local Open Scope list_scope.

(** The four kinds of files. *)
Inductive kind := KSummary | KErr | KNorm | KGrad (number : nat).

Record where_ := mkWhere {
  w_dir : option string;     (* _dump_dir *)
  w_write : bool;            (* write_to_file *)
  w_ext : string;            (* dump_file_ext *)
  w_base : string;           (* _fname_base *)
  w_sum : option string;     (* _summary_file_path *)
  w_err : option string;     (* _fid_err_file *)
  w_norm : option string;    (* _grad_norm_file *)
  w_calls : nat;             (* calls of create_dir made *)
}.
#[export] Instance eta_where : Settable _ := settable! mkWhere <w_dir; w_write; w_ext; w_base; w_sum; w_err; w_norm; w_calls>.

Section Where.
Variable mkdir : nat -> string -> bool * string.
Variable default_dir : string.  (* DUMP_DIR, dump.py:24 *)

(** dump.py:86-99 and 264-272 [reset]; [write]: the optimizer's dump_to_file. *)
Definition new_where (write : bool) : where_ := mkWhere None write "txt" "optimdump" None None None 0.

(** dump.py:169-185 [create_dump_dir]. *)
Definition create_dump_dir (w : where_) : where_ * bool :=
  let v := match w_dir w with None => default_dir | Some v => if (v =? "")%string then default_dir else v end in
  let '(ok, path) := mkdir (w_calls w) v in
  let w := w <| w_dir := Some path |> <| w_calls := S (w_calls w) |> in
  (if ok then w else w <| w_write := false |>, ok).
(** dump.py:157-161 [dump_dir]. *)
Definition get_dump_dir (w : where_) : where_ * string :=
  let w := match w_dir w with None => fst (create_dump_dir w) | Some _ => w end in
  (w, match w_dir w with Some v => v | None => "" end).
(** dump.py:163-167. *)
Definition set_dump_dir (v : option string) (w : where_) : where_ :=
  let '(w, ok) := create_dump_dir (w <| w_dir := v |>) in
  if ok then w else w <| w_dir := None |>.

(** The name of a file: dump.py:201-203, 343-345, 364-366, 386-388. *)
Definition name_of (k : kind) (w : where_) : string :=
  w_base w ++ "-" ++ match k with KSummary => "summary" | KErr => "fid_err_log" | KNorm => "grad_norm_log"
                     | KGrad n => "fid_err_gradients" ++ str_nat n end ++ "." ++ w_ext w.

(** The path that is opened: dump.py:198-205, 340-347, 361-368, 385-389. *)
Definition path_of (k : kind) (w : where_) : where_ * string :=
  let cached := match k with KSummary => w_sum w | KErr => w_err w | KNorm => w_norm w | KGrad _ => None end in
  match cached with
  | Some p => (w, p)
  | None =>
    let name := name_of k w in
    let '(w, dir) := get_dump_dir w in
    let p := path_join dir name in
    (match k with
     | KSummary => w <| w_sum := Some p |> | KErr => w <| w_err := Some p |> | KNorm => w <| w_norm := Some p |>
     | KGrad _ => w end, p)
  end.

(** What happens to the dump: assignments, the start of an optimisation with
    dump_to_file set (optimizer.py:414-419), and log entries (338-390; the
    file is opened when write_to_file is set). *)
Inductive wcall :=
| SetDir (v : option string) | ReadDir | SetBase (s : string) | SetExt (s : string) | SetWrite (b : bool)
| SetSummaryFile (s : string) | Start | Log (k : kind).
Definition wstep (c : wcall) (w : where_) : where_ * option string :=
  match c with
  | SetDir v => (set_dump_dir v w, None)
  | ReadDir => (fst (get_dump_dir w), None)
  | SetBase s => (w <| w_base := s |> <| w_sum := None |>, None)           (* 192-196 *)
  | SetExt s => (w <| w_ext := s |>, None)
  | SetWrite b => (w <| w_write := b |>, None)
  | SetSummaryFile s => (w <| w_sum := Some s |>, None)                    (* 207-213: abspath is never empty *)
  | Start => (fst (get_dump_dir (fst (create_dump_dir (w <| w_write := true |>)))), None)
  | Log k => if w_write w then let '(w, p) := path_of k w in (w, Some p) else (w, None)
  end.
Definition wruns (l : list wcall) (w : where_) : where_ := fold_left (fun w c => fst (wstep c w)) l w.
(** The paths that were opened, in order. *)
Fixpoint opened (l : list wcall) (w : where_) : list string :=
  match l with
  | [] => []
  | c :: l => let '(w, p) := wstep c w in match p with Some p => p :: opened l w | None => opened l w end
  end.
End Where.
