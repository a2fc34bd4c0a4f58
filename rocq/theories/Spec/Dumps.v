(** What dump levels, summary files and data files should be. *)
From Coq Require Import Reals.
From Verif.Model Require Import Base Str Dyn Dump DumpEvo.
Local Open Scope string_scope.
Local Open Scope list_scope.

(** ** Levels: the switches that are on *)
Definition o_only_summary (d : osw) : Prop :=
  o_summary d = true /\ o_fid_err d = false /\ o_grad_norm d = false /\ o_grad d = false.
Definition o_everything (d : osw) : Prop :=
  o_summary d = true /\ o_fid_err d = true /\ o_grad_norm d = true /\ o_grad d = true.
Definition d_only_summary (d : dsw) : Prop :=
  ds_summary d = true /\ ds_amps d = false /\ ds_dyn_gen d = false /\ ds_prop d = false /\
  ds_prop_grad d = false /\ ds_fwd d = false /\ ds_onwd d = false /\ ds_onto d = false.
(** Everything that the fidelity computer in use needs. *)
Definition d_everything (onwd onto : bool) (d : dsw) : Prop :=
  ds_summary d = true /\ ds_amps d = true /\ ds_dyn_gen d = true /\ ds_prop d = true /\
  ds_prop_grad d = true /\ ds_fwd d = true /\ ds_onwd d = onwd /\ ds_onto d = onto.

(** ** Formats: the width is the number a format specification starts with *)
Definition digit (c : ascii) : option (Decimal.uint -> Decimal.uint) :=
  (if c =? "0" then Some Decimal.D0 else if c =? "1" then Some Decimal.D1 else if c =? "2" then Some Decimal.D2
   else if c =? "3" then Some Decimal.D3 else if c =? "4" then Some Decimal.D4 else if c =? "5" then Some Decimal.D5
   else if c =? "6" then Some Decimal.D6 else if c =? "7" then Some Decimal.D7 else if c =? "8" then Some Decimal.D8
   else if c =? "9" then Some Decimal.D9 else None)%char.
Fixpoint number (s : string) : Decimal.uint :=
  match s with
  | String c s' => match digit c with Some d => d (number s') | None => Decimal.Nil end
  | EmptyString => Decimal.Nil
  end.
Definition width (s : string) : nat := Nat.of_uint (number s).
(** Python's format: the text of the value, filled up to the width. *)
Definition filled_up {F : Type} (text : sval F -> string -> string) (fill : nat -> string) (v : sval F) (s : string) : string :=
  fill (width s - String.length (text v s)) ++ text v s.
Definition no_digit (s : string) : Prop := match s with String c _ => digit c = None | EmptyString => True end.

(** ** The calls since the last [clear] *)
Section Logs.
Context {F G : Type}.
Definition since_clear (cs : list (ocall F G)) : list (ocall F G) :=
  fold_left (fun acc c => match c with Clear => [] | _ => acc ++ [c] end) cs [].
Definition iters_of (cs : list (ocall F G)) : list attrs :=
  flat_map (fun c => match c with AddIter it => [it] | _ => [] end) (since_clear cs).
Definition errs_of (cs : list (ocall F G)) : list F :=
  flat_map (fun c => match c with LogErr x => [x] | _ => [] end) (since_clear cs).
Definition norms_of (cs : list (ocall F G)) : list F :=
  flat_map (fun c => match c with LogNorm x => [x] | _ => [] end) (since_clear cs).
Definition grads_of (cs : list (ocall F G)) : list G :=
  flat_map (fun c => match c with LogGrad g => [g] | _ => [] end) (since_clear cs).

(** Items with their [idx] set to 0, 1, 2, ... *)
Fixpoint number_from (k : nat) (its : list (attrs (F := F))) : list (attrs (F := F)) :=
  match its with
  | [] => []
  | it :: its' => set_attr "idx" (SInt k) it :: number_from (S k) its'
  end.

(** One header and one line per item, each ended by a newline. *)
Variable fmt : sval F -> string -> string.
Fixpoint all_lines (l : list string) : string :=
  match l with [] => "" | x :: l' => (x ++ nl ++ all_lines l')%string end.
Definition table (cols : list column) (sep : string) (its : list (attrs (F := F))) : string :=
  all_lines (header_line cols sep :: map (value_line fmt cols sep) its).

(** A new OptimDump with these directory, base name, extension and
    separators. *)
Definition fresh (d : odump F G) : Prop :=
  od_sumfile d = None /\ od_errfile d = None /\ od_gnfile d = None /\
  od_iters d = [] /\ od_errs d = [] /\ od_gns d = [] /\ od_grads d = [].
End Logs.

(** ** Data files: each operator under its own label *)
Section Evo.
Context {A : Alg}.
Fixpoint labelled (label : nat -> string) (k : nat) (l : list (Op A)) : list (tok A) :=
  match l with
  | [] => []
  | o :: l' => Txt (label k) :: TOp o :: labelled label (S k) l'
  end.
End Evo.

Section EvoMore.
Context {A : Alg}.
Fixpoint labelled_row (k j : nat) (l : list (Op A)) : list (tok A) :=
  match l with
  | [] => []
  | o :: l' => Txt ("Propagator gradient for timeslot " ++ str_nat k ++ " control " ++ str_nat j ++ nl)%string
               :: TOp o :: labelled_row k (S j) l'
  end.
Fixpoint labelled_rows (k : nat) (l : list (list (Op A))) : list (tok A) :=
  match l with
  | [] => []
  | r :: l' => labelled_row k 0 r ++ labelled_rows (S k) l'
  end.
Definition part (on : bool) (head : string) (l : list (tok A)) : list (tok A) :=
  if on then Txt (head ++ nl)%string :: l else [].
End EvoMore.
Definition gen_label (k : nat) : string := ("dynamics generator for timeslot " ++ str_nat k ++ nl)%string.
Definition prop_label (k : nat) : string := ("Propagator for timeslot " ++ str_nat k ++ nl)%string.
Definition fwd_label (k : nat) : string := ("Evolution from 0 to " ++ str_nat k ++ nl)%string.
Definition onwd_label (k : nat) : string := ("Evolution from " ++ str_nat k ++ " to end" ++ nl)%string.
Definition onto_label (k : nat) : string := ("Evolution from " ++ str_nat k ++ " onto target" ++ nl)%string.

Section DynLogs.
Context {A : Alg} {F : Type}.
Definition dfresh (d : ddump A F) : Prop := dd_sumfile d = None /\ dd_items d = [] /\ dd_sums d = [].
Definition dsummary_name (d : ddump A F) : string := path_join (dd_dir d) (dd_base d ++ "-summary." ++ dd_ext d)%string.
(** The attributes that recording a summary sets itself. *)
Definition set_by_dump (a : string) : Prop :=
  In a ["idx"; "evo_dump_idx"; "iter_num"; "fid_func_call_num"; "grad_func_call_num"]%string.
(** [sm] was recorded for an evolution of [cs], and points to the operators of
    the same evolution, if it points to any. *)
Definition recorded_from (cs : list (dcall A F)) (items : list (item A)) (sm : attrs (F := F)) : Prop :=
  exists d ecs st sw, In (Evolved d ecs st) cs /\
    (forall a, ~ set_by_dump a -> sm a = ecs a) /\
    ((d_any sw = false /\ sm "evo_dump_idx"%string = SNone) \/
     (d_any sw = true /\ exists i, sm "evo_dump_idx"%string = SInt i /\ nth_error items i = Some (capture sw i d))).
End DynLogs.

(** ** C89 *)
(** All parts of the stored evolutions can be written. *)
Definition writable {A : Alg} (i : item A) : Prop := Forall (fun x => snd (sc_body x) = None) (sections i).
Definition no_clear {A : Alg} {F : Type} (c : dcall A F) : Prop := match c with ClearDump => False | _ => True end.
