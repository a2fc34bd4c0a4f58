(** Words for C87 and C88. *)
From Coq Require Import String List.
From Verif.Model Require Import Base Dyn Dump DumpDir.
Local Open Scope string_scope.
Local Open Scope list_scope.

(** The figure of merit a value of phase_option names, if it names one. *)
Definition names (v : pyval) : option phopt :=
  match v with PStr "PSU" => Some PSU | PStr "SU" => Some SU | _ => None end.

(** The file name base and extension last assigned. *)
Fixpoint last_base (b : string) (l : list wcall) : string :=
  match l with [] => b | SetBase b' :: l => last_base b' l | _ :: l => last_base b l end.
Fixpoint last_ext (e : string) (l : list wcall) : string :=
  match l with [] => e | SetExt e' :: l => last_ext e' l | _ :: l => last_ext e l end.
(** The file name for a kind of data. *)
Definition title (k : kind) : string :=
  match k with KSummary => "summary" | KErr => "fid_err_log" | KNorm => "grad_norm_log" | KGrad n => "fid_err_gradients" ++ str_nat n end.
(** Calls that neither add to the log [k] nor name its file. *)
Definition elsewhere (k : kind) (c : wcall) : Prop :=
  match c with Log k' => k' <> k | SetSummaryFile _ => k <> KSummary | _ => True end.
(** Calls that do not ask for another name of the summary file. *)
Definition no_rename (k : kind) (c : wcall) : Prop :=
  match c with SetBase _ | SetSummaryFile _ => k <> KSummary | _ => True end.
(** Calls that do not turn writing on. *)
Definition not_on (c : wcall) : Prop := match c with SetWrite true | Start => False | _ => True end.
Definition one_file (k : kind) : Prop := match k with KGrad _ => False | _ => True end.
