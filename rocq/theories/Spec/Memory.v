(** Words for C86: what the memory options of a Dynamics object should come
    to. *)
From Coq Require Import ZArith.
From Verif.Model Require Import Base Dyn Memory.
Local Open Scope nat_scope.

(** An option the user left unset gets its default, one that is set is kept. *)
Definition kept_or {X} (before : option X) (default : X) (after : option X) : Prop :=
  match before with Some x => after = Some x | None => after = Some default end.
(** Nothing is left unset. *)
Definition decided (m : memory) : Prop :=
  m_dtype m <> None /\ m_ph m <> None /\ m_pg m <> None /\ m_adj m <> None /\ m_sp m <> None.
(** The same decisions (the level may be another). *)
Definition same_decisions (m m' : memory) : Prop :=
  m_dtype m' = m_dtype m /\ m_ph m' = m_ph m /\ m_pg m' = m_pg m /\ m_adj m' = m_adj m /\ m_sp m' = m_sp m.
(** Calls that assign no option but the level. *)
Definition no_option {A : Alg} (c : mcall A) : Prop :=
  match c with SetLevel _ | SetProblem _ | Initialise => True | _ => False end.
(** ... and calls that do not assign sparse_eigen_decomp. *)
Definition not_sparse {A : Alg} (c : mcall A) : Prop := match c with SetSparse _ => False | _ => True end.
(** The entries of the sum of all operators. *)
Definition entries {A : Alg} (dim : Op A -> nat) (stored : Op A -> option nat) (o : Op A) : nat :=
  match stored o with Some n => n | None => dim o * dim o end.
(** The operators of the first timeslot. *)
Definition first_drift {A : Alg} (p : problem A) (o : Op A) : Prop :=
  match pr_drift p with DConst o' => o = o' | DList l => nth_error l 0 = Some o end.
Definition first_controls {A : Alg} (p : problem A) (cs : list (Op A)) : Prop :=
  match pr_ctrls p with CList l => cs = l | CArr rows => nth_error rows 0 = Some cs end.
