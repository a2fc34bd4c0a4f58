(** Property C07: timeslot bookkeeping. *)
From Coq Require Import Reals Lra.
From RecordUpdate Require Import RecordUpdate.
From Verif.Model Require Import Base Timeslots.
From Verif.Proofs Require Import TimeslotFacts.
Local Open Scope R_scope.

(** Assignments other than a zero slot count or an empty tau. *)
Definition positive_count (o : ts_op) : Prop := o <> SetNum (Some 0%nat) /\ o <> SetTau (Some []).

(** After any history of assignments and reads on a new object, reading gives
    consistent values. *)
Theorem C07_consistent (ops : list ts_op) : Forall positive_count ops ->
  let d := ts_run ops new_ts in
  exists n T tau,
    snd (get_num_tslots d) = Some n /\ snd (get_evo_time d) = Some T /\ snd (get_tau d) = Some tau /\
    length tau = n /\ fold_right Rplus 0 tau = T /\
    let time := ts_time (touch d) in
    length time = S n /\ nth_error time 0 = Some 0 /\ nth_error time n = Some T /\
    forall k t x, nth_error time k = Some t -> nth_error tau k = Some x -> nth_error time (S k) = Some (t + x).
Proof. intros H. apply consistent. exact H. Qed.

Example C07_case : Forall positive_count [ReadTau; SetNum (Some 3%nat); SetTau (Some [1; 2]); SetEvo (Some 6)].
Proof. repeat constructor; try discriminate. Qed.

(** Explicit durations are kept, whatever happened before and however often
    the attributes are read afterwards. *)
Theorem C07_explicit_kept (ops reads : list ts_op) l :
  Forall (fun o => In o [ReadNum; ReadEvo; ReadTau]) reads ->
  let d := ts_run (ops ++ SetTau (Some l) :: reads) new_ts in
  snd (get_tau d) = Some l /\ snd (get_num_tslots d) = Some (length l) /\
  snd (get_evo_time d) = Some (fold_right Rplus 0 l).
Proof. apply explicit_kept. Qed.

(** Assigning evo_time or num_tslots gives equal slots, keeping the other one. *)
Theorem C07_equal_slots (ops : list ts_op) : Forall positive_count ops ->
  let d := ts_run ops new_ts in
  (forall T n, snd (get_num_tslots d) = Some n -> ts_init d = true ->
     snd (get_tau (ts_step d (SetEvo (Some T)))) = Some (repeat (T / INR n) n)) /\
  (forall T n, n <> 0%nat -> snd (get_evo_time d) = Some T -> ts_init d = true ->
     snd (get_tau (ts_step d (SetNum (Some n)))) = Some (repeat (T / INR n) n)).
Proof. apply equal_slots. Qed.

Example C07_equal_case : ts_init (ts_run [SetTau (Some [1; 2])] new_ts) = true.
Proof. reflexivity. Qed.

(** Both assigned before any read, in either order; and the defaults. *)
Theorem C07_before_reading n T :
  snd (get_tau (ts_run [SetNum (Some n); SetEvo (Some T)] new_ts)) = Some (repeat (T / INR n) n) /\
  snd (get_tau (ts_run [SetEvo (Some T); SetNum (Some n)] new_ts)) = Some (repeat (T / INR n) n) /\
  snd (get_tau new_ts) = Some (repeat (1 / 10) 10) /\
  snd (get_num_tslots new_ts) = Some 10%nat /\ snd (get_evo_time new_ts) = Some 1.
Proof. apply before_reading. Qed.

(** The excluded case is a real exception: zero slots keep the old total. *)
Theorem C07_zero_slots : let d := ts_run [SetNum (Some 0%nat)] new_ts in
  snd (get_tau d) = Some [] /\ snd (get_evo_time d) = Some 1.
Proof. split; reflexivity. Qed.

(** Assumptions of all theorems of this file together (listed one by one in
    ASSUMPTIONS.txt). *)
Definition propsTimeslots :=
  (@C07_consistent,
   @C07_explicit_kept,
   @C07_equal_slots,
   @C07_before_reading,
   @C07_zero_slots).
Print Assumptions propsTimeslots.
