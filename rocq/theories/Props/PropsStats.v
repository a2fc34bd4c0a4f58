(** C45: statistics are consistent with their counters. *)
From Coq Require Import Reals Lra.
From Coquelicot Require Import Complex.
From RecordUpdate Require Import RecordUpdate.
From Verif.Model Require Import Base Dyn Stats.
From Verif.Spec Require Import Evolution History Counting.
From Verif.Proofs Require Import StatsFacts.
Local Open Scope R_scope.
Set Bullet Behavior "Strict Subproofs".

(** A mean: nan when there is nothing to divide by, otherwise mean times
    number gives the total back. *)
Definition is_mean (x : mean) (total num : nat) : Prop :=
  match x with
  | NaN => num = 0%nat
  | Val v => num <> 0%nat /\ v * INR num = INR total
  end.

Lemma ratio_mean a b : is_mean (or_nan (ratio (INR a) b)) a b.
Proof.
  unfold ratio. destruct (b =? 0)%nat eqn:E; cbn.
  - now apply Nat.eqb_eq.
  - apply Nat.eqb_neq in E. split; auto. field. now apply not_0_INR.
Qed.

Theorem C45_calculate (s : Stats.stats) :
  let s' := calculate s in
  is_mean (mean_num_ctrl_amp_updates_per_iter s') (num_ctrl_amp_updates s) (num_iter s) /\
  is_mean (mean_num_timeslot_changes_per_update s') (num_timeslot_changes s) (num_ctrl_amp_updates s) /\
  is_mean (mean_num_ctrl_amp_changes_per_update s') (num_ctrl_amp_changes s) (num_ctrl_amp_updates s) /\
  (* the time of a finished optimisation *)
  (0 < wall_time_optim_end s -> wall_time_optim_start s + wall_time_optim s' = wall_time_optim_end s) /\
  (wall_time_optim_end s <= 0 -> wall_time_optim s' = wall_time_optim s) /\
  (* the counters and the other times are left alone *)
  num_iter s' = num_iter s /\ num_fidelity_func_calls s' = num_fidelity_func_calls s /\
  num_grad_func_calls s' = num_grad_func_calls s /\ num_tslot_recompute s' = num_tslot_recompute s /\
  num_fidelity_computes s' = num_fidelity_computes s /\ num_grad_computes s' = num_grad_computes s /\
  num_ctrl_amp_updates s' = num_ctrl_amp_updates s /\ num_timeslot_changes s' = num_timeslot_changes s /\
  num_ctrl_amp_changes s' = num_ctrl_amp_changes s /\
  wall_time_optim_start s' = wall_time_optim_start s /\ wall_time_optim_end s' = wall_time_optim_end s /\
  wall_time_dyn_gen_compute s' = wall_time_dyn_gen_compute s /\
  wall_time_prop_compute s' = wall_time_prop_compute s /\
  wall_time_fwd_prop_compute s' = wall_time_fwd_prop_compute s /\
  wall_time_onwd_prop_compute s' = wall_time_onwd_prop_compute s /\
  wall_time_gradient_compute s' = wall_time_gradient_compute s.
Proof.
  unfold calculate. destruct (Rlt_dec 0 (wall_time_optim_end s)) as [H|H]; cbn;
    repeat split; try apply ratio_mean; intros; lra.
Qed.

(** [clear] leaves nothing of the past. *)
Theorem C45_clear (s t : Stats.stats) :
  clear s = clear t /\
  num_iter (clear s) = 0%nat /\ num_fidelity_func_calls (clear s) = 0%nat /\ num_grad_func_calls (clear s) = 0%nat /\
  num_tslot_recompute (clear s) = 0%nat /\ num_fidelity_computes (clear s) = 0%nat /\ num_grad_computes (clear s) = 0%nat /\
  num_ctrl_amp_updates (clear s) = 0%nat /\ num_timeslot_changes (clear s) = 0%nat /\ num_ctrl_amp_changes (clear s) = 0%nat /\
  wall_time_optim (clear s) = 0.
Proof. destruct s, t; repeat split. Qed.
Example C45_calculate_nonvacuous (s : Stats.stats) :
  mean_num_timeslot_changes_per_update (calculate (clear s <| num_ctrl_amp_updates := 4%nat |> <| num_timeslot_changes := 6%nat |>))
    = Val (INR 6 / INR 4) /\
  mean_num_ctrl_amp_updates_per_iter (calculate (clear s <| num_ctrl_amp_updates := 4%nat |>)) = NaN.
Proof. unfold calculate. split; destruct Rlt_dec; reflexivity. Qed.

(** The subclass for partial updates: right when everything has been counted
    at least once ... *)
Theorem C45_dynamic_partial (s : dstats) :
  num_ctrl_amp_updates (base s) <> 0%nat -> num_dyn_gen_computes s <> 0%nat -> num_prop_computes s <> 0%nat ->
  num_fwd_prop_step_computes s <> 0%nat -> num_onwd_prop_step_computes s <> 0%nat ->
  exists s', calculate_dyn s = Ok s' /\ base s' = calculate (base s) /\
    mean_num_dyn_gen_computes_per_update s' * INR (num_ctrl_amp_updates (base s)) = INR (num_dyn_gen_computes s) /\
    mean_wall_time_dyn_gen_compute s' * INR (num_dyn_gen_computes s) = wall_time_dyn_gen_compute (base s) /\
    mean_num_prop_computes_per_update s' * INR (num_ctrl_amp_updates (base s)) = INR (num_prop_computes s) /\
    mean_wall_time_prop_compute s' * INR (num_prop_computes s) = wall_time_prop_compute (base s) /\
    mean_num_fwd_prop_step_computes_per_update s' * INR (num_ctrl_amp_updates (base s)) = INR (num_fwd_prop_step_computes s) /\
    mean_wall_time_fwd_prop_compute s' * INR (num_fwd_prop_step_computes s) = wall_time_fwd_prop_compute (base s) /\
    mean_num_onwd_prop_step_computes_per_update s' * INR (num_ctrl_amp_updates (base s)) = INR (num_onwd_prop_step_computes s) /\
    mean_wall_time_onwd_prop_compute s' * INR (num_onwd_prop_step_computes s) = wall_time_onwd_prop_compute (base s).
Proof.
  intros H1 H2 H3 H4 H5.
  assert (R : forall a b, b <> 0%nat -> ratio a b = Ok (a / INR b)).
  { intros a b N. unfold ratio. apply Nat.eqb_neq in N. now rewrite N. }
  assert (F : forall a b, b <> 0%nat -> a / INR b * INR b = a).
  { intros a b N. field. now apply not_0_INR. }
  pose proof (C45_calculate (base s)) as C. cbv zeta in C.
  destruct C as (_ & _ & _ & _ & _ & _ & _ & _ & _ & _ & _ & Eu & _ & _ & _ & _ & E1 & E2 & E3 & E4 & _).
  unfold calculate_dyn. destruct s as [b x1 x2 x3 x4 x5 x6 x7 x8 x9 x10 x11 x12].
  cbn [base num_dyn_gen_computes num_prop_computes num_fwd_prop_step_computes num_onwd_prop_step_computes] in *.
  remember (calculate b) as c eqn:C. clear C.
  cbn -[ratio]. rewrite Eu, E1, E2, E3, E4, !R by auto. cbn [bind].
  eexists. split; [reflexivity|]. cbn. repeat split; apply F; auto.
Qed.
Example C45_dynamic_nonvacuous (s : dstats) : exists s' : dstats,
  num_ctrl_amp_updates (base s') <> 0%nat /\ num_dyn_gen_computes s' <> 0%nat /\ num_prop_computes s' <> 0%nat /\
  num_fwd_prop_step_computes s' <> 0%nat /\ num_onwd_prop_step_computes s' <> 0%nat.
Proof. exists (mkDS (base s <| num_ctrl_amp_updates := 1%nat |>) 2 0 0 2 0 0 2 0 0 1 0 0). cbn. repeat split; discriminate. Qed.

(** ... but it raises instead of reporting nan, already for fresh statistics, *)
Theorem C45_dynamic_nan_refuted (s : dstats) : calculate_dyn (reset_dyn s) = Raise ZeroDivisionError.
Proof. unfold calculate_dyn, calculate. destruct (Rlt_dec _ _); reflexivity. Qed.
(** and [clear] leaves its own counters as they were. *)
Theorem C45_dynamic_clear_refuted (s : dstats) :
  num_dyn_gen_computes (clear_dyn s) = num_dyn_gen_computes s /\
  num_prop_computes (clear_dyn s) = num_prop_computes s /\
  num_fwd_prop_step_computes (clear_dyn s) = num_fwd_prop_step_computes s /\
  num_onwd_prop_step_computes (clear_dyn s) = num_onwd_prop_step_computes s /\
  num_ctrl_amp_updates (base (clear_dyn s)) = 0%nat.
Proof. repeat split. Qed.

(** The counters say what happened, in every history: one update for the first
    amplitudes and one for every array that differed from the one before, with
    the number of timeslots and of amplitudes that differed. *)
Theorem C45_counters {A : Alg} (s : settings A) n m a ops :
  well_posed s n m -> routines_ok s n m -> shape n m a -> (0 < m)%nat -> Forall (call_ok s n m) ops ->
  exists d x, session s true a ops = Ok d /\ d_stats d = Some x /\
    st_upd x = (1 + changes a ops)%nat /\ st_ts x = (n + slots_changed a ops)%nat /\
    st_chg x = (n * m + amps_changed a ops)%nat.
Proof. apply session_counts. Qed.
Example C45_counts : slots_changed [[1;2];[3;4]] [GetFidErr; UpdateAmps [[1;0];[3;4]]; UpdateAmps [[1;0];[3;4]]] = 1%nat /\
  amps_changed [[1;2];[3;4]] [UpdateAmps [[0;0];[3;4]]; GetGradient; UpdateAmps [[1;0];[3;4]]] = 3%nat.
Proof.
  assert (D : forall (T : Type) (dec : forall x y : T, {x = y} + {x <> y}) x y, x <> y -> differs dec (x, y) = true)
    by (intros T dec x y N; unfold differs; cbn; now destruct (dec x y)).
  assert (S : forall (T : Type) (dec : forall x y : T, {x = y} + {x <> y}) x, differs dec (x, x) = false)
    by (intros T dec x; unfold differs; cbn; now destruct (dec x x)).
  assert (N1 : [1; 2] <> [1; 0]) by (intros E; injection E; lra).
  assert (N2 : 0 <> 1) by lra. assert (N3 : 1 <> 0) by lra. assert (N4 : 2 <> 0) by lra.
  unfold slots_changed, amps_changed, diff_rows, diff_entries.
  cbn [combine concat app filter]. rewrite !S. rewrite !D by assumption. split; reflexivity.
Qed.

(** Assumptions of all theorems of this file together (listed one by one in
    ASSUMPTIONS.txt). *)
Definition propsStats :=
  (@C45_calculate,
   @C45_clear,
   @C45_dynamic_partial,
   @C45_dynamic_nan_refuted,
   @C45_dynamic_clear_refuted,
   @C45_counters).
Print Assumptions propsStats.
