(** Property C82: a call that is interrupted part of the way - by the keyboard,
    by lack of memory, by a failing linear algebra routine - leaves an object
    whose later answers are right, except in one place. *)
From Coq Require Import Reals Lra.
From Coquelicot Require Import Complex.
From RecordUpdate Require Import RecordUpdate.
From Verif.Model Require Import Base Dyn Fault.
From Verif.Lib Require Import Lists.
From Verif.Spec Require Import Evolution History Scalar Faults.
From Verif.Proofs Require Import DynInv DynRun DynHist DynHistory DynProps ScalarFacts DynAgain FaultSim FaultNorm FaultFacts FaultPace.
Local Open Scope nat_scope.

(** A call that is not interrupted does what [Model/Dyn.v] says, for every
    object and every call. *)
Theorem C82_same {A : Alg} (o : op) (d : dyn A) :
  match m_step o None d with
  | (d', Done _ _) => step o d = Ok d'
  | (_, Failed e) => step o d = Raise e
  | (_, Stopped) => False
  end.
Proof.
  pose proof (fair_step o None d) as F. pose proof (whole_step o d) as H. unfold whole in H.
  destruct (m_step o None d) as [d' [x b|e|]]; [| |now apply F].
  - destruct (step o d) as [d1|]; try discriminate. cbn [bind] in H. injection H as H _. congruence.
  - destruct (step o d) as [d1|]; try discriminate. cbn [bind] in H. congruence.
Qed.

(** Whatever is interrupted, wherever, and however often: as long as no update
    leaves new amplitudes beside results marked as current, the object holds
    one of the arrays it was given, and answers for it. *)
Theorem C82_interrupted {A : Alg} (s : settings A) n m st a l :
  well_posed s n m -> routines_ok s n m -> shape n m a -> Forall (fun c => call_ok s n m (fst c)) l ->
  (forall d0, session s st a [] = Ok d0 -> untorn l d0) ->
  exists d a', faulty_session s st a l = Ok d /\ may_hold a l a' /\
    d_amps d = Some a' /\ answers_for s a' d.
Proof.
  intros W RO Sa F U. destruct (session_good0 s n m W RO st a Sa) as (d0 & E0 & G0).
  destruct (g_calls s n m W RO l a d0 F (good_good0 s n m a d0 G0) (U d0 E0)) as (a' & Hm & G).
  exists (m_calls l d0), a'. splits; auto.
  - unfold faulty_session. now rewrite E0.
  - apply (good0_amps s n m a' _ G).
  - now apply (good0_answers s n m).
Qed.

(** The only place to avoid: update_ctrl_amps, between storing the new
    amplitudes (statement 5) and clearing the last flag (statement 9). *)
Theorem C82_window {A : Alg} (s : settings A) n m st a l :
  well_posed s n m -> routines_ok s n m -> shape n m a -> Forall (fun c => call_ok s n m (fst c)) l ->
  Forall (fun c : call => match c with (UpdateAmps _, Some k) => k <= 4 \/ 9 <= k | _ => True end) l ->
  exists d a', faulty_session s st a l = Ok d /\ may_hold a l a' /\
    d_amps d = Some a' /\ answers_for s a' d.
Proof.
  intros W RO Sa F Fw. apply (C82_interrupted s n m); auto. intros d0 E0.
  destruct (session_good0 s n m W RO st a Sa) as (d1 & E1 & G1). rewrite E0 in E1; injection E1 as <-.
  apply (window s n m W RO l a d0 F Fw). now apply good_good0.
Qed.

(** Inside it the answers are wrong, for every problem and every change of
    amplitudes, even if the update is repeated: the object holds [b], and
    reports the error of [a]. *)
Theorem C82_torn {A : Alg} (s : settings A) n m st a b :
  well_posed s n m -> routines_ok s n m -> shape n m a -> shape n m b -> a <> b ->
  exists d d1,
    faulty_session s st a [(GetFidErr, None); (UpdateAmps b, Some 5); (UpdateAmps b, None)] = Ok d /\
    d_amps d = Some b /\ get_fid_err d = Ok (d1, fid_err_of s a).
Proof. intros W RO. now apply torn_run. Qed.

(** A complete update to amplitudes other than those held puts things right. *)
Theorem C82_repair {A : Alg} (s : settings A) n m st a l b k b' :
  well_posed s n m -> routines_ok s n m -> shape n m a -> Forall (fun c => call_ok s n m (fst c)) l ->
  (forall d0, session s st a [] = Ok d0 -> untorn l d0) -> shape n m b -> shape n m b' ->
  exists d d1, faulty_session s st a l = Ok d /\ d1 = m_call (UpdateAmps b, k) d /\
    (d_amps d1 <> Some b' ->
     d_amps (m_call (UpdateAmps b', None) d1) = Some b' /\ answers_for s b' (m_call (UpdateAmps b', None) d1)).
Proof.
  intros W RO Sa F U Sb Sb'. destruct (session_good0 s n m W RO st a Sa) as (d0 & E0 & G0).
  destruct (g_calls s n m W RO l a d0 F (good_good0 s n m a d0 G0) (U d0 E0)) as (a' & Hm & G).
  exists (m_calls l d0), (m_call (UpdateAmps b, k) (m_calls l d0)). splits; auto.
  - unfold faulty_session. now rewrite E0.
  - intros Hn. pose proof (repair s n m a' b k b' _ G Sb Sb' Hn) as G2. split; [apply (good0_amps s n m b' _ G2)|].
    now apply (good0_answers s n m).
Qed.

(** grad_norm is not covered: a gradient query can be interrupted so that the
    gradient counts as current and the norm is the one from before; asking
    again does not help. *)
Theorem C82_norm {A : Alg} (s : settings A) n m st a :
  well_posed s n m -> routines_ok s n m -> s_prop s <> Approx -> shape n m a ->
  exists k d0 d0' d d1 g,
    (* without an interruption *)
    session s st a [] = Ok d0 /\ get_fid_err_gradient d0 = Ok (d0', g) /\ f_gradnorm (d_fidst d0') = norm2 g /\
    (* with one *)
    faulty_session s st a [(GetGradient, Some k)] = Ok d /\
    get_fid_err_gradient d = Ok (d1, g) /\ f_gradnorm (d_fidst d1) = f_gradnorm (d_fidst d0).
Proof.
  intros W RO HA Sa. destruct (norm_run s n m W RO st a HA Sa) as (k & d0 & d & d1 & g & E0 & E & Eg & Hg & En).
  destruct (session_good0 s n m W RO st a Sa) as (d2 & E2 & G2). rewrite E0 in E2; injection E2 as <-.
  destruct (good_gradient s n m W RO a d0 HA G2) as (d0' & g' & E' & _ & Hg' & N').
  rewrite (grad_is_unique _ _ _ _ _ Hg' Hg) in *. exists k, d0, d0', d, d1, g. splits; auto.
Qed.

(** ** A one-level system: one slot, one control, final operator e^u *)
Definition fx : settings ScalarAlg := sc_settings GenMat 1 None Frechet FTrace.

Lemma fx_wp : well_posed fx 1 1. Proof. apply sc_well_posed; [lia|discriminate]. Qed.
Lemma fx_ro : routines_ok fx 1 1. Proof. apply sc_routines; discriminate. Qed.

Lemma fx_shape u : shape 1 1 [[u]]. Proof. split; auto. Qed.

Lemma fx_final u : final_of fx [[u]] = RtoC (exp u).
Proof.
  eapply final_one; [reflexivity|reflexivity|reflexivity|].
  cbn. unfold Cmult, Cplus, RtoC; cbn. f_equal; ring.
Qed.

Lemma fx_err u : fid_err_of fx [[u]] = (/ 2 * ((1 - exp u) * (1 - exp u)))%R.
Proof.
  change (fid_err_of fx [[u]]) with (trace_dist fx [[u]]). unfold trace_dist. rewrite fx_final.
  cbn. unfold trace_scale, Re, Cmult, Cconj, Cminus, Cplus, Copp, RtoC; cbn. field.
Qed.

Lemma fx_grad u g : grad_is (xgrad fx) fx [[u]] g -> norm2 g = Rabs ((1 - exp u) * exp u).
Proof.
  intros (L & Hg).
  assert (E : grad_entry_of (xgrad fx) fx [[u]] 0 0 = Some (- ((1 - exp u) * exp u))%R).
  { unfold grad_entry_of. change (s_fid fx) with FTrace. cbv iota.
    assert (D : dfinal (xgrad fx) fx [[u]] 0 0 = Some (RtoC (exp u))).
    { unfold dfinal.
      assert (Ds : dslot (xgrad fx) fx [[u]] 0 0 = Some (RtoC (exp u))).
      { unfold dslot. cbn. unfold xgrad. cbn. rewrite <- cexp_real. f_equal.
        unfold Cmult, Cplus, RtoC; cbn.
        replace (1 * (0 + (u * 1 - 0 * 0)) - 0 * (0 + (u * 0 + 0 * 1)))%R with u by ring.
        replace (1 * (0 + (u * 0 + 0 * 1)) + 0 * (0 + (u * 1 - 0 * 0)))%R with 0%R by ring.
        unfold cexp; cbn. rewrite cos_0, sin_0. f_equal; ring. }
      rewrite Ds. cbn. f_equal. apply Cmult_1_r. }
    rewrite D, fx_final. cbn. f_equal. unfold trace_scale, Re, Cmult, Cconj, Cminus, Cplus, Copp, RtoC; cbn. field. }
  assert (E1 : forall j, 1 <= j -> grad_entry_of (xgrad fx) fx [[u]] 0 j = None).
  { intros [|j] Hj; [lia|]. unfold grad_entry_of, dfinal, dslot. cbn. destruct j; reflexivity. }
  destruct g as [|row [|]]; try discriminate. pose proof (Hg 0 0) as H0. rewrite E in H0. cbn in H0.
  destruct row as [|x row]; try discriminate. cbn in H0. injection H0 as ->.
  pose proof (Hg 0 1) as H1. rewrite E1 in H1 by lia. cbn in H1. destruct row; try discriminate.
  unfold norm2. cbn. rewrite <- Rabs_Ropp, <- sqrt_Rsqr_abs. f_equal. unfold Rsqr. ring.
Qed.

(** Full statement: an interrupted update that is repeated leaves the object
    answering for the new amplitudes. *)
Theorem C82_repeat_refuted :
  exists (A : Alg) (s : settings A) n m a b d d1 v,
    well_posed s n m /\ routines_ok s n m /\ shape n m a /\ shape n m b /\
    faulty_session s false a [(GetFidErr, None); (UpdateAmps b, Some 5); (UpdateAmps b, None)] = Ok d /\
    d_amps d = Some b /\ get_fid_err d = Ok (d1, v) /\ v <> fid_err_of s b.
Proof.
  destruct (C82_torn fx 1 1 false [[0%R]] [[1%R]] fx_wp fx_ro) as (d & d1 & E & Ea & Ee).
  { split; auto. } { split; auto. } { intros H. injection H as H. lra. }
  exists ScalarAlg, fx, 1, 1, [[0%R]], [[1%R]], d, d1, (fid_err_of fx [[0%R]]).
  repeat (split; [auto using fx_wp, fx_ro, fx_shape|]).
  rewrite !fx_err. pose proof (exp_sq_ne 0 1 ltac:(lra) ltac:(lra) ltac:(lra)). lra.
Qed.

(** Full statement: grad_norm is the norm of the gradient that is returned. *)
Theorem C82_norm_refuted :
  exists (A : Alg) (s : settings A) n m a k d d1 g,
    well_posed s n m /\ routines_ok s n m /\ shape n m a /\
    faulty_session s false a [(GetGradient, Some k)] = Ok d /\
    get_fid_err_gradient d = Ok (d1, g) /\ f_gradnorm (d_fidst d1) <> norm2 g.
Proof.
  destruct (norm_run fx 1 1 fx_wp fx_ro false [[1%R]]) as (k & d0 & d & d1 & g & E0 & E & Eg & Hg & En).
  { discriminate. } { split; auto. }
  exists ScalarAlg, fx, 1, 1, [[1%R]], k, d, d1, g. repeat (split; [auto using fx_wp, fx_ro, fx_shape|]).
  rewrite En, (fx_grad _ _ Hg).
  assert (E1 : f_gradnorm (d_fidst d0) = 0%R).
  { assert (H : match session fx false [[1%R]] [] with Ok d => f_gradnorm (d_fidst d) = 0%R | _ => True end) by reflexivity.
    now rewrite E0 in H. }
  rewrite E1. intros H. pose proof (exp_pos 1). pose proof (exp_ineq1 1 ltac:(lra)).
  revert H. apply Rlt_not_eq, Rabs_pos_lt. nra.
Qed.

(** ** The hypotheses are met *)

(** A history with interruptions of every kind, none of them in the window. *)
Example C82_case :
  let l := [(GetFidErr, Some 17); (UpdateAmps [[1%R]], Some 3); (GetGradient, Some 40); (GetFwdEvo, Some 0);
            (UpdateAmps [[2%R]], None); (ComputeEvolution, Some 9); (UpdateAmps [[3%R]], Some 9)] in
  Forall (fun c => call_ok fx 1 1 (fst c)) l /\
  Forall (fun c : call => match c with (UpdateAmps _, Some k) => k <= 4 \/ 9 <= k | _ => True end) l /\
  (forall a', may_hold [[0%R]] l a' <-> a' = [[2%R]] \/ a' = [[3%R]]).
Proof.
  cbv zeta. split; [|split].
  - repeat (apply Forall_cons; [cbn; repeat split; auto; try discriminate|]). apply Forall_nil.
  - repeat constructor; lia.
  - intros a'. cbn. tauto.
Qed.

(** Recomputation stopped half way: the evolution is not marked as current. *)
Example C82_mid_case : exists d, faulty_session fx false [[1%R]] [(ComputeEvolution, Some 17)] = Ok d /\
  d_evo_cur d = false /\ nth_error (d_prop d) 0 <> Some None /\ nth_error (d_fwd d) 1 = Some None.
Proof.
  assert (H : match faulty_session fx false [[1%R]] [(ComputeEvolution, Some 17)] with
    | Ok d => match nth_error (d_prop d) 0, nth_error (d_fwd d) 1 with
              | Some (Some _), Some None => negb (d_evo_cur d) | _, _ => false end
    | _ => false end = true) by (vm_compute; reflexivity).
  destruct (faulty_session _ _ _ _) as [d|]; [|easy]. exists d.
  destruct (nth_error (d_prop d) 0) as [[|]|]; try easy. destruct (nth_error (d_fwd d) 1) as [[|]|]; try easy.
  destruct (d_evo_cur d); easy.
Qed.

(** Assumptions of all theorems of this file together (listed one by one in
    ASSUMPTIONS.txt). *)
Definition propsFault :=
  (@C82_same,
   @C82_interrupted,
   @C82_window,
   @C82_torn,
   @C82_repair,
   @C82_norm,
   @C82_repeat_refuted,
   @C82_norm_refuted).
Print Assumptions propsFault.
