(** Property C13: the approximate trace-difference gradient (TDAPPROX).

    [difference_quotients] and [commuting_problem] are in [Spec/FinDiff.v]:
    the former says that every entry of the array is
    (fid_err(amps with the entry increased by eps) - fid_err(amps)) / eps with
    the fidelity errors that new objects report.  The full property asks for
    this for every system.  It fails as soon as the propagators of different
    slots do not commute (C13_order_refuted), because the code multiplies the
    factors of the trial evolution in the wrong order; it holds when they do
    commute, and for a single slot starting from the identity. *)
From Coq Require Import Reals Lra.
From Coquelicot Require Import Coquelicot.
From RecordUpdate Require Import RecordUpdate.
From Verif.Model Require Import Base Dyn Approx.
From Verif.Lib Require Import Lists Csum Mat MExp MCalc MDiag.
From Verif.Spec Require Import Evolution History MatAlg FinDiff Qubit.
From Verif.Proofs Require Import DynInv DynRun DynHist DynHistory DynProps DynMore MatFacts MatGrad MatProps QubitFacts ApproxFacts.
Local Open Scope nat_scope.
Set Bullet Behavior "Strict Subproofs".

Lemma mat2_add a b c d a' b' c' d' : madd (mat2 a b c d) (mat2 a' b' c' d') = mat2 (a + a')%C (b + b')%C (c + c')%C (d + d')%C.
Proof. apply tab_ext. intros [|[|i]] [|[|j]] Hi Hj; cbn in Hi, Hj; try lia; reflexivity. Qed.
Lemma mat2_sub a b c d a' b' c' d' : msub (mat2 a b c d) (mat2 a' b' c' d') = mat2 (a - a')%C (b - b')%C (c - c')%C (d - d')%C.
Proof. apply tab_ext. intros [|[|i]] [|[|j]] Hi Hj; cbn in Hi, Hj; try lia; reflexivity. Qed.
Lemma mat2_scal z a b c d : mscal z (mat2 a b c d) = mat2 (z * a)%C (z * b)%C (z * c)%C (z * d)%C.
Proof. apply tab_ext. intros [|[|i]] [|[|j]] Hi Hj; cbn in Hi, Hj; try lia; reflexivity. Qed.
Lemma mat2_zero : mzero 2 2 = mat2 (RtoC 0) (RtoC 0) (RtoC 0) (RtoC 0).
Proof. apply tab_ext. intros [|[|i]] [|[|j]] Hi Hj; cbn in Hi, Hj; try lia; reflexivity. Qed.
Lemma mat2_tr a b c d : mtr (mat2 a b c d) = (a + d)%C.
Proof. cbn. ring. Qed.

(** A two-slot problem: no dynamics in the first slot and [[0,0],[1,0]] in the
    second, control [[0,1],[0,0]] in both. *)
Notation PAlg := (MatAlg 2 plain_routines).
Definition up : mat := mat2 (RtoC 0) (RtoC 1) (RtoC 0) (RtoC 0).
Definition down : mat := mat2 (RtoC 0) (RtoC 0) (RtoC 1) (RtoC 0).
Definition null : mat := mat2 (RtoC 0) (RtoC 0) (RtoC 0) (RtoC 0).
Definition two_step (d1 d2 : mat) : settings PAlg :=
  {| s_class := GenMat;
     s_drift := Some (DList [(d1 : Op PAlg); (d2 : Op PAlg)]);
     s_ctrls := Some (CList [(up : Op PAlg)]);
     s_drift_ham := None; s_ctrl_ham := None;
     s_initial := mid 2;
     s_target := mat2 (RtoC 1) (RtoC 0) (RtoC 0) (RtoC 0);
     s_tau := [1%R; 1%R];
     s_phase := None; s_phapp := PreOp; s_dtype := DNdarray;
     s_cache_ph := false; s_cache_pg := true; s_cache_adj := false;
     s_prec := 1; s_prop := Approx; s_fid := FTrace; s_phopt := SU;
     s_scale := Some 1%R; s_dim := 2 |}.
Lemma two_step_ok d1 d2 : matrix 2 2 d1 -> matrix 2 2 d2 ->
  exact_routines 2 plain_routines /\ well_posed (two_step d1 d2) 2 1 /\
  sized_problem 2 plain_routines 2 (two_step d1 d2) /\ diag_suits 2 plain_routines (two_step d1 d2).
Proof.
  intros H1 H2. assert (U : matrix 2 2 up) by (split; [apply mat2_sized|apply mat2_proper]). splits.
  - apply plain_exact; reflexivity.
  - constructor; cbn; auto; try lia; try discriminate; eexists; split; try reflexivity; cbn; auto.
  - constructor; cbn; auto.
    + split; cbn.
      * intros d [= <-]. cbn. repeat constructor; apply H1 || apply H2.
      * intros c [= <-]. cbn. repeat constructor; apply U.
    + split; auto with mat.
    + split; [apply mat2_sized|apply mat2_proper].
  - discriminate.
Qed.
Lemma null_matrix : matrix 2 2 null. Proof. split; [apply mat2_sized|apply mat2_proper]. Qed.
Lemma down_matrix : matrix 2 2 down. Proof. split; [apply mat2_sized|apply mat2_proper]. Qed.

Theorem C13_commuting_partial N rt (s : settings (MatAlg N rt)) n m st eps a ops :
  exact_routines N rt -> well_posed s n m -> sized_problem N rt N s -> diag_suits N rt s ->
  shape n m a -> Forall (call_ok s n m) ops ->
  s_fid s = FTrace -> s_prop s = Approx -> eps <> 0%R -> commuting_problem N rt s ->
  exists d d1 g, session s st a ops = Ok d /\ get_fid_err_gradient_approx eps d = Ok (d1, g) /\
    shape n m g /\ difference_quotients s st eps (latest a ops) g.
Proof.
  intros EX W SP HD Ha F HF HA _ HC. apply (approx_fd N rt EX s n m SP W HD st eps a ops HF HA Ha F).
  intros. eapply (code_final_commuting N rt EX s n m SP W HD); eauto. eapply latest_shape; eauto.
Qed.
(** Diagonal and equal-drift systems commute; here drift null and control up. *)
Example C13_commuting_case : commuting_problem 2 plain_routines (two_step up null).
Proof.
  exists (fun x => x = up \/ x = null \/ x = mid 2). splits.
  - intros x [-> |[-> | ->]]; (split; [apply tab_sized|apply tab_proper]).
  - intros x y [-> |[-> | ->]] [-> |[-> | ->]]; rewrite ?mat2_id; unfold up, null; rewrite !mat2_mul; apply mat2_inj; ring.
  - split; cbn.
    + intros d [= <-]. cbn. constructor; auto.
    + intros c [= <-]. cbn. constructor; auto.
  - cbn. auto.
  - cbn. auto.
Qed.

Theorem C13_one_slot_partial N rt (s : settings (MatAlg N rt)) m st eps a ops :
  exact_routines N rt -> well_posed s 1 m -> sized_problem N rt N s -> diag_suits N rt s ->
  shape 1 m a -> Forall (call_ok s 1 m) ops ->
  s_fid s = FTrace -> s_prop s = Approx -> eps <> 0%R -> s_initial s = mid N ->
  exists d d1 g, session s st a ops = Ok d /\ get_fid_err_gradient_approx eps d = Ok (d1, g) /\
    shape 1 m g /\ difference_quotients s st eps (latest a ops) g.
Proof.
  intros EX W SP HD Ha F HF HA _ HI. apply (approx_fd N rt EX s 1 m SP W HD st eps a ops HF HA Ha F).
  intros. eapply (code_final_one N rt EX s 1 m SP W HD); eauto. eapply latest_shape; eauto.
Qed.
Example C13_one_slot_case : let s := two_step null down <| s_tau := [1%R] |> <| s_drift := Some (DConst (down : Op PAlg)) |> in
  well_posed s 1 1 /\ sized_problem 2 plain_routines 2 s /\ s_initial s = mid 2.
Proof.
  intros s. unfold s. splits; auto.
  - constructor; cbn; auto; try lia; try discriminate; eexists; split; try reflexivity; cbn; auto.
  - destruct (two_step_ok _ _ null_matrix down_matrix) as (_ & _ & [Q1 Q2 Q3 Q4 Q5] & _).
    constructor; cbn in *; auto. split; cbn.
    + intros d [= <-]. cbn. apply down_matrix.
    + intros c [= <-]. cbn. repeat constructor; apply tab_proper.
Qed.

(** Unless the APPROX propagator computer was asked for explicitly, the first
    gradient raises (FRECHET is the default computer of general dynamics). *)
Theorem C13_default_propagators_refuted {A : Alg} (s : settings A) n m st eps a :
  well_posed s n m -> routines_ok s n m -> shape n m a -> 0 < m ->
  s_fid s = FTrace -> s_prop s <> Approx ->
  exists d, session s st a [] = Ok d /\ get_fid_err_gradient_approx eps d = Raise UsageError.
Proof.
  intros W RO Ha Hm HF HA. destruct (session_ok s n m W RO st a [] Ha (Forall_nil _)) as (d & E & G & _).
  exists d. split; auto. eapply approx_needs; eauto.
  unfold session in E. apply bind_inv in E. destruct E as (d0 & E & E'). cbn in E'. injection E' as <-.
  eapply initialize_fresh; eauto.
Qed.
Example C13_default_case : let s := two_step null down <| s_prop := Frechet |> in
  well_posed s 2 1 /\ routines_ok s 2 1 /\ shape 2 1 [[0%R]; [0%R]] /\ s_prop s <> Approx.
Proof.
  intros s. destruct (two_step_ok _ _ null_matrix down_matrix) as (EX & [] & [] & _).
  assert (W : well_posed s 2 1) by (constructor; auto; discriminate).
  assert (SP : sized_problem 2 plain_routines 2 s) by (constructor; auto).
  splits; auto.
  - apply (mat_routines 2 plain_routines EX 2 s 2 1 SP). discriminate.
  - split; auto.
  - discriminate.
Qed.

Theorem C13_order_refuted st eps : eps <> 0%R ->
  exists (s : settings PAlg) a d d1 g,
    exact_routines 2 plain_routines /\ well_posed s 2 1 /\ sized_problem 2 plain_routines 2 s /\
    diag_suits 2 plain_routines s /\ shape 2 1 a /\ s_fid s = FTrace /\ s_prop s = Approx /\
    session s st a [] = Ok d /\ get_fid_err_gradient_approx eps d = Ok (d1, g) /\
    (* reported: 2 eps; the quotient is 2 + 2 eps *)
    entry g 0 0 = Some (2 * eps)%R /\
    (exists e0 e1, reports s st a e0 /\ reports s st (with_entry a 0 0 eps) e1 /\ ((e1 - e0) / eps = 2 + 2 * eps)%R) /\
    ~ difference_quotients s st eps a g.
Proof.
  intros He. set (s := two_step null down). set (a := [[0%R]; [0%R]]).
  destruct (two_step_ok _ _ null_matrix down_matrix) as (EX & W & SP & HD). fold s in W, SP, HD.
  assert (Ha : shape 2 1 a) by (split; auto; repeat constructor).
  pose proof (mat_routines 2 plain_routines EX 2 s 2 1 SP HD) as RO.
  destruct (session_ok s 2 1 W RO st a [] Ha (Forall_nil _)) as (d & E & G & _). cbn [latest] in G.
  destruct (approx_gradient s 2 1 W RO eq_refl a d eps eq_refl Ha G) as (d1 & g & E1 & Sg & Q).
  destruct (Q 0 0 ltac:(lia) ltac:(lia)) as (y & t & gk & c & cs & cj & Ey & Et & Eg & Ec & Ecs & Ecj & Yv).
  assert (R0 : forall b e, shape 2 1 b -> reports s st b e -> e = fid_err_of s b).
  { intros b e Hb (x & x1 & X & X1). destruct (session_values s 2 1 W RO st b [] Hb (Forall_nil _)) as (z & z1 & _ & Z & Z1 & _).
    rewrite X in Z. injection Z as <-. rewrite X1 in Z1. injection Z1 as _ ->. reflexivity. }
  assert (R1 : forall b, shape 2 1 b -> reports s st b (fid_err_of s b)).
  { intros b Hb. destruct (session_values s 2 1 W RO st b [] Hb (Forall_nil _)) as (z & z1 & _ & Z & Z1 & _). exists z, z1. auto. }
  assert (Hb : shape 2 1 (with_entry a 0 0 eps)) by (split; auto; repeat constructor).
  (* exponentials of the matrices that occur *)
  assert (XU : forall u, mexp (mat2 (RtoC 0) (RtoC u) (RtoC 0) (RtoC 0)) = mat2 (RtoC 1) (RtoC u) (RtoC 0) (RtoC 1)).
  { intros u. rewrite (mexp_nilpotent 2).
    - rewrite mat2_id, mat2_add. apply mat2_inj; ring.
    - split; [apply mat2_sized|apply mat2_proper].
    - rewrite mat2_mul, mat2_zero. apply mat2_inj; ring. }
  assert (XD : mexp (mat2 (RtoC 0) (RtoC 0) (RtoC 1) (RtoC 0)) = mat2 (RtoC 1) (RtoC 0) (RtoC 1) (RtoC 1)).
  { rewrite (mexp_nilpotent 2).
    - rewrite mat2_id, mat2_add. apply mat2_inj; ring.
    - split; [apply mat2_sized|apply mat2_proper].
    - rewrite mat2_mul, mat2_zero. apply mat2_inj; ring. }
  assert (G0 : forall u, mscal (RtoC 1) (madd null (mscal (RtoC u) up)) = mat2 (RtoC 0) (RtoC u) (RtoC 0) (RtoC 0)).
  { intros u. unfold null, up. rewrite !mat2_scal, mat2_add, mat2_scal. apply mat2_inj; ring. }
  assert (G1 : mscal (RtoC 1) (madd down (mscal (RtoC 0) up)) = mat2 (RtoC 0) (RtoC 0) (RtoC 1) (RtoC 0)).
  { unfold down, up. rewrite !mat2_scal, mat2_add, mat2_scal. apply mat2_inj; ring. }
  assert (PS : forall u, props_of s [[u]; [0%R]] = [mat2 (RtoC 1) (RtoC u) (RtoC 0) (RtoC 1); mat2 (RtoC 1) (RtoC 0) (RtoC 1) (RtoC 1)]).
  { intros u. transitivity [mexp (mscal (RtoC 1) (madd null (mscal (RtoC u) up))); mexp (mscal (RtoC 1) (madd down (mscal (RtoC 0) up)))];
    [reflexivity|]. rewrite G0, G1, XU, XD. reflexivity. }
  assert (ER : forall u, fid_err_of s [[u]; [0%R]] = ((1 + u) ^ 2 + 1 + u ^ 2)%R).
  { intros u. unfold fid_err_of, trace_dist, final_of. cbn [s_fid s two_step]. rewrite PS.
    change (evolve (A := PAlg) [mat2 (RtoC 1) (RtoC u) (RtoC 0) (RtoC 1); mat2 (RtoC 1) (RtoC 0) (RtoC 1) (RtoC 1)] (s_initial s))
      with (mmul (mat2 (RtoC 1) (RtoC 0) (RtoC 1) (RtoC 1)) (mmul (mat2 (RtoC 1) (RtoC u) (RtoC 0) (RtoC 1)) (mid 2))).
    cbn [otr omul odag osub MatAlg s_target s two_step trace_scale s_scale]. rewrite mat2_id, !mat2_mul, mat2_sub, mat2_dag, mat2_mul, mat2_tr.
    cbn. ring. }
  assert (V0 : fid_err_of s a = 2%R) by (unfold a; rewrite ER; ring).
  assert (V1 : fid_err_of s (with_entry a 0 0 eps) = ((1 + eps) ^ 2 + 1 + eps ^ 2)%R) by (apply (ER eps)).
  (* the reported entry *)
  cbn in Et. injection Et as <-. cbn in Ec. injection Ec as <-. cbn in Ecs. injection Ecs as <-. cbn in Ecj. injection Ecj as <-.
  assert (Egk : gk = madd null (mscal (RtoC 0) up)) by (cbn in Eg; injection Eg as <-; reflexivity).
  assert (TP : trial_prop s eps 1 gk up = mat2 (RtoC 1) (RtoC eps) (RtoC 0) (RtoC 1)).
  { subst gk. unfold trial_prop. rewrite <- XU. cbn [oexpm oscale oadd MatAlg r_expm plain_routines]. f_equal.
    unfold with_phase. cbn [s_phase s two_step]. unfold null, up. rewrite !mat2_scal, !mat2_add, mat2_scal. apply mat2_inj; ring. }
  assert (CF : code_final s a 0 (trial_prop s eps 1 gk up) = mat2 (RtoC 1 + RtoC eps)%C (RtoC eps) (RtoC 1) (RtoC 1)).
  { rewrite TP. unfold code_final. unfold a. rewrite PS.
    change (mmul (mmul (mid 2) (mat2 (RtoC 1) (RtoC eps) (RtoC 0) (RtoC 1))) (mat2 (RtoC 1) (RtoC 0) (RtoC 1) (RtoC 1))
            = mat2 (RtoC 1 + RtoC eps)%C (RtoC eps) (RtoC 1) (RtoC 1)).
    rewrite mat2_id, !mat2_mul. apply mat2_inj; ring. }
  assert (Y : y = (2 * eps)%R).
  { rewrite Yv, CF, V0.
    cbn [otr omul odag osub MatAlg s_target s two_step trace_scale s_scale]. rewrite mat2_sub, mat2_dag, mat2_mul, mat2_tr. cbn. field. auto. }
  exists s, a, d, d1, g. splits; auto.
  - rewrite Ey, Y. reflexivity.
  - exists (fid_err_of s a), (fid_err_of s (with_entry a 0 0 eps)). splits; auto. rewrite V0, V1. field. auto.
  - intros DQ. destruct (DQ 0 0 0%R eq_refl) as (y' & e0 & e1 & F1 & F2 & F3 & F4).
    rewrite Rplus_0_l in F3. apply R0 in F2, F3; auto. rewrite Ey in F1. injection F1 as <-.
    rewrite F2, F3, V0, V1, Y in F4. assert (2 * eps = 2 + 2 * eps)%R; [|lra].
    rewrite F4 at 1. field. auto.
Qed.

(** Assumptions of all theorems of this file together (listed one by one in
    ASSUMPTIONS.txt). *)
Definition propsApprox :=
  (@C13_commuting_partial,
   @C13_one_slot_partial,
   @C13_default_propagators_refuted,
   @C13_order_refuted).
Print Assumptions propsApprox.
