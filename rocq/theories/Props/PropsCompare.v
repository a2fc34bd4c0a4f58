(** Properties C83 to C85: the figures of merit compared with each other, what
    a pulse does when everything commutes, and how far a pulse can reach.

    See [Spec/Compare.v] for the words used, [Spec/Physics.v] for [reports]
    (what an object says after a history of calls) and [ready], and
    [Spec/Robust.v] for bounds on operators and [error_limit]. *)
From Coq Require Import Reals Lra.
From Coquelicot Require Import Coquelicot.
From RecordUpdate Require Import RecordUpdate.
From Verif.Model Require Import Base Dyn.
From Verif.Lib Require Import Lists Csum Mat MExp MCalc MDiag.
From Verif.Spec Require Import Evolution History MatAlg Qubit Physics Laws Robust Compare.
From Verif.Proofs Require Import DynInv DynRun DynHist DynHistory DynProps DynMore MatFacts MatGrad MatProps QubitFacts
  PhysFacts PhysRotate PhysCut PhysCutGrad PhysShift LawFacts RobustFacts CompareFacts.
From Verif.Props Require Import PropsMatrix PropsPhysics PropsLaws PropsRobust.
Local Open Scope nat_scope.
Set Bullet Behavior "Strict Subproofs".

(** ** C83: the figures of merit *)
(** The reported error is the figure asked for, of the evolution reported with it. *)
Theorem C83_value N rt q (s : settings (MatAlg N rt)) n m st a ops :
  exact_routines N rt -> ready N rt q s n m a ops -> hamiltonian_problem N rt s -> gate_problem N rt q s ->
  exists U, isometry N q U /\ reports s st a ops U (figure N q s (s_target s) U).
Proof.
  intros EX H HH HG. pose proof (shape_latest N rt q s n m a ops H) as Ha. exists (final_of s (latest a ops)).
  pose proof (report N rt EX q s n m st a ops H) as R. destruct H as [W SP HD _ _]. split.
  - apply (final_iso N rt EX q s n m SP W HD); auto. apply HG.
  - rewrite <- (err_figure N rt EX q s n m (latest a ops) SP W HD HH HG Ha). exact R.
Qed.
(** Three objects for the same evolution, with the figures SU, PSU and
    trace difference. *)
Theorem C83_order N rt q (s1 s2 s3 : settings (MatAlg N rt)) n m st1 st2 st3 a1 a2 a3 ops1 ops2 ops3 :
  exact_routines N rt -> ready N rt q s1 n m a1 ops1 -> ready N rt q s2 n m a2 ops2 -> ready N rt q s3 n m a3 ops3 ->
  hamiltonian_problem N rt s1 -> gate_problem N rt q s1 ->
  hamiltonian_problem N rt s2 -> gate_problem N rt q s2 -> hamiltonian_problem N rt s3 -> gate_problem N rt q s3 ->
  same_evolution s1 s2 -> same_evolution s1 s3 ->
  s_fid s1 = FUnit -> s_phopt s1 = SU -> s_fid s2 = FUnit -> s_phopt s2 = PSU -> s_fid s3 = FTrace ->
  latest a2 ops2 = latest a1 ops1 -> latest a3 ops3 = latest a1 ops1 ->
  exists U v1 v2 v3, reports s1 st1 a1 ops1 U v1 /\ reports s2 st2 a2 ops2 U v2 /\ reports s3 st3 a3 ops3 U v3 /\
    (0 <= v2 <= 1)%R /\ (v2 <= v1 <= 2)%R /\ v3 = (2 * INR q * trace_scale s3 * v1)%R.
Proof.
  intros EX H1 H2 H3 HH1 HG1 HH2 HG2 HH3 HG3 E2 E3 F1 P1 F2 P2 F3 L2 L3.
  pose proof (shape_latest N rt q s1 n m a1 ops1 H1) as Ha1. pose proof (shape_latest N rt q s2 n m a2 ops2 H2) as Ha2. pose proof (shape_latest N rt q s3 n m a3 ops3 H3) as Ha3.
  pose proof (report N rt EX q s1 n m st1 a1 ops1 H1) as R1. pose proof (report N rt EX q s2 n m st2 a2 ops2 H2) as R2. pose proof (report N rt EX q s3 n m st3 a3 ops3 H3) as R3.
  destruct H1 as [W1 SP1 HD1 _ _], H2 as [W2 SP2 HD2 _ _], H3 as [W3 SP3 HD3 _ _].
  rewrite (err_figure N rt EX q _ n m _ SP1 W1 HD1 HH1 HG1 Ha1) in R1. rewrite (err_figure N rt EX q _ n m _ SP2 W2 HD2 HH2 HG2 Ha2) in R2.
  rewrite (err_figure N rt EX q _ n m _ SP3 W3 HD3 HH3 HG3 Ha3) in R3.
  rewrite L2, (final_evolution N rt s1 s2 _ E2), (se_target _ _ E2) in R2. rewrite L3, (final_evolution N rt s1 s3 _ E3), (se_target _ _ E3) in R3.
  pose proof HG1 as (HI & HT & Hq & _).
  pose proof (final_iso N rt EX q s1 n m SP1 W1 HD1 _ Ha1 HH1 HI) as FI.
  destruct (figures_order N q _ _ (trace_scale s3) Hq HT FI) as (O1 & O2 & O3).
  unfold figure in R1, R2, R3. rewrite F1, P1 in R1. rewrite F2, P2 in R2. rewrite F3 in R3.
  do 4 eexists. splits; eauto; lra.
Qed.
(** Not caring about the phase is taking the best phase. *)
Theorem C83_phase N rt q (s : settings (MatAlg N rt)) n m st a ops :
  exact_routines N rt -> ready N rt q s n m a ops -> hamiltonian_problem N rt s -> gate_problem N rt q s -> s_class s = Unitary ->
  s_fid s = FUnit -> s_phopt s = PSU ->
  exists U v, reports s st a ops U v /\
    (forall z, Cmod z = 1%R -> exists w, reports (towards z s <| s_phopt := SU |>) st a ops U w /\ (v <= w)%R) /\
    exists z, Cmod z = 1%R /\ reports (towards z s <| s_phopt := SU |>) st a ops U v.
Proof.
  intros EX H HH HG CU F P. pose proof (shape_latest N rt q s n m a ops H) as Ha. pose proof (report N rt EX q s n m st a ops H) as R.
  pose proof H as [W SP HD _ HO]. pose proof HG as (HI & HT & Hq & HC).
  rewrite (err_figure N rt EX q _ n m _ SP W HD HH HG Ha) in R. pose proof (final_iso N rt EX q s n m SP W HD _ Ha HH HI) as FI.
  assert (T : forall z, Cmod z = 1%R -> reports (towards z s <| s_phopt := SU |>) st a ops (final_of s (latest a ops)) (su_error q (mscal z (s_target s)) (final_of s (latest a ops)))).
  { intros z Hz. set (s' := towards z s <| s_phopt := SU |>).
    assert (SP' : sized_problem N rt q s').
    { destruct SP as [X1 X2 [X3 X3'] X4 X5]. constructor; auto. split; cbn; auto with mat. }
    assert (W' : well_posed s' n m) by (destruct W; constructor; auto).
    assert (HH' : hamiltonian_problem N rt s') by (destruct HH; constructor; auto).
    assert (HD' : diag_suits N rt s') by (intros E; destruct (HD E); split; auto).
    assert (HG' : gate_problem N rt q s').
    { split; [exact HI|]. split; [apply towards_iso; auto|]. split; auto. }
    assert (H' : ready N rt q s' n m a ops) by (constructor; auto; apply H).
    pose proof (report N rt EX q s' n m st a ops H') as R'. rewrite (err_figure N rt EX q _ n m _ SP' W' HD' HH' HG' Ha) in R'.
    unfold figure in R'. change (s_fid s') with (s_fid s) in R'. rewrite F in R'. exact R'. }
  unfold figure in R. rewrite F, P in R. destruct (phase_at_best N q _ _ Hq HT FI) as (B1 & z & Hz & B2).
  do 2 eexists. split; [exact R|]. split.
  - intros z' Hz'. eexists. split; [apply T; auto|]. apply B1; auto.
  - exists z. split; auto. rewrite B2. apply T; auto.
Qed.
Example C83_case p1 p2 p3 : p1 <> Approx -> p2 <> Approx -> p3 <> Approx ->
  let s1 := qubit sigma_x p1 FUnit SU (1/10) in let s2 := qubit sigma_x p2 FUnit PSU (1/10) in let s3 := qubit sigma_x p3 FTrace SU (1/10) in
  ready 2 qubit_routines 2 s1 2 1 qx_amps qx_ops /\ ready 2 qubit_routines 2 s2 2 1 qx_amps qx_ops /\ ready 2 qubit_routines 2 s3 2 1 qx_amps qx_ops /\
  hamiltonian_problem 2 qubit_routines s1 /\ gate_problem 2 qubit_routines 2 s1 /\ hamiltonian_problem 2 qubit_routines s2 /\ gate_problem 2 qubit_routines 2 s2 /\
  hamiltonian_problem 2 qubit_routines s3 /\ gate_problem 2 qubit_routines 2 s3 /\ same_evolution s1 s2 /\ same_evolution s1 s3 /\ s_class s2 = Unitary.
Proof.
  intros Q1 Q2 Q3 s1 s2 s3.
  destruct (ready_case sigma_x p1 FUnit SU (1/10)) as (H1 & _); auto; try apply sigma_x_herm; try lra.
  destruct (ready_case sigma_x p2 FUnit PSU (1/10)) as (H2 & _); auto; try apply sigma_x_herm; try lra.
  destruct (ready_case sigma_x p3 FTrace SU (1/10)) as (H3 & _); auto; try apply sigma_x_herm; try lra.
  subst s1 s2 s3. parts; auto using qubit_gate, qubit_ham; constructor; auto.
Qed.

(** ** C84: areas *)
(** When the drift and all controls are the same in every timeslot and
    commute, only the total time and the areas of the pulse matter: pulses of
    any other form, with any other timeslots, report the same. *)
Theorem C84_areas N rt q (s s' : settings (MatAlg N rt)) n n' m d cs st st' a a' ops ops' :
  exact_routines N rt -> ready N rt q s n m a ops -> ready N rt q s' n' m a' ops' -> same_task s s' ->
  steady N rt d cs s -> steady N rt d cs s' -> commuting N rt d cs s ->
  total (s_tau s') = total (s_tau s) ->
  (forall j, j < m -> area (s_tau s') (latest a' ops') j = area (s_tau s) (latest a ops) j) ->
  exists U v, reports s st a ops U v /\ reports s' st' a' ops' U v.
Proof.
  intros EX H H' K HS HS' HC ET EA. pose proof (shape_latest N rt q s n m a ops H) as Ha. pose proof (shape_latest N rt q s' n' m a' ops' H') as Ha'.
  destruct K as [K1 K2 K3 K4 K5 K6 K7 K8].
  assert (SR : same_rest s s').
  { constructor; auto. intros _. unfold undo_target. rewrite K1, K3. auto. }
  assert (PH : forall x, with_phase s' x = with_phase s x) by (intros x; unfold with_phase; rewrite K4, K5; auto).
  eapply equal_reports; eauto. destruct H as [W SP HD _ _], H' as [W' SP' HD' _ _].
  destruct (steady_final N rt EX q s n m d cs _ SP W HS HC Ha) as (M1 & M2 & L & ->).
  assert (HC' : commuting N rt d cs s') by (intros x y Hx Hy; rewrite !PH; apply HC; auto).
  destruct (steady_final N rt EX q s' n' m d cs _ SP' W' HS' HC' Ha') as (_ & _ & _ & ->).
  rewrite K2, ET, PH, (map_ext _ _ PH). rewrite (areas_same m (s_tau s) (s_tau s') (latest a ops) (latest a' ops')); auto; [apply Ha|apply Ha'].
Qed.
(** A drift and a control along the same axis. *)
Definition qubit_axis f po (ts : list R) : settings QAlg := qubit sigma_x Frechet f po (1/10) <| s_ctrls := Some (CList [(sigma_z : Op QAlg)]) |> <| s_tau := ts |>.
Lemma axis_ready f po ts a : 0 < length ts -> shape (length ts) 1 a -> ready 2 qubit_routines 2 (qubit_axis f po ts) (length ts) 1 a [].
Proof.
  intros L Ha. destruct (ready_case sigma_x Frechet f po (1/10)) as (H1 & _); auto; try discriminate; try apply sigma_x_herm; try lra.
  pose proof sigma_z_herm as [Mz Hz]. constructor; auto.
  - constructor; auto; [eexists; split; reflexivity|eexists; split; reflexivity].
  - destruct (rd_sized _ _ _ _ _ _ _ _ H1). constructor; auto. split; intros ? [= <-]; repeat constructor; apply Mz.
  - intros E; discriminate.
Qed.
Example C84_case f po : let s := qubit_axis f po [1/2; 1/2]%R in let s' := qubit_axis f po [1/4; 1/4; 1/2]%R in
  ready 2 qubit_routines 2 s 2 1 [[1]; [3]]%R [] /\ ready 2 qubit_routines 2 s' 3 1 [[2]; [2]; [2]]%R [] /\ same_task s s' /\
  steady 2 qubit_routines sigma_z [sigma_z] s /\ steady 2 qubit_routines sigma_z [sigma_z] s' /\ commuting 2 qubit_routines sigma_z [sigma_z] s /\
  total (s_tau s') = total (s_tau s) /\ (forall j, j < 1 -> area (s_tau s') [[2]; [2]; [2]]%R j = area (s_tau s) [[1]; [3]]%R j).
Proof.
  intros s s'. subst s s'. parts.
  - apply (axis_ready f po [1/2; 1/2]%R); cbn; [lia|]. split; auto; repeat constructor.
  - apply (axis_ready f po [1/4; 1/4; 1/2]%R); cbn; [lia|]. split; auto; repeat constructor.
  - constructor; auto.
  - split; reflexivity.
  - split; reflexivity.
  - intros x y [<-|[<-|[]]] [<-|[<-|[]]]; auto.
  - unfold total. cbn. lra.
  - intros [|j] Hj; [|lia]. unfold area, total. cbn. lra.
Qed.

(** ** C85: how far a pulse can reach *)
(** However a pulse is formed, it moves the initial operator, and with it the
    error, no further than the total of durations times strengths allows. *)
Theorem C85_reach N rt q (s : settings (MatAlg N rt)) n m ds cs st a ops :
  exact_routines N rt -> ready N rt q s n m a ops -> hamiltonian_problem N rt s -> bounds_drifts N rt ds s -> bounds_ctrls N rt cs s ->
  let e := drive (s_tau s) ds cs (latest a ops) in
  exists U v, reports s st a ops U v /\
    (distance N q U (s_initial s) <= e * size N q (s_initial s))%R /\
    (gate_problem N rt q s -> (Rabs (v - figure N q s (s_target s) (s_initial s)) <= error_limit N rt q s e)%R).
Proof.
  intros EX H HH B1 B2 e. pose proof (shape_latest N rt q s n m a ops H) as Ha. do 2 eexists. split; [eapply report; eauto|].
  destruct H as [W SP HD _ _]. apply (moved N rt EX q n m s SP W HD HH ds cs _ B1 B2 Ha).
Qed.
(** So a pulse that reports the goal [g] needs at least this much. *)
Theorem C85_needed N rt q (s : settings (MatAlg N rt)) n m ds cs st a ops U v g :
  exact_routines N rt -> ready N rt q s n m a ops -> hamiltonian_problem N rt s -> gate_problem N rt q s -> bounds_drifts N rt ds s -> bounds_ctrls N rt cs s ->
  reports s st a ops U v -> (v <= g)%R ->
  (figure N q s (s_target s) (s_initial s) - g <= error_limit N rt q s (drive (s_tau s) ds cs (latest a ops)))%R.
Proof.
  intros EX H HH HG B1 B2 R Hv. destruct (C85_reach N rt q s n m ds cs st a ops EX H HH B1 B2) as (U' & v' & R' & _ & D).
  assert (v' = v) as ->.
  { destruct R as (d & d1 & b & d2 & d3 & E1 & _ & _ & E2), R' as (d' & d1' & b' & d2' & d3' & E1' & _ & _ & E2').
    rewrite E1 in E1'. injection E1' as <-. rewrite E2 in E2'. injection E2'. auto. }
  specialize (D HG). unfold Rabs in D. destruct (Rcase_abs _); lra.
Qed.
Example C85_case p f po : p <> Approx -> let s := qubit sigma_x p f po (1/10) in
  ready 2 qubit_routines 2 s 2 1 qx_amps qx_ops /\ hamiltonian_problem 2 qubit_routines s /\ gate_problem 2 qubit_routines 2 s /\
  bounds_drifts 2 qubit_routines [1; 1]%R s /\ bounds_ctrls 2 qubit_routines [[1%R]; [1%R]] s /\
  drive (s_tau s) [1; 1]%R [[1%R]; [1%R]] (latest qx_amps qx_ops) = 1%R /\
  su_error 2 sigma_x (mid 2) = 1%R.
Proof.
  intros Hp s. destruct (ready_case sigma_x p f po (1/10)) as (H1 & H2 & H3); auto; try apply sigma_x_herm; try lra.
  subst s; parts; auto using qubit_gate, qubit_ham.
  - eexists. split; [reflexivity|]. rows; apply sigma_z_bound.
  - eexists. split; [reflexivity|]. rows; apply sigma_x_bound.
  - rewrite H2. unfold drive, model_error, over_slots, weight, total. cbn. rewrite Rabs_R0. rewrite Rabs_right by lra. lra.
  - unfold su_error. rewrite (proj2 sigma_x_herm), (mmul_1_r 2 2) by apply sigma_x_herm. unfold sigma_x, mat2, mtr. cbn. lra.
Qed.

(** Assumptions of all theorems of this file together (listed one by one in
    ASSUMPTIONS.txt). *)
Definition propsCompare :=
  (@C83_value,
   @C83_order,
   @C83_phase,
   @C84_areas,
   @C85_reach,
   @C85_needed).
Print Assumptions propsCompare.
