(** Properties C80 and C81: how far the reported evolution and error of a
    Hamiltonian problem can move when the amplitudes, the operators or the
    durations are a little off, and how steep the error can be.

    See [Spec/Robust.v] for the words used, [Spec/Physics.v] for [reports]
    (what an object says after a history of calls) and [ready]. *)
From Coq Require Import Reals Lra.
From Coquelicot Require Import Coquelicot.
From RecordUpdate Require Import RecordUpdate.
From Verif.Model Require Import Base Dyn.
From Verif.Lib Require Import Lists Csum Mat MExp MCalc MDiag.
From Verif.Spec Require Import Evolution History MatAlg Qubit Physics Laws Robust.
From Verif.Proofs Require Import DynInv DynRun DynHist DynHistory DynProps DynMore MatFacts MatGrad MatProps QubitFacts
  PhysFacts PhysRotate PhysCut PhysCutGrad PhysShift LawFacts RobustFacts.
From Verif.Props Require Import PropsMatrix PropsPhysics PropsLaws.
Local Open Scope nat_scope.
Set Bullet Behavior "Strict Subproofs".

(** ** C80: small deviations *)
(** The amplitudes are off. *)
Theorem C80_pulse N rt q (s : settings (MatAlg N rt)) n m cs st st' a b ops ops' :
  exact_routines N rt -> ready N rt q s n m a ops -> ready N rt q s n m b ops' -> hamiltonian_problem N rt s -> bounds_ctrls N rt cs s ->
  let e := pulse_error (s_tau s) cs (latest a ops) (latest b ops') in
  exists U v U' v', reports s st a ops U v /\ reports s st' b ops' U' v' /\
    (distance N q U U' <= e * size N q (s_initial s))%R /\
    (gate_problem N rt q s -> (Rabs (v - v') <= error_limit N rt q s e)%R).
Proof.
  intros EX H H' HH HB e. pose proof (shape_latest N rt q s n m a ops H) as Ha. pose proof (shape_latest N rt q s n m b ops' H') as Hb.
  do 4 eexists. split; [eapply report; eauto|]. split; [eapply report; eauto|]. destruct H as [W SP HD _ _].
  pose proof (pulse_close N rt EX q n m s SP W HD HH cs _ _ HB Ha Hb) as Q. split; [exact Q|]. intros (G1 & G2 & G3 & G4).
  apply (errors_close N rt EX q n m s s SP SP W W HD HD HH HH eq_refl); auto. constructor; auto.
Qed.
(** The operators are off. *)
Theorem C80_model N rt q (s s' : settings (MatAlg N rt)) n m ds es st st' a b ops ops' :
  exact_routines N rt -> ready N rt q s n m a ops -> ready N rt q s' n m b ops' -> hamiltonian_problem N rt s -> hamiltonian_problem N rt s' ->
  like s s' -> s_initial s' = s_initial s -> s_tau s' = s_tau s -> bounds_diffs N rt ds es s s' -> latest b ops' = latest a ops ->
  let e := model_error (s_tau s) ds es (latest a ops) in
  exists U v U' v', reports s st a ops U v /\ reports s' st' b ops' U' v' /\
    (distance N q U U' <= e * size N q (s_initial s))%R /\
    (gate_problem N rt q s -> (Rabs (v - v') <= error_limit N rt q s e)%R).
Proof.
  intros EX H H' HH HH' LK EI ET HB L e. pose proof (shape_latest N rt q s n m a ops H) as Ha.
  do 4 eexists. split; [eapply report; eauto|]. split; [eapply report; eauto|]. rewrite L. destruct H as [W SP HD _ _]. destruct H' as [W' SP' HD' _ _].
  pose proof (model_close N rt EX q n m s s' SP SP' W W' HD HD' HH HH' EI ds es _ ET HB Ha) as Q. split; [exact Q|]. intros (G1 & G2 & G3 & G4).
  apply (errors_close N rt EX q n m s s' SP SP' W W' HD HD' HH HH' EI); auto.
Qed.
(** The durations are off. *)
Theorem C80_timing N rt q (s s' : settings (MatAlg N rt)) n m ds cs st st' a b ops ops' :
  exact_routines N rt -> ready N rt q s n m a ops -> ready N rt q s' n m b ops' -> hamiltonian_problem N rt s -> hamiltonian_problem N rt s' ->
  like s s' -> s_initial s' = s_initial s -> slot_drifts s' = slot_drifts s -> slot_ctrls s' = slot_ctrls s ->
  bounds_drifts N rt ds s -> bounds_ctrls N rt cs s -> latest b ops' = latest a ops ->
  let e := timing_error (s_tau s) (s_tau s') ds cs (latest a ops) in
  exists U v U' v', reports s st a ops U v /\ reports s' st' b ops' U' v' /\
    (distance N q U U' <= e * size N q (s_initial s))%R /\
    (gate_problem N rt q s -> (Rabs (v - v') <= error_limit N rt q s e)%R).
Proof.
  intros EX H H' HH HH' LK EI ED EC HB HB' L e. pose proof (shape_latest N rt q s n m a ops H) as Ha.
  do 4 eexists. split; [eapply report; eauto|]. split; [eapply report; eauto|]. rewrite L. destruct H as [W SP HD _ _]. destruct H' as [W' SP' HD' _ _].
  pose proof (timing_close N rt EX q n m s s' SP SP' W W' HD HD' HH HH' EI ds cs _ ED EC HB HB' Ha) as Q. split; [exact Q|]. intros (G1 & G2 & G3 & G4).
  apply (errors_close N rt EX q n m s s' SP SP' W W' HD HD' HH HH' EI); auto.
Qed.

Ltac rows := cbn; repeat first [apply Forall2_nil|apply Forall2_cons].
Ltac parts := repeat match goal with |- _ /\ _ => apply conj end.
(** Cases: the qubit, meant to become sigma_x. *)
Lemma sigma_x_iso : isometry 2 2 sigma_x.
Proof.
  split; [apply sigma_x_herm|]. rewrite (proj2 sigma_x_herm). unfold sigma_x. rewrite mat2_mul, mat2_id. f_equal; apply injective_projections; cbn; ring.
Qed.
Lemma sigma_x_bound : bounds 2 1 sigma_x.
Proof. apply unitary_bounds. destruct sigma_x_iso as [[S P] E]. pose proof (proj2 sigma_x_herm) as H. split; auto. split; auto. split; auto. rewrite H in *. auto. Qed.
Lemma sigma_z_bound : bounds 2 1 sigma_z.
Proof.
  apply unitary_bounds. destruct sigma_z_herm as [[S P] E]. assert (Q : mmul (mdag sigma_z) sigma_z = mid 2).
  { rewrite E. unfold sigma_z. rewrite mat2_mul, mat2_id. f_equal; apply injective_projections; cbn; ring. }
  split; auto. split; auto. split; auto. rewrite E in *. auto.
Qed.
Lemma mid_iso N : isometry N N (mid N).
Proof. split; [split; auto with mat|]. rewrite mdag_id. apply (mmul_1_l N N); auto with mat. Qed.
Lemma qubit_gate p f po prec : gate_problem 2 qubit_routines 2 (qubit sigma_x p f po prec).
Proof. split; [apply mid_iso|]. split; [apply sigma_x_iso|]. split; auto. Qed.
Lemma qubit_ham T p f po prec : hamiltonian_problem 2 qubit_routines (qubit T p f po prec).
Proof. split; [|reflexivity]. split; intros ? [= <-]; cbn; repeat constructor; (apply sigma_z_herm || apply sigma_x_herm). Qed.
Example C80_pulse_case p f po : p <> Approx -> let s := qubit sigma_x p f po (1/10) in
  ready 2 qubit_routines 2 s 2 1 qx_amps qx_ops /\ ready 2 qubit_routines 2 s 2 1 [[1/10]; [-1/5]]%R [] /\
  hamiltonian_problem 2 qubit_routines s /\ bounds_ctrls 2 qubit_routines [[1%R]; [1%R]] s /\ gate_problem 2 qubit_routines 2 s /\
  pulse_error (s_tau s) [[1%R]; [1%R]] (latest qx_amps qx_ops) [[1/10]; [-1/5]]%R = (3/20)%R.
Proof.
  intros Hp s. destruct (ready_case sigma_x p f po (1/10)) as (H1 & H2 & H3); auto; try apply sigma_x_herm; try lra.
  try subst s'; subst s; parts; auto using qubit_gate, qubit_ham.
  - destruct H1 as [W SP HD _ _]. constructor; auto. split; auto; repeat constructor.
  - eexists. split; [reflexivity|]. rows; apply sigma_x_bound.
  - rewrite H2. unfold pulse_error, over_slots, weight_diff, total. cbn. rewrite (Rabs_right (1/2)), (Rabs_left (0 - 1/10)), (Rabs_right (0 - -1/5)) by lra. lra.
Qed.
Definition qubit_drifted f po : settings QAlg := qubit sigma_x Frechet f po (1/10) <| s_drift := Some (DConst (mscal (RtoC (11/10)) sigma_z : Op QAlg)) |>.
Example C80_model_case f po : let s := qubit sigma_x Frechet f po (1/10) in let s' := qubit_drifted f po in
  ready 2 qubit_routines 2 s 2 1 qx_amps qx_ops /\ ready 2 qubit_routines 2 s' 2 1 zeros [] /\
  hamiltonian_problem 2 qubit_routines s /\ hamiltonian_problem 2 qubit_routines s' /\ like s s' /\
  bounds_diffs 2 qubit_routines [1/10; 1/10]%R [[0%R]; [0%R]] s s' /\ latest zeros [] = latest qx_amps qx_ops /\ gate_problem 2 qubit_routines 2 s /\
  model_error (s_tau s) [1/10; 1/10]%R [[0%R]; [0%R]] (latest qx_amps qx_ops) = (1/10)%R.
Proof.
  intros s s'. destruct (ready_case sigma_x Frechet f po (1/10)) as (H1 & H2 & H3); auto; try apply sigma_x_herm; try lra; try discriminate.
  pose proof sigma_z_herm as [[Sz Pz] Hz]. pose proof sigma_x_herm as [Mx Hx].
  assert (D : differ_by 2 (1/10) (sigma_z, mscal (RtoC (11/10)) sigma_z)).
  { unfold differ_by. cbn [fst snd]. replace (msub sigma_z (mscal (RtoC (11/10)) sigma_z)) with (mscal (RtoC (- (1/10))) sigma_z).
    - replace (1/10)%R with (1 * Rabs (- (1/10)))%R at 1 by (rewrite Rabs_left; lra). apply bounds_real; auto using sigma_z_bound.
    - apply (mat_ext 2 2); auto with mat. intros i j Hi Hj. rewrite (msub_ent 2 2), !(mscal_ent 2 2) by auto with mat. apply injective_projections; cbn; lra. }
  assert (D0 : differ_by 2 0 (sigma_x, sigma_x)) by (apply bounds_zero; apply Mx).
  try subst s'; subst s; parts; auto using qubit_gate, qubit_ham.
  - constructor.
    + constructor; auto; [eexists; split; reflexivity|eexists; split; reflexivity].
    + destruct (rd_sized _ _ _ _ _ _ _ _ H1). constructor; auto. split; intros ? [= <-]; repeat constructor; try apply Mx; auto with mat.
    + intros E; discriminate.
    + split; auto; repeat constructor.
    + constructor.
  - split; [|reflexivity]. split; intros ? [= <-]; cbn; repeat constructor; auto. unfold hermitian. rewrite (mdag_scal 2 2), Hz by auto. f_equal. apply injective_projections; cbn; ring.
  - constructor; auto.
  - split; do 2 eexists; (split; [reflexivity|split; [reflexivity|split]]); auto; rows; auto.
  - rewrite H2. unfold model_error, over_slots, weight, total. cbn. rewrite Rabs_right by lra. lra.
Qed.
Example C80_timing_case f po : let s := qubit sigma_x Frechet f po (1/10) in let s' := s <| s_tau := [1/2; 3/5]%R |> in
  ready 2 qubit_routines 2 s 2 1 qx_amps qx_ops /\ ready 2 qubit_routines 2 s' 2 1 zeros [] /\
  hamiltonian_problem 2 qubit_routines s' /\ like s s' /\ slot_drifts s' = slot_drifts s /\ slot_ctrls s' = slot_ctrls s /\
  bounds_drifts 2 qubit_routines [1; 1]%R s /\ bounds_ctrls 2 qubit_routines [[1%R]; [1%R]] s /\ latest zeros [] = latest qx_amps qx_ops /\
  timing_error (s_tau s) (s_tau s') [1; 1]%R [[1%R]; [1%R]] (latest qx_amps qx_ops) = (1/10)%R.
Proof.
  intros s s'. destruct (ready_case sigma_x Frechet f po (1/10)) as (H1 & H2 & H3); auto; try apply sigma_x_herm; try lra; try discriminate.
  parts; auto.
  - constructor.
    + constructor; auto; [eexists; split; reflexivity|eexists; split; reflexivity].
    + destruct (rd_sized _ _ _ _ _ _ _ _ H1). constructor; auto.
    + intros E; discriminate.
    + split; auto; repeat constructor.
    + constructor.
  - destruct (qubit_ham sigma_x Frechet f po (1/10)). constructor; auto.
  - constructor; auto.
  - eexists. split; [reflexivity|]. rows; apply sigma_z_bound.
  - eexists. split; [reflexivity|]. rows; apply sigma_x_bound.
  - rewrite H2. unfold timing_error, model_error, over_slots, weight, total. cbn. rewrite (Rabs_left (1/2 - 3/5)), (Rabs_right (1/2 - 1/2)), Rabs_R0 by lra. lra.
Qed.

(** ** C81: how steep the error can be *)
(** No entry of the reported gradient exceeds the duration of its slot times
    the bound of its control. *)
Theorem C81_slope N rt q (s : settings (MatAlg N rt)) n m st a ops :
  exact_routines N rt -> ready N rt q s n m a ops -> hamiltonian_problem N rt s -> gate_problem N rt q s -> exact_gradients N rt s (latest a ops) ->
  exists g, reports_gradient s st a ops g /\ shape n m g /\
    forall k j t h cj c y, slot_at s n m (latest a ops) k j t h cj -> bounds N c (cj : mat) -> entry g k j = Some y ->
      (Rabs y <= error_limit N rt q s (Rabs t * c))%R.
Proof.
  intros EX H HH (G1 & G2 & G3 & G4) HG. destruct (gradient N rt EX q s n m st a ops H HG) as (g & R & [_ G] & S). exists g. splits; auto.
  intros k j t h cj c y SL HB E. destruct H as [W SP HD _ _]. pose proof (eq_trans (eq_sym (G k j)) E) as Q.
  eapply (slope_entry N rt EX q n m s SP W HD HH); eauto.
Qed.
Example C81_case p f po : p <> Approx -> let s := qubit sigma_x p f po (1/10) in
  ready 2 qubit_routines 2 s 2 1 qx_amps qx_ops /\ gate_problem 2 qubit_routines 2 s /\ exact_gradients 2 qubit_routines s (latest qx_amps qx_ops) /\
  slot_at s 2 1 (latest qx_amps qx_ops) 1 0 (1/2) (lincomb (A := QAlg) (sigma_z : Op QAlg) [0%R] [(sigma_x : Op QAlg)]) (sigma_x : Op QAlg) /\
  bounds 2 1 sigma_x /\ error_limit 2 qubit_routines 2 s (Rabs (1/2) * 1) = (match f with FUnit => 1/2 | FTrace => 1 end)%R.
Proof.
  intros Hp s. destruct (ready_case sigma_x p f po (1/10)) as (H1 & H2 & H3); auto; try apply sigma_x_herm; try lra.
  try subst s'; subst s; parts; auto using qubit_gate, sigma_x_bound.
  - rewrite H2. split; [split; auto; repeat constructor|]. split; [reflexivity|]. split; [reflexivity|]. do 2 eexists. split; [reflexivity|]. split; reflexivity.
  - unfold error_limit. cbn. rewrite (Rabs_right (1/2)) by lra. destruct f; [lra|]. unfold trace_scale. cbn. rewrite Rabs_right by lra. lra.
Qed.

(** Assumptions of all theorems of this file together (listed one by one in
    ASSUMPTIONS.txt). *)
Definition propsRobust :=
  (@C80_pulse,
   @C80_model,
   @C80_timing,
   @C81_slope).
Print Assumptions propsRobust.
