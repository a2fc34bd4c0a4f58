(** The qubit of [Spec/Qubit.v] meets the hypotheses of the theorems. *)
From Coq Require Import Reals Lra.
From Coquelicot Require Import Coquelicot.
From RecordUpdate Require Import RecordUpdate.
From Verif.Model Require Import Base Dyn.
From Verif.Lib Require Import Lists Csum Mat MExp MCalc MDiag.
From Verif.Spec Require Import Evolution History MatAlg Qubit.
From Verif.Proofs Require Import DynInv DynRun DynHist DynHistory DynProps MatFacts MatGrad MatProps.
Local Open Scope nat_scope.
Set Bullet Behavior "Strict Subproofs".

Lemma plain_exact N r : r_expm r = mexp -> r_frechet r = (fun x e => (mexp x, mdexp x e)) -> r_inv r = (fun x => x) -> exact_routines N r.
Proof.
  intros E1 E2 E3. constructor; rewrite ?E1, ?E2, ?E3; auto.
  intros x e [Sx Px] [Se Pe]. cbn [fst snd]. splits; auto using mdexp_proper.
  pose proof (mexp_derive N x e 0%R Sx Se) as D.
  split; [intros; apply mexp_sized; auto with mat|]. split; [apply mdexp_sized; auto|].
  intros i j Hi Hj. specialize (D i j Hi Hj).
  eapply derC_ext; [|exact D]. intros t. cbn beta. rewrite Rminus_0_r. auto.
Qed.
Lemma qubit_exact : exact_routines 2 qubit_routines.
Proof. apply plain_exact; auto. Qed.

Lemma mat2_sized a b c d : sized 2 2 (mat2 a b c d). Proof. split; auto. Qed.
Lemma mat2_proper a b c d : proper (mat2 a b c d). Proof. apply tab_proper. Qed.
#[export] Hint Resolve mat2_sized mat2_proper : mat.
Lemma mat2_eq h : matrix 2 2 h -> h = mat2 (ent h 0 0) (ent h 0 1) (ent h 1 0) (ent h 1 1).
Proof.
  intros [S P]. apply (mat_ext 2 2); auto with mat. intros [|[|i]] [|[|j]] Hi Hj; try lia; reflexivity.
Qed.
Lemma mat2_mul a b c d a' b' c' d' : mmul (mat2 a b c d) (mat2 a' b' c' d') =
  mat2 (a * a' + b * c')%C (a * b' + b * d')%C (c * a' + d * c')%C (c * b' + d * d')%C.
Proof.
  apply (mat_ext 2 2); eauto with mat. intros i j Hi Hj. rewrite (mmul_ent 2 2 2) by auto with mat.
  destruct i as [|[|i]]; destruct j as [|[|j]]; try lia; unfold mat2; rewrite ?ent_tab by lia; cbn; rewrite ?ent_tab by lia; ring.
Qed.
Lemma mat2_dag a b c d : mdag (mat2 a b c d) = mat2 (Cconj a) (Cconj c) (Cconj b) (Cconj d).
Proof.
  apply (mat_ext 2 2); eauto with mat. intros i j Hi Hj. rewrite (mdag_ent 2 2) by auto with mat.
  destruct i as [|[|i]]; destruct j as [|[|j]]; try lia; reflexivity.
Qed.
Lemma mat2_id : mid 2 = mat2 (RtoC 1) (RtoC 0) (RtoC 0) (RtoC 1).
Proof. apply (mat_ext 2 2); eauto with mat. intros [|[|i]] [|[|j]] Hi Hj; try lia; reflexivity. Qed.
Lemma mat2_diag f : mdiag 2 f = mat2 (f 0) (RtoC 0) (RtoC 0) (f 1).
Proof. apply (mat_ext 2 2); eauto with mat. intros [|[|i]] [|[|j]] Hi Hj; try lia; reflexivity. Qed.
Lemma mat2_unitary a b c d : mmul (mdag (mat2 a b c d)) (mat2 a b c d) = mid 2 -> mmul (mat2 a b c d) (mdag (mat2 a b c d)) = mid 2 ->
  unitary 2 (mat2 a b c d).
Proof. intros H1 H2. split; [|split]; auto with mat. Qed.

Lemma mat2_inj a b c d a' b' c' d' : a = a' -> b = b' -> c = c' -> d = d' -> mat2 a b c d = mat2 a' b' c' d'.
Proof. intros -> -> -> ->. auto. Qed.
Lemma Cpair_eq (a b c d : R) : a = c -> b = d -> (a, b) = (c, d).
Proof. intros -> ->. auto. Qed.

Lemma qubit_eigh : exact_eigh 2 qubit_routines.
Proof.
  intros h Hm Hh. assert (E : h = mat2 (RtoC (Re (ent h 0 0))) (ent h 0 1) (Cconj (ent h 0 1)) (RtoC (Re (ent h 1 1)))).
  { rewrite (mat2_eq h Hm) at 1. destruct Hm as [S P]. unfold hermitian in Hh.
    assert (Q : forall i j, i < 2 -> j < 2 -> ent h i j = Cconj (ent h j i)).
    { intros i j Hi Hj. rewrite <- Hh at 1. apply (mdag_ent 2 2); auto. }
    apply mat2_inj; auto.
    - pose proof (Q 0 0 ltac:(lia) ltac:(lia)) as H0. destruct (ent h 0 0) as [x y]. injection H0. intros. cbn. apply Cpair_eq; lra.
    - pose proof (Q 1 1 ltac:(lia) ltac:(lia)) as H0. destruct (ent h 1 1) as [x y]. injection H0. intros. cbn. apply Cpair_eq; lra. }
  cbn [r_eigh qubit_routines]. unfold eigh2.
  set (a := Re (ent h 0 0)) in *. set (d := Re (ent h 1 1)) in *. destruct (ent h 0 1) as [p w] eqn:Eb. clear Eb.
  destruct (Req_EM_T (Cmod (p, w)) 0) as [Z|Z]; cbn [fst snd].
  - apply Cmod_eq_0 in Z. injection Z as -> ->. split; [apply unitary_id|].
    rewrite E, mat2_diag, mat2_id, mat2_dag, !mat2_mul. apply mat2_inj; apply C_eq; cbn; ring.
  - set (e := ((a - d) / 2)%R). set (b2 := (Cmod (p, w) * Cmod (p, w))%R).
    assert (Hb2 : b2 = (p * p + w * w)%R) by (unfold b2; rewrite Cmod_sqr; cbn; ring).
    assert (Hbp : (0 < b2)%R) by (unfold b2; pose proof (Cmod_ge_0 (p, w)); nra).
    set (r := sqrt (e * e + b2)). assert (Hr : (r * r = e * e + b2)%R) by (apply sqrt_sqrt; nra).
    assert (Hr0 : (0 <= r)%R) by apply sqrt_pos.
    assert (Hx : (0 < r - e)%R) by (destruct (Rle_lt_dec e 0); nra).
    assert (Hrp : (0 < r)%R) by nra.
    set (x := (r - e)%R) in *. set (nu := sqrt (2 * x * r)).
    assert (Hnu : (nu * nu = 2 * x * r)%R) by (apply sqrt_sqrt; nra).
    assert (Hnp : (nu <> 0)%R) by (intros Q; rewrite Q in Hnu; nra).
    assert (Hq : (p * p + w * w = x * (x + 2 * e))%R) by (unfold x; nra).
    assert (Hre : r = (x + e)%R) by (unfold x; ring).
    assert (Ha : a = ((a + d) / 2 + e)%R) by (unfold e; field). assert (Hd : d = ((a + d) / 2 - e)%R) by (unfold e; field).
    set (mm := ((a + d) / 2)%R) in *.
    assert (D : forall u v, ((u, v) / RtoC nu)%C = (u * / nu, v * / nu)%R).
    { intros. apply C_eq; cbn; field; auto. }
    change (Cconj (p, w)) with (p, (- w)%R) in *. rewrite !D. unfold Rdiv.
    assert (Hk : (/ nu * / nu * (2 * x * (x + e)) = 1)%R) by (rewrite <- Hre, <- Hnu; field; auto).
    set (i := (/ nu)%R) in *. clearbody i mm e b2 r x. subst r.
    assert (Q1 : ((p * p + w * w) * (i * i) + x * x * (i * i) = 1)%R) by (rewrite Hq, <- Hk; ring).
    assert (Q2 : ((p * p + w * w) * (i * i) * (mm + (x + e)) + x * x * (i * i) * (mm - (x + e)) = mm + e)%R).
    { rewrite Hq. transitivity ((mm + e) * (i * i * (2 * x * (x + e))))%R; [ring|]. rewrite Hk. ring. }
    assert (Q3 : ((p * p + w * w) * (i * i) * (mm - (x + e)) + x * x * (i * i) * (mm + (x + e)) = mm - e)%R).
    { rewrite Hq. transitivity ((mm - e) * (i * i * (2 * x * (x + e))))%R; [ring|]. rewrite Hk. ring. }
    assert (Q4 : forall y, (y = y * (x * (i * i) * (mm + (x + e)) - x * (i * i) * (mm - (x + e))))%R).
    { intros y. transitivity (y * (i * i * (2 * x * (x + e))))%R; [rewrite Hk|]; ring. }
    split.
    + apply mat2_unitary; rewrite mat2_dag, mat2_mul, mat2_id; apply mat2_inj; apply C_eq; cbn; try (rewrite <- Q1); ring.
    + rewrite E, Ha, Hd. rewrite mat2_diag, mat2_dag, !mat2_mul. apply mat2_inj; apply C_eq; cbn.
      all: first [rewrite <- Q2; ring | rewrite <- Q3; ring | ring | idtac].
      all: first [etransitivity; [apply (Q4 p)|ring] | etransitivity; [apply (Q4 w)|ring] | etransitivity; [apply (Q4 (- w)%R)|ring]].
Qed.

Lemma sigma_x_herm : matrix 2 2 sigma_x /\ hermitian sigma_x.
Proof. split; [split; apply mat2_sized || apply mat2_proper|]. unfold hermitian, sigma_x. rewrite mat2_dag, !Cconj_R. auto. Qed.
Lemma sigma_z_herm : matrix 2 2 sigma_z /\ hermitian sigma_z.
Proof. split; [split; apply mat2_sized || apply mat2_proper|]. unfold hermitian, sigma_z. rewrite mat2_dag, !Cconj_R. auto. Qed.

Section Qubit.
Context (T : mat) (p : propkind) (f : fidkind) (po : phopt) (prec : R).
Notation s := (qubit T p f po prec).
Lemma qubit_gens (P : mat -> Prop) : P sigma_x -> P sigma_z -> generators_all 2 qubit_routines P s.
Proof. intros H1 H2. split; cbn; intros x [= <-]; cbn; auto. Qed.
Lemma qubit_sized : matrix 2 2 T -> sized_problem 2 qubit_routines 2 s.
Proof.
  intros HT. constructor; cbn; auto.
  - apply qubit_gens; [apply sigma_x_herm|apply sigma_z_herm].
  - split; auto with mat.
Qed.
Lemma qubit_ham : hamiltonian_problem 2 qubit_routines s.
Proof. constructor; auto. apply qubit_gens; [apply sigma_x_herm|apply sigma_z_herm]. Qed.
Lemma qubit_suits : diag_suits 2 qubit_routines s.
Proof. intros _. split; [apply qubit_ham|apply qubit_eigh]. Qed.
Lemma qubit_well : well_posed s 2 1.
Proof.
  constructor; cbn; auto.
  - eexists; split; [reflexivity|]. cbn. auto.
  - eexists; split; [reflexivity|]. cbn. auto.
Qed.
(** At zero amplitudes. *)
Definition zeros : amps := [[0%R]; [0%R]].
Lemma zeros_gen : lincomb (A := QAlg) sigma_z [0%R] [sigma_x] = sigma_z.
Proof.
  cbn. apply (mat_ext 2 2); eauto with mat; try apply sigma_z_herm. intros i j Hi Hj.
  rewrite (madd_ent 2 2), (mscal_ent 2 2) by (auto; apply sigma_z_herm || apply sigma_x_herm). ring.
Qed.
Lemma zeros_gens : gens_of s zeros = [sigma_z; sigma_z].
Proof. cbn. pose proof zeros_gen as H. cbn in H. rewrite H. auto. Qed.
Lemma zeros_diag : (0 < prec <= 1)%R -> diag_exact_at 2 qubit_routines s zeros.
Proof.
  intros Hp _. split; [apply Hp|]. rewrite zeros_gens. intros k t g Et Eg.
  assert (g = sigma_z /\ t = (1/2)%R) as [-> ->].
  { destruct k as [|[|k]]; cbn in *; try (injection Et as <-; injection Eg as <-; auto). destruct k; discriminate. }
  assert (E : eigh2 sigma_z = (fun i => match i with 0 => 1%R | _ => (-1)%R end, mid 2)).
  { unfold eigh2. cbn [ent sigma_z mat2 tab Nat.ltb Nat.leb andb Re]. destruct Req_EM_T as [_|n]; auto. exfalso. apply n. apply Cmod_0. }
  cbn [r_eigh qubit_routines]. rewrite E. cbn [fst]. intros [|[|i]] [|[|j]] Hi Hj; try lia; auto; right.
  - rewrite Rabs_left; cbn; lra.
  - rewrite Rabs_pos_eq; cbn; lra.
Qed.
Lemma mexp_diag N g : mexp (mdiag N g) = mdiag N (fun i => cexpS (g i)).
Proof.
  assert (Q : forall h, spectral N (mid N) h = mdiag N h).
  { intros h. unfold spectral. rewrite mdag_id, (mmul_1_l N N), (mmul_1_r N N); auto with mat. }
  rewrite <- !Q. apply mexp_spectral. apply unitary_id.
Qed.
Lemma zeros_final : final_of s zeros = mat2 (cos 1, (- sin 1)%R) (RtoC 0) (RtoC 0) (cos 1, sin 1).
Proof.
  unfold final_of, props_of. rewrite zeros_gens. cbn [s_tau qubit propagators map2 s_initial].
  assert (E : propagator s (1/2)%R sigma_z = mat2 (cos (1/2), (- sin (1/2))%R) (RtoC 0) (RtoC 0) (cos (1/2), sin (1/2))).
  { unfold propagator, with_phase. cbn [oexpm oscale MatAlg qubit_routines r_expm s_phase s_phapp qubit].
    replace (mscal (RtoC (1/2)) (mscal (- Ci)%C sigma_z)) with (mdiag 2 (fun i => match i with 0 => (0, -(1/2)) | _ => (0, (1/2)) end)%R).
    - rewrite mexp_diag, mat2_diag, !cexpS_imag, cos_neg, sin_neg. auto.
    - apply (mat_ext 2 2); eauto with mat. { apply mscal_sized, mscal_sized, sigma_z_herm. }
      intros i j Hi Hj. rewrite (mscal_ent 2 2), (mscal_ent 2 2) by (auto; try apply mscal_sized; apply sigma_z_herm).
      destruct i as [|[|i]]; destruct j as [|[|j]]; try lia; cbn; apply C_eq; cbn; field. }
  unfold propagators. cbn [map2]. rewrite E. cbn [evolve fold_left omul MatAlg]. rewrite (mmul_1_r 2 2), mat2_mul by auto with mat.
  pose proof (cos_plus (1/2) (1/2)) as C2. pose proof (sin_plus (1/2) (1/2)) as S2.
  replace (1/2 + 1/2)%R with 1%R in * by field. apply mat2_inj; apply C_eq; cbn; try ring; rewrite ?C2, ?S2; ring.
Qed.
End Qubit.

Lemma cos1 : (0 < cos 1 < 1)%R.
Proof.
  pose proof PI2_1. pose proof PI_RGT_0. split; [apply cos_gt_0; lra|]. apply Rlt_le_trans with (cos 0); [apply cos_decreasing_1; lra|rewrite cos_0; lra].
Qed.
Lemma zeros_overlap p f po prec : overlap (qubit (mid 2) p f po prec) zeros = RtoC (2 * cos 1).
Proof.
  unfold overlap. rewrite zeros_final. unfold undo_target. cbn [s_class qubit s_target odag otr omul MatAlg].
  rewrite mdag_id, (mmul_1_l 2 2) by auto with mat. unfold mtr. cbn. apply C_eq; cbn; ring.
Qed.
Lemma zeros_fidelity p f po prec : fidelity_of (qubit (mid 2) p f po prec) zeros = cos 1.
Proof.
  unfold fidelity_of. rewrite zeros_overlap. unfold target_norm. cbn [s_phopt qubit otr omul odag MatAlg s_target].
  rewrite mdag_id, (mmul_1_l 2 2), mtr_id by auto with mat. pose proof cos1. destruct po.
  - cbn. field.
  - rewrite !Cmod_R, !Rabs_pos_eq by (cbn; lra). cbn. field.
Qed.

(** One slot of length [t], amplitude zero: the phases are -t and t. *)
Definition slow t prec : settings QAlg := qubit (mid 2) Diag FUnit PSU prec <| s_tau := [t] |>.
Lemma slow_well t prec : well_posed (slow t prec) 1 1.
Proof.
  constructor; cbn; auto.
  - eexists; split; [reflexivity|]. cbn. auto.
  - eexists; split; [reflexivity|]. cbn. auto.
Qed.
Lemma slow_sized t prec : sized_problem 2 qubit_routines 2 (slow t prec).
Proof. destruct (qubit_sized (mid 2) Diag FUnit PSU prec); [split; auto with mat|]. constructor; auto. Qed.
Lemma slow_ham t prec : hamiltonian_problem 2 qubit_routines (slow t prec).
Proof. destruct (qubit_ham (mid 2) Diag FUnit PSU prec). constructor; auto. Qed.
Lemma slow_gens t prec : gens_of (slow t prec) [[0%R]] = [sigma_z].
Proof. cbn. pose proof zeros_gen as H. cbn in H. rewrite H. auto. Qed.
Lemma slow_slot t prec : slot_at (slow t prec) 1 1 [[0%R]] 0 0 t sigma_z sigma_x.
Proof.
  unfold slot_at. rewrite slow_gens. splits; auto.
  - split; auto.
  - eexists _, _. splits; reflexivity.
Qed.
Lemma eigh_sigma_z : eigh2 sigma_z = (fun i => match i with 0 => 1%R | _ => (-1)%R end, mid 2).
Proof. unfold eigh2. cbn [ent sigma_z mat2 tab Nat.ltb Nat.leb andb Re]. destruct Req_EM_T as [_|n]; auto. exfalso. apply n. apply Cmod_0. Qed.
Lemma phase_sigma_x t prec : with_phase (slow t prec) sigma_x = mat2 (RtoC 0) (- Ci)%C (- Ci)%C (RtoC 0).
Proof.
  change (with_phase (slow t prec) sigma_x) with (mscal (- Ci)%C sigma_x). unfold sigma_x.
  apply (mat_ext 2 2); auto with mat. intros i j Hi Hj. rewrite (mscal_ent 2 2) by auto with mat.
  destruct i as [|[|i]]; destruct j as [|[|j]]; try lia; cbn; apply C_eq; cbn; ring.
Qed.
Lemma slow_grad t prec : (0 < t)%R -> (2 * t < prec)%R ->
  ent (xgrad (slow t prec) t sigma_z sigma_x) 0 1 = (RtoC t * (- Ci) * (cos t, sin t))%C.
Proof.
  intros Ht Hp. unfold xgrad. rewrite phase_sigma_x. cbn [s_prop slow qubit oeigh MatAlg r_eigh qubit_routines]. 
  change (s_prop (slow t prec)) with Diag. cbn match. rewrite eigh_sigma_z. cbn [omul odag ohad oscale MatAlg].
  rewrite mdag_id, (mmul_1_l 2 2 (mat2 _ _ _ _)), (mmul_1_r 2 2 (mat2 _ _ _ _)), (mmul_1_l 2 2), (mmul_1_r 2 2) by auto with mat.
  rewrite (mhad_ent 2 2), (mscal_ent 2 2) by auto with mat. unfold divdiff. cbn match.
  change (s_prec (slow t prec)) with prec. rewrite Rabs_left by lra. destruct Rlt_dec; [|lra].
  unfold eigphase. replace (-1 * t)%R with (- t)%R by ring. rewrite cos_neg, sin_neg, Ropp_involutive.
  unfold mat2. rewrite ent_tab by lia. auto.
Qed.
Lemma slow_exact t prec : (0 < t)%R ->
  Re (ent (mdexp (phased (slow t prec) t sigma_z) (phased (slow t prec) t sigma_x)) 0 1) = 0%R.
Proof.
  intros Ht. pose proof (phased_spectral 2 qubit_routines 2 (slow t prec) (slow_sized t prec) t sigma_z (slow_ham t prec) qubit_eigh (proj1 sigma_z_herm) (proj2 sigma_z_herm)) as Q.
  cbn [r_eigh qubit_routines] in Q. rewrite eigh_sigma_z in Q. destruct Q as [U ->].
  unfold phased. rewrite phase_sigma_x. cbn [oscale MatAlg]. rewrite mdexp_spectral by (auto with mat). unfold inbasis.
  rewrite mdag_id, (mmul_1_l 2 2 (mscal _ _)), (mmul_1_r 2 2 (mscal _ _)), (mmul_1_l 2 2), (mmul_1_r 2 2) by auto with mat.
  rewrite (mhad_ent 2 2), (mscal_ent 2 2) by auto with mat. unfold mat2. rewrite ent_tab by lia.
  rewrite ddexp_neq by (intros [= E]; lra). rewrite !cexpS_imag.
  replace (- (1 * t))%R with (- t)%R by ring. replace (- (-1 * t))%R with t by ring. rewrite cos_neg, sin_neg.
  unfold Cdiv. cbn. field. nra.
Qed.
Lemma threshold prec : (0 < prec)%R ->
  exists (s : settings QAlg) a d d1 b pg row p,
    s_prec s = prec /\ well_posed s 1 1 /\ sized_problem 2 qubit_routines 2 s /\ s_prop s = Diag /\
    hamiltonian_problem 2 qubit_routines s /\ exact_routines 2 qubit_routines /\ exact_eigh 2 qubit_routines /\
    session s false a [] = Ok d /\ compute_evolution d = Ok (d1, b) /\ snd (get_prop_grads d1) = Some pg /\
    nth_error pg 0 = Some row /\ nth_error row 0 = Some (Some p) /\
    exists t h cj, slot_at s 1 1 a 0 0 t h cj /\
      ~ der 2 2 (fun u => mexp (mscal (RtoC t * - Ci)%C (madd h (mscal (RtoC u) cj)))) 0%R p.
Proof.
  intros Hp. set (t := Rmin 1 (prec / 4)). assert (Ht : (0 < t /\ t <= 1 /\ 2 * t < prec)%R).
  { unfold t. pose proof (Rmin_l 1 (prec / 4)). pose proof (Rmin_r 1 (prec / 4)). splits; try lra. apply Rmin_glb_lt; lra. }
  clearbody t. destruct Ht as (T1 & T2 & T3). set (s := slow t prec).
  assert (HD : diag_suits 2 qubit_routines s) by (intros _; split; [apply slow_ham|apply qubit_eigh]).
  assert (Ha : shape 1 1 [[0%R]]) by (split; auto; repeat constructor).
  destruct (diag_grads 2 _ qubit_exact 2 s 1 1 (slow_sized t prec) (slow_well t prec) HD false [[0%R]] [] eq_refl eq_refl Ha (Forall_nil _))
    as (d & d1 & b & pg & E & E1 & E2 & H). destruct (H 0 0 t sigma_z sigma_x (slow_slot t prec)) as (row & Q1 & Q2).
  exists s, [[0%R]], d, d1, b, pg, row, (xgrad s t sigma_z sigma_x). splits; auto; try reflexivity.
  - apply slow_well.
  - apply slow_sized.
  - apply slow_ham.
  - apply qubit_exact.
  - apply qubit_eigh.
  - exists t, sigma_z, sigma_x. split; [apply slow_slot|]. intros D.
    pose proof (ham_der 2 qubit_routines 2 s (slow_sized t prec) t sigma_z sigma_x (slow_ham t prec) (proj1 sigma_z_herm) (proj1 sigma_x_herm)) as D'.
    destruct D as (_ & S1 & D). destruct D' as (_ & S2 & D'). destruct S1 as [A1 A2], S2 as [B1 B2].
    specialize (D 0 1 ltac:(lia) ltac:(lia)). specialize (D' 0 1 ltac:(lia) ltac:(lia)).
    pose proof (derC_unique _ _ _ _ D D') as Q. apply (f_equal Re) in Q. unfold s in Q. rewrite slow_exact, slow_grad in Q by auto.
    pose proof (sin_gt_0 t T1 ltac:(pose proof PI2_1; lra)). cbn in Q. nra.
Qed.
