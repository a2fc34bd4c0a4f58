(** A qubit on which the GRAPE direction vanishes although the gradient does
    not: H = sigma_z + u sigma_x, one slot of length pi/2, target
    exp(-i pi/2 sigma_x). *)
From Coq Require Import Reals Lra.
From Coquelicot Require Import Coquelicot.
From Verif.Model Require Import Base Dyn Grape.
From Verif.Lib Require Import Lists Csum Mat MExp MCalc MDiag.
From Verif.Spec Require Import Evolution MatAlg Grapes Qubit.
From Verif.Proofs Require Import MatProps QubitFacts GrapeFacts GrapeMat GrapeLevel.
Local Open Scope nat_scope.
Set Bullet Behavior "Strict Subproofs".

Definition flip_target : mat := mat2 (RtoC 0) (- Ci)%C (- Ci)%C (RtoC 0).
Definition stuck (n : nat) (eps : R) : gargs mat :=
  mkArgs flip_target sigma_z [sigma_x] n [0%R; (PI / 2)%R] (Some eps) None None None None None true.
Lemma stuck_args n eps : matrix_args 2 (stuck n eps).
Proof. constructor; cbn; repeat constructor; apply mat2_proper. Qed.

Lemma m2_scal z a b c d : mscal z (mat2 a b c d) = mat2 (z * a)%C (z * b)%C (z * c)%C (z * d)%C.
Proof. apply tab_ext. intros [|[|i]] [|[|j]] Hi Hj; cbn in Hi, Hj; try lia; reflexivity. Qed.
Lemma m2_add a b c d a' b' c' d' : madd (mat2 a b c d) (mat2 a' b' c' d') = mat2 (a + a')%C (b + b')%C (c + c')%C (d + d')%C.
Proof. apply tab_ext. intros [|[|i]] [|[|j]] Hi Hj; cbn in Hi, Hj; try lia; reflexivity. Qed.
Lemma m2_zero : mzero 2 2 = mat2 (RtoC 0) (RtoC 0) (RtoC 0) (RtoC 0).
Proof. apply tab_ext. intros [|[|i]] [|[|j]] Hi Hj; cbn in Hi, Hj; try lia; reflexivity. Qed.
Lemma m2_tr a b c d : mtr (mat2 a b c d) = (a + d)%C.
Proof. cbn. ring. Qed.

(** -i pi/2 sigma_z and -i pi/2 sigma_x *)
Definition phases (i : nat) : C := match i with 0 => (0, - (PI / 2))%R | _ => (0, PI / 2)%R end.
Definition push : mat := mat2 (RtoC 0) (0, - (PI / 2))%R (0, - (PI / 2))%R (RtoC 0).
Lemma push_sized : sized 2 2 push. Proof. apply mat2_sized. Qed.
Lemma push_proper : proper push. Proof. apply mat2_proper. Qed.
Lemma gen_at s : mscal (RtoC (PI / 2) * - Ci)%C (madd sigma_z (control_part 2 [[s; s]] [sigma_x] 0)) = madd (mdiag 2 phases) (mscal (RtoC (s - 0)) push).
Proof.
  unfold control_part. cbn [combine fold_right nth]. unfold sigma_z, sigma_x, push. rewrite m2_zero, mat2_diag, !m2_scal, !m2_add, !m2_scal.
  cbn [phases]. apply mat2_inj; apply C_eq; cbn; ring.
Qed.
Lemma cexp_phases i : cexpS (phases i) = match i with 0 => (- Ci)%C | _ => Ci end.
Proof.
  destruct i; cbn [phases]; rewrite cexpS_imag, ?cos_neg, ?sin_neg, cos_PI2, sin_PI2; apply C_eq; cbn; ring.
Qed.
Lemma drift_exp : mexp (mdiag 2 phases) = mat2 (- Ci)%C (RtoC 0) (RtoC 0) Ci.
Proof. rewrite mexp_diag, mat2_diag. rewrite !cexp_phases. reflexivity. Qed.
Lemma ddexp_01 : ddexp (0, - (PI / 2))%R (0, PI / 2)%R = RtoC (2 / PI) /\ ddexp (0, PI / 2)%R (0, - (PI / 2))%R = RtoC (2 / PI).
Proof.
  pose proof PI_RGT_0 as HP. pose proof (cexp_phases 0) as E0. pose proof (cexp_phases 1) as E1. cbn [phases] in E0, E1.
  split.
  all: rewrite ddexp_neq by (intros H; injection H; lra).
  all: rewrite E0, E1; apply C_eq; unfold Cdiv, Cinv, Cminus, Cplus, Cmult, Copp, Ci, RtoC, Re, Im; cbn [fst snd]; field; lra.
Qed.
Lemma push_der : mdexp (mdiag 2 phases) push = mat2 (RtoC 0) (- Ci)%C (- Ci)%C (RtoC 0).
Proof.
  assert (HI : unitary 2 (mid 2)) by apply unitary_id.
  assert (Ed : spectral 2 (mid 2) phases = mdiag 2 phases).
  { unfold spectral. rewrite mdag_id, (mmul_1_l 2 2), (mmul_1_r 2 2) by (auto with mat; apply proper_diag). auto. }
  rewrite <- Ed. rewrite mdexp_spectral by (auto using push_sized, push_proper).
  unfold inbasis. rewrite mdag_id. unfold push at 1.
  rewrite mat2_id, !mat2_mul. 
  assert (Hh : forall a b c d f, mhad (mat2 a b c d) f = mat2 (a * f 0%nat 0%nat)%C (b * f 0%nat 1%nat)%C (c * f 1%nat 0%nat)%C (d * f 1%nat 1%nat)%C).
  { intros. apply tab_ext. intros [|[|i]] [|[|j]] Hi Hj; cbn in Hi, Hj; try lia; reflexivity. }
  rewrite Hh. cbn [phases]. destruct ddexp_01 as [-> ->]. rewrite !mat2_mul. pose proof PI_RGT_0 as HP.
  assert (Hm : ((0, - (PI / 2))%R * RtoC (2 / PI))%C = (- Ci)%C).
  { apply C_eq; unfold Cmult, Copp, Ci, RtoC, Re, Im; cbn [fst snd]; field; lra. }
  generalize (ddexp (0, - (PI / 2))%R (0, - (PI / 2))%R), (ddexp (0, (PI / 2))%R (0, (PI / 2))%R). intros d0 d1.
  generalize dependent (RtoC (2 / PI)). intros q Hm. generalize dependent (0, - (PI / 2))%R. intros w Hm.
  apply mat2_inj; rewrite <- ?Hm; ring.
Qed.

(** The figure of the pulse with both amplitudes [s]. *)
Lemma true_slope : is_derive (fun s => figure 2 true flip_target (pulse_unitary 2 sigma_z [sigma_x] (PI / 2) 2 [[s; s]])) 0%R 1%R.
Proof.
  assert (D : der 2 2 (fun s => mmul (mdag flip_target) (mexp (madd (mdiag 2 phases) (mscal (RtoC (s - 0)) push)))) 0%R
     (mmul (mdag flip_target) (mdexp (mdiag 2 phases) push))).
  { apply (der_mul_l 2 2 2); [apply mdag_sized, mat2_sized|]. apply der_mexp; [apply mdiag_sized|apply mat2_sized]. }
  apply derM_tr in D. rewrite push_der in D. unfold flip_target at 2 in D. rewrite mat2_dag, mat2_mul, m2_tr in D.
  destruct D as [D _].
  apply (is_derive_ext (fun s => Re (mtr (mmul (mdag flip_target) (mexp (madd (mdiag 2 phases) (mscal (RtoC (s - 0)) push))))) * (/ 2))%R).
  { intros s. unfold figure, trace_overlap, pulse_unitary. cbn [Nat.sub ordered Nat.add].
    assert (SX : sized 2 2 (mexp (madd (mdiag 2 phases) (mscal (RtoC (s - 0)) push)))).
    { apply mexp_sized, madd_sized, mdiag_sized. }
    unfold slot_propagator. rewrite gen_at, (mmul_1_r 2 2) by auto using mexp_proper.
    unfold Cdiv, Cinv, Cmult, RtoC, Re; cbn [fst snd INR]. match goal with |- ?x = ?y => change (@eq R x y) end. field. }
  match type of D with is_derive _ _ ?d => replace 1%R with (d * / 2 + Re (mtr (mmul (mdag flip_target) (mexp (madd (mdiag 2 phases) (mscal (RtoC (0 - 0)) push))))) * 0)%R end.
  - exact (rd_mult _ (fun _ => (/ 2)%R) 0%R _ _ D (is_derive_const (K := R_AbsRing) (V := R_NormedModule) _ _)).
  - cbn. field.
Qed.

(** The nudge has no first-order effect. *)
Lemma nudge_slope b x : is_derive (fun s => figure 2 true flip_target (nudged 2 sigma_z [sigma_x] (PI / 2) 2 [[0%R; b]] 0 sigma_x s)) 0%R x -> x = 0%R.
Proof.
  intros H. apply is_derive_unique in H. rewrite <- H. apply is_derive_unique. clear H.
  assert (E0 : slot_propagator 2 sigma_z [sigma_x] (PI / 2) [[0%R; b]] 0 = mat2 (- Ci)%C (RtoC 0) (RtoC 0) Ci).
  { rewrite <- drift_exp. unfold slot_propagator. f_equal. transitivity (madd (mdiag 2 phases) (mscal (RtoC (0 - 0)) push)); [exact (gen_at 0)|].
    rewrite mat2_diag. unfold push. rewrite m2_scal, m2_add. apply mat2_inj; apply C_eq; cbn; ring. }
  set (B := mat2 (- Ci)%C (RtoC 0) (RtoC 0) Ci) in *.
  assert (Ep : mscal (RtoC (PI / 2) * - Ci)%C sigma_x = push).
  { unfold sigma_x, push. rewrite m2_scal. apply mat2_inj; apply C_eq; cbn; ring. }
  assert (D : der 2 2 (fun s => mmul (mdag flip_target) (mmul (mexp (mscal (RtoC s) push)) B)) 0%R
     (mmul (mdag flip_target) (mmul (mmul push (mexp (mscal (RtoC 0) push))) B))).
  { apply (der_mul_l 2 2 2); [apply mdag_sized, mat2_sized|]. apply (der_mul_r 2 2 2); [apply mat2_sized|]. apply der_flow, mat2_sized. }
  apply derM_tr in D. rewrite (mexp_mscal0 2) in D by apply mat2_sized. unfold flip_target at 2, push at 2, B at 2 in D. 
  rewrite mat2_id, mat2_dag, !mat2_mul, m2_tr in D.
  destruct D as [D _].
  apply (is_derive_ext (fun s => Re (mtr (mmul (mdag flip_target) (mmul (mexp (mscal (RtoC s) push)) B))) * (/ 2))%R).
  { intros s. unfold figure, trace_overlap, nudged. cbn [Nat.sub ordered Nat.add]. rewrite E0, Ep.
    rewrite (mmul_1_r 2 2) by (apply mat2_sized || apply mat2_proper).
    assert (SX : sized 2 2 (mmul (mexp (mscal (RtoC s) push)) B)).
    { apply (mmul_sized 2 2 2); [apply mexp_sized, mscal_sized, mat2_sized|apply mat2_sized]. }
    rewrite (mmul_1_l 2 2) by auto using proper_mul.
    unfold Cdiv, Cinv, Cmult, RtoC, Re; cbn [fst snd INR]. match goal with |- ?x = ?y => change (@eq R x y) end. field. }
  match type of D with is_derive _ _ ?d => replace 0%R with (d * / 2 + Re (mtr (mmul (mdag flip_target) (mmul (mexp (mscal (RtoC 0) push)) B))) * 0)%R at 2 end.
  - exact (rd_mult _ (fun _ => (/ 2)%R) 0%R _ _ D (is_derive_const (K := R_AbsRing) (V := R_NormedModule) _ _)).
  - cbn. field.
Qed.

Definition PAlg2 := MatAlg 2 plain_routines.
Lemma stuck_run n eps : 2 <= n ->
  exists res, grape_unitary (A := PAlg2) (mid 2) 2 (stuck n eps) = Ok res /\
    forall r, r < n -> amplitude (o_u res) r 0 0 = Some 0%R.
Proof.
  intros Hn.
  pose proof (updates_py (A := PAlg2) (mid 2) 2 (stuck n eps)) as HU.
  assert (EX : forall x, sized 2 2 x -> r_expm plain_routines x = mexp x) by auto.
  destruct (mat_total 2 plain_routines EX (stuck n eps) (stuck_args n eps) _ _ eps None (zero_pulse 1 2) (PI / 2 - 0)%R HU eq_refl eq_refl eq_refl eq_refl Hn) as (res & E).
  exists res. split; auto.
  destruct (grape_spec 2 plain_routines EX (stuck n eps) (stuck_args n eps) _ _ res HU ltac:(lia) E)
    as (eps' & lim' & dt & He & (t0 & t1 & l & Et & Hdt) & El' & HR & HM & L & F & (u0' & N0 & E0') & HJ & Q).
  cbn [g_times stuck] in Et. injection Et as <- <- <-. cbn in He. subst eps'. rewrite Rminus_0_r in Hdt. subst dt.
  injection El' as <-. change (first_pulse 1 2 None None = Ok u0') in E0'. injection E0' as <-.
  induction r as [|r IH]; intros Hr.
  - exact (f_equal (fun o => match o with Some u => entry u 0 0 | None => None end) N0).
  - change (g_R (stuck n eps)) with n in *. destruct (Q r ltac:(lia)) as (u & v & Eu & Ev & _ & Hv).
    specialize (IH ltac:(lia)). replace (S r) with (r + 1) by lia.
    pose proof (eq_trans (eq_sym (f_equal (fun o => match o with Some u => entry u 0 0 | None => None end) Eu)) IH) as IH'. cbv beta iota in IH'.
    refine (eq_trans (f_equal (fun o => match o with Some u => entry u 0 0 | None => None end) Ev) _). cbv beta iota. clear IH. rename IH' into IH.
    assert (Su : shape 1 2 u) by (eapply Forall_forall in F; [exact F|]; eapply nth_error_In; eauto).
    assert (Sv : shape 1 2 v) by (eapply Forall_forall in F; [exact F|]; eapply nth_error_In; eauto).
    rewrite (entry_at 1 2) in IH |- * by (auto; lia). injection IH as IH. f_equal.
    destruct (Hv 0 ltac:(cbn; lia)) as (_ & Hv'). destruct (Hv' 0 sigma_x eq_refl ltac:(cbn; lia)) as (z & Dz & Hz).
    rewrite Hz, IH. cbn [clip]. unfold py_pen. rewrite penal_py_Re. cbn [g_alpha g_beta stuck penalty].
    replace (Re z) with 0%R; [ring|]. symmetry. apply (nudge_slope (at2 u 0 1)).
    eapply is_derive_ext; [|exact Dz]. intros s. cbv beta.
    refine (f_equal (fun w => figure 2 true flip_target (nudged 2 sigma_z [sigma_x] (PI / 2) 2 w 0 sigma_x s)) _).
    rewrite (pulse2 u Su) at 1. now rewrite IH.
Qed.
