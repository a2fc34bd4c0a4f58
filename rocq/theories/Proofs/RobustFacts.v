(** Facts for [Props/PropsRobust.v]. *)
From Coq Require Import Reals Lra.
From Coquelicot Require Import Coquelicot.
From RecordUpdate Require Import RecordUpdate.
From Verif.Model Require Import Base Dyn.
From Verif.Lib Require Import Lists Csum Mat MExp MCalc MDiag MComm.
From Verif.Spec Require Import Evolution History MatAlg Physics Laws Robust.
From Verif.Proofs Require Import DynInv DynRun DynHist DynHistory DynProps DynMore MatFacts MatGrad MatProps PhysFacts PhysRotate PhysCut PhysCutGrad PhysShift LawFacts.
Local Open Scope nat_scope.
Set Bullet Behavior "Strict Subproofs".

(** ** The size of a matrix is a norm that unitaries keep *)
Lemma size_pos r c X : (0 <= size r c X)%R.
Proof. apply sqrt_pos. Qed.
Lemma size_sq r c X : (size r c X * size r c X = sum_squares r c X)%R.
Proof. apply sqrt_sqrt, sum_squares_pos. Qed.
Lemma sq_le x y : (0 <= y -> x * x <= y * y -> x <= y)%R.
Proof. intros Hy H. apply Rnot_lt_le. intros L. nra. Qed.

Lemma cauchy r c X Y : sized r c X -> sized r c Y -> (Cmod (mtr (mmul (mdag X) Y)) <= size r c X * size r c Y)%R.
Proof.
  intros SX SY. set (w := mtr (mmul (mdag X) Y)).
  assert (H : forall t : R, (0 <= sum_squares r c Y + t * t * (Cmod w * Cmod w) * sum_squares r c X - 2 * t * (Cmod w * Cmod w))%R).
  { intros t. pose proof (expand_diff r c Y X (RtoC t * w)%C SY SX) as E. pose proof (sum_squares_pos r c (msub Y (mscal (RtoC t * w)%C X))) as P.
    fold w in E. replace (Re (Cconj (RtoC t * w) * w)%C) with (t * (Cmod w * Cmod w))%R in E.
    - rewrite Cmod_mult, Cmod_R in E. replace ((Rabs t * Cmod w) ^ 2)%R with (t * t * (Cmod w * Cmod w))%R in E; [lra|].
      replace (t * t)%R with (Rabs t * Rabs t)%R by (rewrite <- Rabs_mult, Rabs_pos_eq; auto; nra). ring.
    - rewrite Cmod_sqr. destruct w as [x y]. cbn. ring. }
  pose proof (sum_squares_pos r c X) as PX. pose proof (sum_squares_pos r c Y) as PY. pose proof (Cmod_ge_0 w) as Pw.
  pose proof (size_pos r c X) as NX. pose proof (size_pos r c Y) as NY.
  apply sq_le; [apply Rmult_le_pos; auto|].
  replace (size r c X * size r c Y * (size r c X * size r c Y))%R with (sum_squares r c X * sum_squares r c Y)%R by (rewrite <- !size_sq; ring).
  destruct (Req_dec (sum_squares r c X) 0) as [E|E].
  - specialize (H ((sum_squares r c Y + 1) / 2 + (sum_squares r c Y + 1) / 2 / (Cmod w * Cmod w))%R). rewrite E in *.
    destruct (Req_dec (Cmod w) 0) as [Ew|Ew]; [rewrite Ew; lra|]. exfalso.
    assert (0 < Cmod w * Cmod w)%R by nra.
    replace (2 * ((sum_squares r c Y + 1) / 2 + (sum_squares r c Y + 1) / 2 / (Cmod w * Cmod w)) * (Cmod w * Cmod w))%R
      with ((sum_squares r c Y + 1) * (Cmod w * Cmod w) + (sum_squares r c Y + 1))%R in H by (field; auto). nra.
  - specialize (H (/ sum_squares r c X)%R). replace (sum_squares r c Y + / sum_squares r c X * / sum_squares r c X * (Cmod w * Cmod w) * sum_squares r c X -
      2 * / sum_squares r c X * (Cmod w * Cmod w))%R with (sum_squares r c Y - Cmod w * Cmod w / sum_squares r c X)%R in H by (field; auto).
    assert (0 < sum_squares r c X)%R by lra. apply (Rmult_le_compat_l (sum_squares r c X)) in H; [|lra].
    replace (sum_squares r c X * (sum_squares r c Y - Cmod w * Cmod w / sum_squares r c X))%R with (sum_squares r c X * sum_squares r c Y - Cmod w * Cmod w)%R in H by (field; auto). lra.
Qed.
Lemma size_scal r c z X : sized r c X -> size r c (mscal z X) = (Cmod z * size r c X)%R.
Proof.
  intros SX. unfold size. replace (sum_squares r c (mscal z X)) with ((Cmod z)² * sum_squares r c X)%R.
  - rewrite sqrt_mult_alt by apply Rle_0_sqr. rewrite sqrt_Rsqr by apply Cmod_ge_0. auto.
  - unfold sum_squares. rewrite <- rsum_scal_l. apply rsum_ext. intros i Hi. rewrite <- rsum_scal_l. apply rsum_ext. intros j Hj.
    rewrite (mscal_ent r c) by auto. rewrite Cmod_mult. unfold Rsqr. ring.
Qed.
Lemma madd_as_sub r c X Y : sized r c X -> sized r c Y -> madd X Y = msub X (mscal (RtoC (-1)) Y).
Proof.
  intros SX SY. apply (mat_ext r c); auto with mat. intros i j Hi Hj. rewrite (madd_ent r c), (msub_ent r c), (mscal_ent r c) by auto with mat.
  apply injective_projections; cbn; ring.
Qed.
Lemma msub_as_add r c X Y : sized r c X -> sized r c Y -> msub X Y = madd X (mscal (RtoC (-1)) Y).
Proof.
  intros SX SY. apply (mat_ext r c); auto with mat. intros i j Hi Hj. rewrite (madd_ent r c), (msub_ent r c), (mscal_ent r c) by auto with mat.
  apply injective_projections; cbn; ring.
Qed.
Lemma size_add r c X Y : sized r c X -> sized r c Y -> (size r c (madd X Y) <= size r c X + size r c Y)%R.
Proof.
  intros SX SY. pose proof (size_pos r c X) as NX. pose proof (size_pos r c Y) as NY. apply sq_le; [lra|].
  rewrite size_sq, (madd_as_sub r c), expand_diff by auto.
  pose proof (cauchy r c Y X SY SX) as HC. pose proof (Re_le_Cmod (mtr (mmul (mdag Y) X))) as HR. rewrite Cmod_R.
  replace (Re (Cconj (RtoC (-1)) * mtr (mmul (mdag Y) X))%C) with (- Re (mtr (mmul (mdag Y) X)))%R by (destruct (mtr (mmul (mdag Y) X)); cbn; ring).
  pose proof (Rle_abs (Re (mtr (mmul (mdag Y) X)))). replace (Rabs (-1)) with 1%R by (rewrite Rabs_left; lra).
  rewrite <- (size_sq r c X), <- (size_sq r c Y). nra.
Qed.
Lemma size_neg r c X : sized r c X -> size r c (mscal (RtoC (-1)) X) = size r c X.
Proof. intros SX. rewrite size_scal by auto. rewrite Cmod_R, Rabs_left by lra. ring. Qed.
Lemma size_sub r c X Y : sized r c X -> sized r c Y -> (size r c (msub X Y) <= size r c X + size r c Y)%R.
Proof. intros SX SY. rewrite (msub_as_add r c) by auto. rewrite <- (size_neg r c Y) by auto. apply size_add; auto with mat. Qed.
Lemma size_unitary N q U X : unitary N U -> sized N q X -> size N q (mmul U X) = size N q X.
Proof.
  intros (S & P & H1 & H2) SX. unfold size. f_equal. pose proof (frob N q (mmul U X) ltac:(eauto with mat)) as E. pose proof (frob N q X SX) as E'.
  assert (Q : mmul (mdag (mmul U X)) (mmul U X) = mmul (mdag X) X).
  { rewrite (mdag_mul N N q), mmul_assoc, <- (mmul_assoc (mdag X)), H1 by auto. rewrite (mmul_1_r q N) by auto with mat. auto. }
  rewrite Q, E' in E. apply (f_equal Re) in E. cbn in E. auto.
Qed.

(** ** Mean value inequality *)
Lemma mean_value r c F D x y b : (forall u, der r c F u (D u)) -> (forall u, (size r c (D u) <= b)%R) ->
  (size r c (msub (F y) (F x)) <= b * Rabs (y - x))%R.
Proof.
  intros HD Hb. set (G := msub (F y) (F x)). destruct (HD x) as (SF & SD & _).
  assert (SG : sized r c G) by (unfold G; auto with mat).
  assert (HG : forall u, is_derive (fun u => Re (mtr (mmul (mdag G) (F u)))) u (Re (mtr (mmul (mdag G) (D u))))).
  { intros u. pose proof (derM_tr c _ u _ (der_mul_l c r c (mdag G) F u (D u) ltac:(auto with mat) (HD u))) as [Q _]. exact Q. }
  destruct (mvt _ _ x y HG) as (k & _ & E).
  assert (E2 : (Re (mtr (mmul (mdag G) (F y))) - Re (mtr (mmul (mdag G) (F x))) = size r c G * size r c G)%R).
  { rewrite size_sq. pose proof (frob r c G SG) as Q. apply (f_equal Re) in Q. cbn [Re RtoC fst] in Q. rewrite <- Q. rewrite !(inner r c) by auto.
    unfold Re at 1 2 3. fold (Re (csum r (fun i => csum c (fun j => (Cconj (ent G i j) * ent (F y) i j)%C)))).
    fold (Re (csum r (fun i => csum c (fun j => (Cconj (ent G i j) * ent (F x) i j)%C)))).
    fold (Re (csum r (fun i => csum c (fun j => (Cconj (ent G i j) * ent G i j)%C)))).
    rewrite !csum_Re, <- rsum_minus. apply rsum_ext. intros i Hi. rewrite !csum_Re, <- rsum_minus. apply rsum_ext. intros j Hj.
    unfold G. rewrite !(msub_ent r c) by auto. destruct (ent (F y) i j), (ent (F x) i j). cbn. ring. }
  destruct (HD k) as (_ & SDk & _). pose proof (cauchy r c G (D k) SG SDk) as HC. pose proof (Re_le_Cmod (mtr (mmul (mdag G) (D k)))) as HR.
  pose proof (size_pos r c G) as NG. pose proof (size_pos r c (D k)) as ND. pose proof (Hb k) as Hk.
  assert (Q : (size r c G * size r c G <= size r c G * (b * Rabs (y - x)))%R).
  { rewrite <- E2, E. eapply Rle_trans; [apply Rle_abs|]. rewrite Rabs_mult.
    apply Rle_trans with (size r c G * b * Rabs (y - x))%R; [|lra]. apply Rmult_le_compat_r; [apply Rabs_pos|].
    eapply Rle_trans; [exact HR|]. eapply Rle_trans; [exact HC|]. apply Rmult_le_compat_l; auto. }
  destruct (Req_dec (size r c G) 0) as [Z|Z].
  - rewrite Z. apply Rmult_le_pos; [lra|apply Rabs_pos].
  - apply (Rmult_le_reg_l (size r c G)); [lra|auto].
Qed.

(** ** Exponentials of close Hermitian matrices are close *)
Section Close.
Context (N : nat).
Notation mi := (- Ci)%C.
Lemma exp_close q X Y x b : matrix N N X -> hermitian X -> matrix N N Y -> hermitian Y -> matrix N q x ->
  bounds N b (msub X Y) ->
  (size N q (mmul (msub (mexp (mscal mi X)) (mexp (mscal mi Y))) x) <= b * size N q x)%R.
Proof.
  intros [SX PX] HX [SY PY] HY [Sx Px] [Hb HB].
  set (Z := mscal mi X). set (W := mscal mi Y).
  assert (SZ : sized N N Z) by (unfold Z; auto with mat). assert (SW : sized N N W) by (unfold W; auto with mat).
  assert (PZ : proper Z) by (unfold Z; auto with mat). assert (PW : proper W) by (unfold W; auto with mat).
  set (E := fun (M : mat) (u : R) => mexp (mscal (RtoC u) M)).
  assert (SE : forall M u, sized N N M -> sized N N (E M u)) by (intros; unfold E; auto using mexp_sized with mat).
  assert (UZ : forall u, unitary N (E Z u)).
  { intros u. unfold E, Z. rewrite (mscal_scal N N) by auto. apply ham_unitary; [split|]; auto. }
  set (V := mscal (RtoC (-1)) W). assert (SV : sized N N V) by (unfold V; auto with mat).
  assert (UV : forall u, unitary N (E V u)).
  { intros u. unfold E, V, W. rewrite !(mscal_scal N N) by auto with mat. pose proof (ham_unitary N (- u) Y (conj SY PY) HY) as Q.
    assert (Ec : (RtoC (- u) * mi)%C = (RtoC u * RtoC (-1) * mi)%C) by (apply injective_projections; cbn; ring). rewrite Ec in Q. exact Q. }
  assert (UW : unitary N (mexp W)).
  { assert (Q : unitary N (mexp (mscal (RtoC 1 * mi)%C Y))) by (apply ham_unitary; [split|]; auto).
    rewrite Cmult_1_l in Q. exact Q. }
  set (F := fun u => mmul (E V u) (mmul (E Z u) x)).
  set (D := fun u => mmul (E V u) (mmul (msub Z W) (mmul (E Z u) x))).
  assert (HD : forall u, der N q F u (D u)).
  { intros u. assert (HV := der_flow N V u SV). assert (HZ := der_mul_r N N q x _ u _ Sx (der_flow N Z u SZ)).
    pose proof (der_mul N N q _ _ u _ _ HV HZ) as Q. unfold F, D, E in *.
    match type of Q with der _ _ _ _ ?d => replace (mmul (mexp (mscal (RtoC u) V)) (mmul (msub Z W) (mmul (mexp (mscal (RtoC u) Z)) x))) with d; [exact Q|] end.
    assert (SEv : sized N N (mexp (mscal (RtoC u) V))) by auto using mexp_sized with mat.
    assert (SEz : sized N N (mexp (mscal (RtoC u) Z))) by auto using mexp_sized with mat.
    rewrite <- (mexp_comm' N V (RtoC u)) by auto. rewrite <- !mmul_assoc.
    set (y := mmul (mexp (mscal (RtoC u) Z)) x). assert (Sy : sized N q y) by (unfold y; eauto with mat).
    rewrite <- (mmul_add_r N N q) by eauto with mat. f_equal. unfold V. rewrite (mmul_scal_l N N q), (mmul_sub_l N N q) by auto.
    rewrite (madd_comm N q), (msub_as_add N q) by eauto with mat. auto. }
  assert (HS : forall u, (size N q (D u) <= b * size N q x)%R).
  { intros u. unfold D. assert (Sy : sized N q (mmul (E Z u) x)) by eauto with mat. rewrite size_unitary by eauto with mat.
    replace (msub Z W) with (mscal mi (msub X Y)).
    - rewrite (mmul_scal_l N N q), size_scal by eauto with mat. rewrite Cmod_opp, Cmod_Ci, Rmult_1_l.
      eapply Rle_trans; [apply HB; split; auto with mat|]. rewrite size_unitary; auto. lra.
    - apply (mat_ext N N); auto with mat. intros i j Hi Hj. unfold Z, W. rewrite (mscal_ent N N), !(msub_ent N N), !(mscal_ent N N) by auto with mat. ring. }
  pose proof (mean_value N q F D 0 1 _ HD HS) as Q. rewrite Rminus_0_r, Rabs_R1, Rmult_1_r in Q.
  assert (F0 : F 0%R = x).
  { unfold F, E. rewrite !(mexp_mscal0 N) by auto. rewrite (mmul_1_l N q x) by auto. apply (mmul_1_l N q); auto. }
  assert (F1 : F 1%R = mmul (mexp V) (mmul (mexp Z) x)) by (unfold F, E; rewrite !(mexp_mscal1 N) by auto; auto).
  assert (IV : mmul (mexp W) (mexp V) = mid N).
  { pose proof (mneg_inv N W SW PW) as R1. destruct UW as (SU & PU & U1 & U2).
    assert (R2 : mmul (mexp V) (mexp W) = mid N) by (replace V with (mscal (- RtoC 1)%C W); [exact R1|]; unfold V; f_equal; apply injective_projections; cbn; ring).
    assert (R3 : mexp V = mdag (mexp W)).
    { assert (SVV : sized N N (mexp V)) by auto using mexp_sized. assert (mmul (mmul (mexp V) (mexp W)) (mdag (mexp W)) = mdag (mexp W)) by (rewrite R2; apply (mmul_1_l N N); auto with mat).
      rewrite <- mmul_assoc, U2 in H. rewrite (mmul_1_r N N) in H by auto using mexp_proper. auto. }
    rewrite R3. auto. }
  assert (SEV : sized N N (mexp V)) by auto using mexp_sized. assert (SEZ : sized N N (mexp Z)) by auto using mexp_sized.
  assert (SEW : sized N N (mexp W)) by auto using mexp_sized.
  replace (mmul (msub (mexp Z) (mexp W)) x) with (mmul (mexp W) (msub (F 1%R) (F 0%R))).
  - rewrite size_unitary; auto. rewrite F0, F1. apply msub_sized. eauto with mat.
  - rewrite F0, F1, (mmul_sub_r N N q), (mmul_sub_l N N q) by eauto with mat. f_equal. rewrite mmul_assoc, IV. apply (mmul_1_l N q); eauto with mat.
Qed.

(** ** Products *)
Lemma evolve_close q (rt : routines) (ps qs : list mat) (es : list R) (x y : mat) :
  Forall (unitary N) ps -> Forall (unitary N) qs -> length ps = length qs ->
  Forall2 (fun e (pq : mat * mat) => (0 <= e)%R /\ forall z, matrix N q z -> (size N q (mmul (msub (fst pq) (snd pq)) z) <= e * size N q z)%R) es (combine ps qs) ->
  matrix N q x -> matrix N q y ->
  (size N q (msub (evolve (A := MatAlg N rt) ps x) (evolve (A := MatAlg N rt) qs y)) <= size N q (msub x y) + total es * size N q y)%R.
Proof.
  intros UP. revert qs es x y. induction UP as [|p ps U UP IH]; intros [|r qs] es x y UQ L HE Hx Hy; try discriminate L.
  - inversion HE; subst. cbn. lra.
  - cbn in HE. inversion HE as [|e ? es' ? [He HP] HE']; subst. inversion UQ; subst. injection L as L. cbn [fst snd] in HP.
    cbn [evolve fold_left]. destruct Hx as [Sx Px], Hy as [Sy Py].
    assert (Sp : sized N N p) by apply U. assert (Sr : sized N N r) by apply H1.
    assert (Mx : matrix N q (mmul p x)) by (split; eauto with mat). assert (My : matrix N q (mmul r y)) by (split; eauto with mat).
    eapply Rle_trans; [apply (IH qs es' (mmul p x) (mmul r y)); auto|].
    rewrite (size_unitary N q r y) by auto.
    assert (Q : (size N q (msub (mmul p x) (mmul r y)) <= size N q (msub x y) + e * size N q y)%R).
    { replace (msub (mmul p x) (mmul r y)) with (madd (mmul p (msub x y)) (mmul (msub p r) y)).
      - eapply Rle_trans; [apply size_add; eauto with mat|]. rewrite size_unitary by auto with mat. pose proof (HP y (conj Sy Py)). lra.
      - rewrite (mmul_sub_r N N q), (mmul_sub_l N N q) by auto. apply (mat_ext N q); eauto with mat. intros i j Hi Hj.
        rewrite (madd_ent N q), !(msub_ent N q) by eauto with mat. ring. }
    cbn [total fold_right]. change (fold_right Rplus 0%R es') with (total es'). lra.
Qed.
End Close.

(** ** Bounds of operators *)
Section Bounds.
Context (N : nat).
Lemma bounds_add c d X Y : sized N N X -> sized N N Y -> bounds N c X -> bounds N d Y -> bounds N (c + d) (madd X Y).
Proof.
  intros SX SY [Hc HX] [Hd HY]. split; [lra|]. intros q y My. assert (Sy : sized N q y) by apply My. rewrite (mmul_add_l N N q) by auto.
  eapply Rle_trans; [apply size_add; eauto with mat|]. pose proof (HX q y My). pose proof (HY q y My). lra.
Qed.
Lemma bounds_scal c z X : sized N N X -> bounds N c X -> bounds N (Cmod z * c) (mscal z X).
Proof.
  intros SX [Hc HX]. pose proof (Cmod_ge_0 z) as Hz. split; [apply Rmult_le_pos; auto|]. intros q y My. assert (Sy : sized N q y) by apply My.
  rewrite (mmul_scal_l N N q), size_scal by eauto with mat. rewrite Rmult_assoc. apply Rmult_le_compat_l; auto.
Qed.
Lemma bounds_real c x X : sized N N X -> bounds N c X -> bounds N (c * Rabs x) (mscal (RtoC x) X).
Proof. intros SX HX. rewrite Rmult_comm. rewrite <- Cmod_R. apply bounds_scal; auto. Qed.
Lemma size_zero r c X : sized r c X -> size r c (msub X X) = 0%R.
Proof.
  intros SX. unfold size. replace (sum_squares r c (msub X X)) with 0%R; [apply sqrt_0|]. symmetry. apply rsum_zero. intros i Hi. apply rsum_zero. intros j Hj.
  rewrite (msub_ent r c) by auto. replace (ent X i j - ent X i j)%C with (RtoC 0) by ring. rewrite Cmod_0. ring.
Qed.
Lemma bounds_zero X : sized N N X -> bounds N 0 (msub X X).
Proof.
  intros SX. split; [lra|]. intros q y My. assert (Sy : sized N q y) by apply My. rewrite (mmul_sub_l N N q) by auto. rewrite size_zero by eauto with mat. lra.
Qed.
Notation A := (MatAlg N).
Lemma lin_matrix rt d row cs : matrix N N d -> Forall (matrix N N) cs -> matrix N N (lincomb (A := A rt) d row cs).
Proof.
  revert d cs. induction row as [|u row IH]; intros d [|c cs] Hd F; auto. inversion F; subst. cbn [lincomb]. apply IH; auto.
  destruct Hd. split; cbn; auto with mat.
Qed.
Lemma lin_bounds rt row : forall cs bs d e, matrix N N d -> Forall (matrix N N) cs -> length row = length cs ->
  bounds N e d -> Forall2 (bounds N) bs cs -> bounds N (e + weight bs row) (lincomb (A := A rt) d row cs).
Proof.
  induction row as [|u row IH]; intros [|c cs] bs d e Hd F L HB HF; try discriminate L.
  - inversion HF; subst. cbn. rewrite Rplus_0_r. auto.
  - inversion HF as [|b ? bs' ? Hb HF']; subst. inversion F as [|? ? Hc F1]; subst. injection L as L. cbn [lincomb].
    replace (e + weight (b :: bs') (u :: row))%R with (e + b * Rabs u + weight bs' row)%R by (unfold weight, total; cbn [map2 fold_right]; ring).
    destruct Hd as [Sd Pd]. assert (Sc : sized N N c) by apply Hc. apply IH; auto; [split; cbn; auto with mat|].
    cbn [oadd oscale MatAlg]. apply bounds_add; auto with mat. apply bounds_real; auto.
Qed.
Lemma diff_step d d' c c' u u' : sized N N d -> sized N N d' -> sized N N c -> sized N N c' ->
  msub (madd d (mscal (RtoC u) c)) (madd d' (mscal (RtoC u') c')) = madd (msub d d') (msub (mscal (RtoC u) c) (mscal (RtoC u') c')).
Proof.
  intros. apply (mat_ext N N); auto with mat. intros i j Hi Hj. rewrite !(madd_ent N N), !(msub_ent N N), !(madd_ent N N), !(mscal_ent N N) by auto with mat. ring.
Qed.
Lemma diff_amp c u u' : sized N N c -> msub (mscal (RtoC u) c) (mscal (RtoC u') c) = mscal (RtoC (u - u')) c.
Proof.
  intros. apply (mat_ext N N); auto with mat. intros i j Hi Hj. rewrite !(msub_ent N N), !(mscal_ent N N) by auto with mat. apply injective_projections; cbn; ring.
Qed.
Lemma diff_op c c' u : sized N N c -> sized N N c' -> msub (mscal (RtoC u) c) (mscal (RtoC u) c') = mscal (RtoC u) (msub c c').
Proof.
  intros. apply (mat_ext N N); auto with mat. intros i j Hi Hj. rewrite !(msub_ent N N), !(mscal_ent N N), (msub_ent N N) by auto with mat. ring.
Qed.
Lemma lin_amp rt row : forall row' cs bs d d' e, matrix N N d -> matrix N N d' -> Forall (matrix N N) cs -> length row = length cs -> length row' = length cs ->
  bounds N e (msub d d') -> Forall2 (bounds N) bs cs ->
  bounds N (e + weight_diff bs row row') (msub (lincomb (A := A rt) d row cs) (lincomb (A := A rt) d' row' cs)).
Proof.
  induction row as [|u row IH]; intros [|u' row'] [|c cs] bs d d' e Hd Hd' F L L' HB HF; try discriminate L; try discriminate L'.
  - inversion HF; subst. cbn. rewrite Rplus_0_r. auto.
  - inversion HF as [|b ? bs' ? Hb HF']; subst. inversion F as [|? ? Hc F1]; subst. injection L as L. injection L' as L'. cbn [lincomb].
    replace (e + weight_diff (b :: bs') (u :: row) (u' :: row'))%R with (e + b * Rabs (u - u') + weight_diff bs' row row')%R by (unfold weight_diff, total; cbn [map3 fold_right]; ring).
    destruct Hd as [Sd Pd], Hd' as [Sd' Pd']. assert (Sc : sized N N c) by apply Hc. apply IH; auto; [split; cbn; auto with mat|split; cbn; auto with mat|].
    cbn [oadd oscale MatAlg]. rewrite diff_step by auto. rewrite diff_amp by auto. apply bounds_add; auto with mat. apply bounds_real; auto.
Qed.
Lemma lin_op rt row : forall cs cs' bs d d' e, matrix N N d -> matrix N N d' -> Forall (matrix N N) cs -> Forall (matrix N N) cs' ->
  length row = length cs -> length row = length cs' -> bounds N e (msub d d') -> Forall2 (differ_by N) bs (combine cs cs') ->
  bounds N (e + weight bs row) (msub (lincomb (A := A rt) d row cs) (lincomb (A := A rt) d' row cs')).
Proof.
  induction row as [|u row IH]; intros [|c cs] [|c' cs'] bs d d' e Hd Hd' F F' L L' HB HF; try discriminate L; try discriminate L'.
  - inversion HF; subst. cbn. rewrite Rplus_0_r. auto.
  - cbn [combine] in HF. inversion HF as [|b ? bs' ? Hb HF']; subst. inversion F as [|? ? Hc F1]; subst. inversion F' as [|? ? Hc' F1']; subst. injection L as L. injection L' as L'. cbn [lincomb].
    replace (e + weight (b :: bs') (u :: row))%R with (e + b * Rabs u + weight bs' row)%R by (unfold weight, total; cbn [map2 fold_right]; ring).
    destruct Hd as [Sd Pd], Hd' as [Sd' Pd']. assert (Sc : sized N N c) by apply Hc. assert (Sc' : sized N N c') by apply Hc'.
    apply IH; auto; [split; cbn; auto with mat|split; cbn; auto with mat|].
    cbn [oadd oscale MatAlg]. rewrite diff_step by auto. rewrite diff_op by auto. apply bounds_add; auto with mat. apply bounds_real; auto with mat.
Qed.
End Bounds.

(** ** Lists by index *)
Lemma forall2_idx {X Y} (P : X -> Y -> Prop) l : forall l', length l = length l' ->
  (forall k x y, nth_error l k = Some x -> nth_error l' k = Some y -> P x y) -> Forall2 P l l'.
Proof.
  induction l as [|x l IH]; intros [|y l'] L H; try discriminate L; constructor; [apply (H 0); auto|]. apply IH; auto. intros k. apply (H (S k)).
Qed.
Lemma forall2_at {X Y} (P : X -> Y -> Prop) l l' k x y : Forall2 P l l' -> nth_error l k = Some x -> nth_error l' k = Some y -> P x y.
Proof. intros F. revert k. induction F; intros [|k] E E'; try discriminate; cbn in *; [injection E as <-; injection E' as <-; auto|eauto]. Qed.
Lemma combine_at {X Y} (l : list X) : forall (l' : list Y) k x y, nth_error (combine l l') k = Some (x, y) -> nth_error l k = Some x /\ nth_error l' k = Some y.
Proof. induction l as [|a l IH]; intros [|b l'] [|k] x y E; try discriminate; cbn in *; [injection E as <- <-; auto|eauto]. Qed.
Lemma combine_to {X Y} (l : list X) : forall (l' : list Y) k x y, nth_error l k = Some x -> nth_error l' k = Some y -> nth_error (combine l l') k = Some (x, y).
Proof. induction l as [|a l IH]; intros [|b l'] [|k] x y E E'; try discriminate; cbn in *; [injection E as <-; injection E' as <-; auto|eauto]. Qed.
Lemma map2_at {X Y Z} (f : X -> Y -> Z) l : forall l' k z, nth_error (map2 f l l') k = Some z -> exists x y, nth_error l k = Some x /\ nth_error l' k = Some y /\ z = f x y.
Proof. induction l as [|a l IH]; intros [|b l'] [|k] z E; try discriminate; cbn in *; [injection E as <-; eauto|eauto]. Qed.
Lemma map2_to {X Y Z} (f : X -> Y -> Z) l : forall l' k x y, nth_error l k = Some x -> nth_error l' k = Some y -> nth_error (map2 f l l') k = Some (f x y).
Proof. induction l as [|a l IH]; intros [|b l'] [|k] x y E E'; try discriminate; cbn in *; [injection E as <-; injection E' as <-; auto|eauto]. Qed.
Lemma map3_at {X Y Z W} (f : X -> Y -> Z -> W) l : forall l' l2 k w, nth_error (map3 f l l' l2) k = Some w ->
  exists x y z, nth_error l k = Some x /\ nth_error l' k = Some y /\ nth_error l2 k = Some z /\ w = f x y z.
Proof. induction l as [|a l IH]; intros [|b l'] [|c l2] [|k] w E; try discriminate; cbn in *; [injection E as <-; eauto 8|eauto]. Qed.
Lemma map2_len {X Y Z} (f : X -> Y -> Z) n l : forall l', length l = n -> length l' = n -> length (map2 f l l') = n.
Proof. revert n. induction l as [|x l IH]; intros n [|y l'] E E'; cbn in *; try lia. destruct n; try lia. f_equal. apply IH; lia. Qed.
Lemma total_pos l : Forall (fun x => 0 <= x)%R l -> (0 <= total l)%R.
Proof. induction 1; cbn; [lra|]. change (fold_right Rplus 0%R l) with (total l). lra. Qed.

Lemma some_inj {X} (x y : X) : Some x = Some y -> x = y.
Proof. congruence. Qed.

(** ** The evolutions *)
Section Final.
Context (N : nat) (rt : routines) (EX : exact_routines N rt).
Notation A := (MatAlg N rt).
Context (q n m : nat) (s s' : settings A).
Hypothesis SP : sized_problem N rt q s.
Hypothesis SP' : sized_problem N rt q s'.
Hypothesis W : well_posed s n m.
Hypothesis W' : well_posed s' n m.
Hypothesis HD : diag_suits N rt s.
Hypothesis HD' : diag_suits N rt s'.
Hypothesis HH : hamiltonian_problem N rt s.
Hypothesis HH' : hamiltonian_problem N rt s'.
Hypothesis EI : s_initial s' = s_initial s.
Lemma final_close a b es : shape n m a -> shape n m b -> length es = n ->
  (forall k e t t' g g', nth_error es k = Some e -> nth_error (s_tau s) k = Some t -> nth_error (s_tau s') k = Some t' ->
     nth_error (gens_of s a) k = Some g -> nth_error (gens_of s' b) k = Some g' ->
     bounds N e (msub (mscal (RtoC t) g) (mscal (RtoC t') g'))) ->
  (distance N q (final_of s a) (final_of s' b) <= total es * size N q (s_initial s))%R.
Proof.
  intros Ha Hb Le HB. destruct (mlens N rt EX q s n m SP W HD a Ha) as [L _]. destruct (mlens N rt EX q s' n m SP' W' HD' b Hb) as [L' _].
  pose proof (sp_initial _ _ _ _ SP) as Hx. pose proof (sp_initial _ _ _ _ SP') as Hx'.
  pose proof (evolve_close N q rt (props_of s a) (props_of s' b) es (s_initial s) (s_initial s')) as Q.
  rewrite EI in Q at 3 4. assert (Sx : sized N q (s_initial s)) by apply Hx. rewrite (size_zero q N) in Q || rewrite size_zero in Q by exact Sx.
  rewrite Rplus_0_l in Q. apply Q; auto; clear Q.
  - eapply (props_unitary N rt EX q s n m); eauto.
  - eapply (props_unitary N rt EX q s' n m); eauto.
  - exact (eq_trans L (eq_sym L')).
  - apply forall2_idx.
    + rewrite combine_length. rewrite Le. pose proof L as L0. pose proof L' as L0'. cbn [Op MatAlg] in L0, L0'. lia.
    + intros k e [p p'] Ek Ep. apply combine_at in Ep as [Ep Ep']. assert (Hk : k < n) by (rewrite <- Le; apply nth_lt in Ek; auto).
      destruct (mslot N rt EX q s n m SP W HD a k Ha Hk) as (dr & c & d0 & row & cs & t & g & _ & _ & _ & _ & _ & Et & _ & _ & _ & Eg & Epp).
      destruct (mslot N rt EX q s' n m SP' W' HD' b k Hb Hk) as (dr' & c' & d0' & row' & cs' & t' & g' & _ & _ & _ & _ & _ & Et' & _ & _ & _ & Eg' & Epp').
      pose proof (some_inj _ _ (eq_trans (eq_sym Ep) Epp)) as E1. pose proof (some_inj _ _ (eq_trans (eq_sym Ep') Epp')) as E2.
      pose proof (gen_matrix N rt q s SP a k g Eg) as Hg. pose proof (gen_matrix N rt q s' SP' b k g' Eg') as Hg'.
      pose proof (HB k e t t' g g' Ek Et Et' Eg Eg') as B. split; [apply B|]. intros z Hz. cbn [fst snd].
      pose proof (eq_trans E1 (ham_prop N rt EX q s SP t g HH Hg)) as P1. pose proof (eq_trans E2 (ham_prop N rt EX q s' SP' t' g' HH' Hg')) as P2.
      pose proof (gen_herm N rt q s SP a k g HH Eg) as Hm. pose proof (gen_herm N rt q s' SP' b k g' HH' Eg') as Hm'.
      rewrite P1, P2. destruct Hg as [Sg Pg], Hg' as [Sg' Pg'].
      replace (mscal (RtoC t * - Ci)%C g) with (mscal (- Ci)%C (mscal (RtoC t) g)) by (rewrite (mscal_scal N N) by auto; f_equal; apply Cmult_comm).
      replace (mscal (RtoC t' * - Ci)%C g') with (mscal (- Ci)%C (mscal (RtoC t') g')) by (rewrite (mscal_scal N N) by auto; f_equal; apply Cmult_comm).
      assert (RH : forall u h, sized N N h -> hermitian h -> hermitian (mscal (RtoC u) h)).
      { intros u h Sh Eh. unfold hermitian. rewrite (mdag_scal N N), Eh by auto. f_equal. apply injective_projections; cbn; ring. }
      assert (Mg : matrix N N (mscal (RtoC t) g)) by (split; auto with mat). assert (Mg' : matrix N N (mscal (RtoC t') g')) by (split; auto with mat).
      exact (exp_close N q _ _ z e Mg (RH t g Sg Hm) Mg' (RH t' g' Sg' Hm') Hz B).
Qed.

Lemma bounds_time e t X : sized N N X -> bounds N e X -> bounds N (Rabs t * e) (mscal (RtoC t) X).
Proof. intros SX HX. rewrite Rmult_comm. apply bounds_real; auto. Qed.
Lemma model_close ds es a : s_tau s' = s_tau s -> bounds_diffs N rt ds es s s' -> shape n m a ->
  (distance N q (final_of s a) (final_of s' a) <= model_error (s_tau s) ds es a * size N q (s_initial s))%R.
Proof.
  intros ET [(l & l' & El & El' & Ll & Fd) (c & c' & Ec & Ec' & Lc & Fc)] Ha.
  destruct (slots_known N rt s n m W) as (ds0 & cs0 & Ed0 & Ec0 & Ld0 & Lc0 & Lr0 & HP & HG).
  destruct (slots_known N rt s' n m W') as (ds1 & cs1 & Ed1 & Ec1 & Ld1 & Lc1 & Lr1 & HP' & HG').
  pose proof (some_inj _ _ (eq_trans (eq_sym Ed0) El)) as <-. pose proof (some_inj _ _ (eq_trans (eq_sym Ed1) El')) as <-.
  pose proof (some_inj _ _ (eq_trans (eq_sym Ec0) Ec)) as <-. pose proof (some_inj _ _ (eq_trans (eq_sym Ec1) Ec')) as <-.
  destruct (HP _ (sp_gens _ _ _ _ SP)) as [Fm Fcm]. destruct (HP' _ (sp_gens _ _ _ _ SP')) as [Fm' Fcm'].
  assert (Lds : length ds = n) by (apply Forall2_len in Fd; rewrite combine_length in Fd; cbn [Op MatAlg] in *; lia).
  assert (Les : length es = n).
  { apply Forall2_len in Fc. rewrite Fc. apply map2_len; [exact Lc0|exact Lc1]. }
  assert (Ltau : length (s_tau s) = n) by apply (wp_tau _ _ _ W). destruct Ha as [La Fa].
  unfold model_error, over_slots. apply final_close; try (split; assumption).
  - apply map2_len; auto. apply LawFacts.map3_length; auto.
  - intros k e t t' g g' Ek Et Et' Eg Eg'. pose proof (some_inj _ _ (eq_trans (eq_sym Et') (eq_trans (f_equal (fun l => nth_error l k) ET) Et))) as ->.
    apply map2_at in Ek as (t0 & e0 & Et0 & Ek & ->). pose proof (some_inj _ _ (eq_trans (eq_sym Et0) Et)) as ->.
    apply map3_at in Ek as (d & er & row & Hd & Her & Hrow & ->).
    pose proof (eq_trans (f_equal (fun l => nth_error l k) (eq_sym (HG a))) Eg) as Q. cbn beta in Q. apply map3_at in Q as (x & row0 & cs & Hx & Hrow0 & Hcs & ->).
    pose proof (eq_trans (f_equal (fun l => nth_error l k) (eq_sym (HG' a))) Eg') as Q. cbn beta in Q. apply map3_at in Q as (x' & row1 & cs' & Hx' & Hrow1 & Hcs' & ->).
    pose proof (some_inj _ _ (eq_trans (eq_sym Hrow0) Hrow)) as ->. pose proof (some_inj _ _ (eq_trans (eq_sym Hrow1) Hrow)) as ->.
    assert (Mx : matrix N N x) by (rewrite Forall_forall in Fm; apply Fm; eapply nth_error_In; eauto).
    assert (Mx' : matrix N N x') by (rewrite Forall_forall in Fm'; apply Fm'; eapply nth_error_In; eauto).
    assert (Mc : Forall (matrix N N) cs) by (rewrite Forall_forall in Fcm; apply Fcm; eapply nth_error_In; eauto).
    assert (Mc' : Forall (matrix N N) cs') by (rewrite Forall_forall in Fcm'; apply Fcm'; eapply nth_error_In; eauto).
    assert (Lrow : length row = m) by (rewrite Forall_forall in Fa; apply Fa; eapply nth_error_In; eauto).
    assert (Lcs : length cs = m) by (rewrite Forall_forall in Lr0; apply Lr0; eapply nth_error_In; eauto).
    assert (Lcs' : length cs' = m) by (rewrite Forall_forall in Lr1; apply Lr1; eapply nth_error_In; eauto).
    pose proof (forall2_at _ _ _ k _ _ Fd Hd (combine_to _ _ _ _ _ Hx Hx')) as Bd. pose proof (forall2_at _ _ _ k _ _ Fc Her (map2_to _ _ _ _ _ _ Hcs Hcs')) as Bc.
    pose proof (lin_op N rt row cs cs' er x x' d Mx Mx' Mc Mc' (eq_trans Lrow (eq_sym Lcs)) (eq_trans Lrow (eq_sym Lcs')) Bd Bc) as B.
    destruct (lin_matrix N rt x row cs Mx Mc) as [S1 _]. destruct (lin_matrix N rt x' row cs' Mx' Mc') as [S2 _].
    refine (eq_ind_r (bounds N _) _ (diff_op N _ _ t S1 S2)). apply bounds_time; auto with mat.
Qed.
Lemma timing_close ds cs a : slot_drifts s' = slot_drifts s -> slot_ctrls s' = slot_ctrls s -> bounds_drifts N rt ds s -> bounds_ctrls N rt cs s -> shape n m a ->
  (distance N q (final_of s a) (final_of s' a) <= timing_error (s_tau s) (s_tau s') ds cs a * size N q (s_initial s))%R.
Proof.
  intros ED EC (l & El & Fd) (c & Ec & Fc) Ha.
  destruct (slots_known N rt s n m W) as (ds0 & cs0 & Ed0 & Ec0 & Ld0 & Lc0 & Lr0 & HP & HG).
  destruct (slots_known N rt s' n m W') as (ds1 & cs1 & Ed1 & Ec1 & Ld1 & Lc1 & Lr1 & HP' & HG').
  pose proof (some_inj _ _ (eq_trans (eq_sym Ed0) El)) as <-. pose proof (some_inj _ _ (eq_trans (eq_sym Ec0) Ec)) as <-.
  pose proof (some_inj _ _ (eq_trans (eq_sym Ed1) (eq_trans ED Ed0))) as ->. pose proof (some_inj _ _ (eq_trans (eq_sym Ec1) (eq_trans EC Ec0))) as ->.
  destruct (HP _ (sp_gens _ _ _ _ SP)) as [Fm Fcm].
  assert (Lds : length ds = n) by (apply Forall2_len in Fd; rewrite Fd; exact Ld0).
  assert (Les : length cs = n) by (apply Forall2_len in Fc; rewrite Fc; exact Lc0).
  assert (Ltau : length (s_tau s) = n) by apply (wp_tau _ _ _ W). assert (Ltau' : length (s_tau s') = n) by apply (wp_tau _ _ _ W'). destruct Ha as [La Fa].
  unfold timing_error, model_error, over_slots. apply final_close; try (split; assumption).
  - apply map2_len; [apply map2_len; auto|]. apply LawFacts.map3_length; auto.
  - intros k e t t' g g' Ek Et Et' Eg Eg'.
    apply map2_at in Ek as (t0 & e0 & Et0 & Ek & ->). apply map2_at in Et0 as (u & u' & Eu & Eu' & ->).
    pose proof (some_inj _ _ (eq_trans (eq_sym Eu) Et)) as ->. pose proof (some_inj _ _ (eq_trans (eq_sym Eu') Et')) as ->.
    apply map3_at in Ek as (d & er & row & Hd & Her & Hrow & ->).
    pose proof (eq_trans (eq_sym Eg') (eq_trans (f_equal (fun l => nth_error l k) (eq_trans (HG' a) (eq_sym (HG a)))) Eg)) as Q. apply some_inj in Q as ->.
    pose proof (eq_trans (f_equal (fun l => nth_error l k) (eq_sym (HG a))) Eg) as Q. cbn beta in Q. apply map3_at in Q as (x & row0 & cr & Hx & Hrow0 & Hcs & ->).
    pose proof (some_inj _ _ (eq_trans (eq_sym Hrow0) Hrow)) as ->.
    assert (Mx : matrix N N x) by (rewrite Forall_forall in Fm; apply Fm; eapply nth_error_In; eauto).
    assert (Mc : Forall (matrix N N) cr) by (rewrite Forall_forall in Fcm; apply Fcm; eapply nth_error_In; eauto).
    assert (Lrow : length row = m) by (rewrite Forall_forall in Fa; apply Fa; eapply nth_error_In; eauto).
    assert (Lcs : length cr = m) by (rewrite Forall_forall in Lr0; apply Lr0; eapply nth_error_In; eauto).
    pose proof (forall2_at _ _ _ k _ _ Fd Hd Hx) as Bd. pose proof (forall2_at _ _ _ k _ _ Fc Her Hcs) as Bc.
    pose proof (lin_bounds N rt row cr er x d Mx Mc (eq_trans Lrow (eq_sym Lcs)) Bd Bc) as B.
    destruct (lin_matrix N rt x row cr Mx Mc) as [S1 _].
    refine (eq_ind_r (bounds N _) _ (diff_amp N _ t t' S1)). apply bounds_time; auto with mat.
Qed.
Lemma errors_close a b e : shape n m a -> shape n m b -> like s s' -> isometry N q (s_initial s) -> isometry N q (s_target s) -> 0 < q ->
  (s_class s = Unitary \/ exact_inv N rt) ->
  (distance N q (final_of s a) (final_of s' b) <= e * size N q (s_initial s))%R ->
  (Rabs (fid_err_of s a - fid_err_of s' b) <= error_limit N rt q s e)%R.
Proof.
  intros Ha Hb LK HI HT Hq HC HE. pose proof (final_iso N rt EX q s n m SP W HD a Ha HH HI) as FI.
  assert (HI' : isometry N q (s_initial s')) by (rewrite EI; auto).
  pose proof (final_iso N rt EX q s' n m SP' W' HD' b Hb HH' HI') as FI'.
  pose proof (lt_0_INR q Hq) as Pq.
  assert (Zs : forall X, isometry N q X -> size N q X = sqrt (INR q)) by (intros X HX; unfold size; rewrite (iso_squares N q X HX); auto).
  assert (Sq : (sqrt (INR q) * sqrt (INR q) = INR q)%R) by (apply sqrt_sqrt; lra).
  assert (Sp : (0 < sqrt (INR q))%R) by (apply sqrt_lt_R0; auto).
  unfold distance in HE. rewrite (Zs _ HI) in HE.
  set (T := s_target s) in *. set (U := final_of s a) in *. set (V := final_of s' b) in *.
  assert (ST : sized N q T) by apply HT. assert (SU : sized N q U) by apply FI. assert (SV : sized N q V) by apply FI'.
  unfold error_limit, fid_err_of. rewrite (like_fid _ _ LK). destruct (s_fid s).
  - assert (HT' : isometry N q (s_target s')) by (rewrite (like_target _ _ LK); exact HT).
    assert (HC' : s_class s' = Unitary \/ exact_inv N rt) by (rewrite (like_class _ _ LK); exact HC).
    assert (Q : (Cmod (mtr (mmul (mdag T) U) - mtr (mmul (mdag T) V))%C <= e * INR q)%R).
    { replace (mtr (mmul (mdag T) U) - mtr (mmul (mdag T) V))%C with (mtr (mmul (mdag T) (msub U V))).
      - eapply Rle_trans; [apply (cauchy N q); auto with mat|]. rewrite (Zs T HT).
        apply Rle_trans with (sqrt (INR q) * (e * sqrt (INR q)))%R; [apply Rmult_le_compat_l; [lra|exact HE]|]. rewrite <- Sq at 3. lra.
      - rewrite (mmul_sub_r q N q) by auto with mat. set (P := mmul (mdag T) U). set (P' := mmul (mdag T) V).
        assert (sized q q P) by (unfold P; eauto with mat). assert (sized q q P') by (unfold P'; eauto with mat).
        unfold mtr. rewrite (proj1 (msub_sized q q P P' H)), (proj1 H), (proj1 H0). rewrite <- csum_minus. apply csum_ext. intros i Hi. apply (msub_ent q q); auto. }
    set (w := mtr (mmul (mdag T) U)) in *. set (w' := mtr (mmul (mdag T) V)) in *.
    assert (G : (Rabs (fidelity_of s a - fidelity_of s' b) <= e)%R).
    { assert (D : forall x y, (Rabs (x - y) <= e * INR q -> Rabs (x / INR q - y / INR q) <= e)%R).
      { intros x y H. replace (x / INR q - y / INR q)%R with ((x - y) / INR q)%R by (field; lra). unfold Rdiv.
        rewrite Rabs_mult, (Rabs_pos_eq (/ INR q)) by (apply Rlt_le, Rinv_0_lt_compat; auto).
        apply (Rmult_le_reg_r (INR q)); auto. rewrite Rmult_assoc, Rinv_l by lra. lra. }
      case_eq (s_phopt s); intros EP; pose proof (eq_trans (like_phopt _ _ LK) EP) as EP'.
      - rewrite (su_is N rt q s SP HC HT a EP), (su_is N rt q s' SP' HC' HT' b EP'). rewrite (like_target _ _ LK). fold T U V w w'.
        apply D. eapply Rle_trans; [|exact Q]. pose proof (Re_le_Cmod (w - w')%C) as R0.
        replace (Re w - Re w')%R with (Re (w - w')%C) by (destruct w, w'; cbn; ring). exact R0.
      - rewrite (psu_is N rt q s SP HC HT a EP), (psu_is N rt q s' SP' HC' HT' b EP'). rewrite (like_target _ _ LK). fold T U V w w'.
        apply D. eapply Rle_trans; [|exact Q].
        pose proof (Cmod_triangle (w - w')%C w') as R1. pose proof (Cmod_triangle (w' - w)%C w) as R2.
        replace (w - w' + w')%C with w in R1 by ring. replace (w' - w + w)%C with w' in R2 by ring.
        assert (R3 : Cmod (w' - w)%C = Cmod (w - w')%C) by (rewrite <- Cmod_opp; f_equal; ring). apply Rabs_le. lra. }
    pose proof (Rabs_triang_inv2 (1 - fidelity_of s a) (1 - fidelity_of s' b)) as R4.
    replace (1 - fidelity_of s a - (1 - fidelity_of s' b))%R with (- (fidelity_of s a - fidelity_of s' b))%R in R4 by ring. rewrite Rabs_Ropp in R4. lra.
  - unfold trace_dist. rewrite (like_scale _ _ LK), (like_target _ _ LK). cbn [osub otr omul odag MatAlg]. fold T U V.
    rewrite !(frob N q) by auto with mat. cbn [Re RtoC fst].
    rewrite <- !size_sq. set (x := size N q (msub T U)). set (y := size N q (msub T V)).
    assert (Hx : (x <= 2 * sqrt (INR q))%R).
    { unfold x. eapply Rle_trans; [apply size_sub; auto|]. rewrite (Zs T HT), (Zs U FI). lra. }
    assert (Hy : (y <= 2 * sqrt (INR q))%R).
    { unfold y. eapply Rle_trans; [apply size_sub; auto|]. rewrite (Zs T HT), (Zs V FI'). lra. }
    assert (Px : (0 <= x)%R) by apply size_pos. assert (Py : (0 <= y)%R) by apply size_pos.
    assert (TR : forall P P', sized N q P -> sized N q P' -> (size N q (msub T P) <= size N q (msub T P') + size N q (msub P' P))%R).
    { intros P P' SPp SPp'. replace (msub T P) with (madd (msub T P') (msub P' P)); [apply size_add; auto with mat|].
      apply (mat_ext N q); auto with mat. intros i j Hi Hj. rewrite (madd_ent N q), !(msub_ent N q) by auto with mat. ring. }
    assert (SY : size N q (msub V U) = size N q (msub U V)).
    { rewrite <- (size_neg N q (msub U V)) by auto with mat. f_equal. apply (mat_ext N q); auto with mat. intros i j Hi Hj.
      rewrite (mscal_ent N q), !(msub_ent N q) by auto with mat. apply injective_projections; cbn; ring. }
    pose proof (TR U V SU SV) as T1. pose proof (TR V U SV SU) as T2. rewrite SY in T1. fold x y in T1, T2.
    assert (De : (Rabs (x - y) <= e * sqrt (INR q))%R) by (apply Rabs_le; lra).
    replace (trace_scale s * (x * x) - trace_scale s * (y * y))%R with (trace_scale s * ((x - y) * (x + y)))%R by ring.
    rewrite !Rabs_mult, (Rabs_pos_eq (x + y)) by lra. replace (4 * INR q * Rabs (trace_scale s) * e)%R with (Rabs (trace_scale s) * (e * sqrt (INR q) * (4 * sqrt (INR q))))%R by (rewrite <- Sq at 3; ring).
    apply Rmult_le_compat_l; [apply Rabs_pos|]. apply Rmult_le_compat; auto; try lra. apply Rabs_pos.
Qed.
End Final.

(** The amplitudes *)
Section Pulse.
Context (N : nat) (rt : routines) (EX : exact_routines N rt).
Notation A := (MatAlg N rt).
Context (q n m : nat) (s : settings A).
Hypothesis SP : sized_problem N rt q s.
Hypothesis W : well_posed s n m.
Hypothesis HD : diag_suits N rt s.
Hypothesis HH : hamiltonian_problem N rt s.
Lemma pulse_close cs a b : bounds_ctrls N rt cs s -> shape n m a -> shape n m b ->
  (distance N q (final_of s a) (final_of s b) <= pulse_error (s_tau s) cs a b * size N q (s_initial s))%R.
Proof.
  intros (c & Ec & Fc) [La Fa] [Lb Fb].
  destruct (slots_known N rt s n m W) as (ds0 & cs0 & Ed0 & Ec0 & Ld0 & Lc0 & Lr0 & HP & HG).
  pose proof (some_inj _ _ (eq_trans (eq_sym Ec0) Ec)) as <-. destruct (HP _ (sp_gens _ _ _ _ SP)) as [Fm Fcm].
  assert (Les : length cs = n) by (apply Forall2_len in Fc; rewrite Fc; exact Lc0).
  assert (Ltau : length (s_tau s) = n) by apply (wp_tau _ _ _ W).
  unfold pulse_error, over_slots. apply (final_close N rt EX q n m s s SP SP W W HD HD HH HH eq_refl); try (split; assumption).
  - apply map2_len; auto. apply LawFacts.map3_length; auto.
  - intros k e t t' g g' Ek Et Et' Eg Eg'. pose proof (some_inj _ _ (eq_trans (eq_sym Et') Et)) as ->.
    apply map2_at in Ek as (t0 & e0 & Et0 & Ek & ->). pose proof (some_inj _ _ (eq_trans (eq_sym Et0) Et)) as ->.
    apply map3_at in Ek as (er & row & row' & Her & Hrow & Hrow' & ->).
    pose proof (eq_trans (f_equal (fun l => nth_error l k) (eq_sym (HG a))) Eg) as Q. cbn beta in Q. apply map3_at in Q as (x & row0 & cr & Hx & Hrow0 & Hcs & ->).
    pose proof (eq_trans (f_equal (fun l => nth_error l k) (eq_sym (HG b))) Eg') as Q. cbn beta in Q. apply map3_at in Q as (x' & row1 & cr' & Hx' & Hrow1 & Hcs' & ->).
    pose proof (some_inj _ _ (eq_trans (eq_sym Hrow0) Hrow)) as ->. pose proof (some_inj _ _ (eq_trans (eq_sym Hrow1) Hrow')) as ->.
    pose proof (some_inj _ _ (eq_trans (eq_sym Hx') Hx)) as ->. pose proof (some_inj _ _ (eq_trans (eq_sym Hcs') Hcs)) as ->.
    assert (Mx : matrix N N x) by (rewrite Forall_forall in Fm; apply Fm; eapply nth_error_In; eauto).
    assert (Mc : Forall (matrix N N) cr) by (rewrite Forall_forall in Fcm; apply Fcm; eapply nth_error_In; eauto).
    assert (Lrow : length row = m) by (rewrite Forall_forall in Fa; apply Fa; eapply nth_error_In; eauto).
    assert (Lrow' : length row' = m) by (rewrite Forall_forall in Fb; apply Fb; eapply nth_error_In; eauto).
    assert (Lcs : length cr = m) by (rewrite Forall_forall in Lr0; apply Lr0; eapply nth_error_In; eauto).
    pose proof (forall2_at _ _ _ k _ _ Fc Her Hcs) as Bc.
    pose proof (lin_amp N rt row row' cr er x x 0%R Mx Mx Mc (eq_trans Lrow (eq_sym Lcs)) (eq_trans Lrow' (eq_sym Lcs)) (bounds_zero N x (proj1 Mx)) Bc) as B.
    rewrite Rplus_0_l in B. destruct (lin_matrix N rt x row cr Mx Mc) as [S1 _]. destruct (lin_matrix N rt x row' cr Mx Mc) as [S2 _].
    refine (eq_ind_r (bounds N _) _ (diff_op N _ _ t S1 S2)). apply bounds_time; auto with mat.
Qed.
End Pulse.

(** ** Bounds at hand *)
Lemma unitary_bounds N U : unitary N U -> bounds N 1 U.
Proof. intros H. split; [lra|]. intros q y [Sy Py]. rewrite size_unitary by auto. lra. Qed.
Lemma size_bounds N X : sized N N X -> bounds N (size N N X) X.
Proof.
  intros SX. split; [apply size_pos|]. intros q y [Sy Py]. pose proof (size_pos N N X). pose proof (size_pos N q y).
  apply sq_le; [apply Rmult_le_pos; auto|]. rewrite size_sq. replace (size N N X * size N q y * (size N N X * size N q y))%R with (sum_squares N N X * sum_squares N q y)%R by (rewrite <- !size_sq; ring).
  set (row := fun i => tab N 1 (fun k _ => Cconj (ent X i k))). set (col := fun j => tab N 1 (fun k _ => ent y k j)).
  assert (E : forall i j, i < N -> j < q -> (Cmod (ent (mmul X y) i j) ^ 2 <= sum_squares N 1 (row i) * sum_squares N 1 (col j))%R).
  { intros i j Hi Hj. assert (C0 := cauchy N 1 (row i) (col j) ltac:(split; auto) ltac:(split; auto)).
    assert (Q : mtr (mmul (mdag (row i)) (col j)) = ent (mmul X y) i j).
    { rewrite (inner N 1) by (split; auto). rewrite (mmul_ent N N q) by auto. apply csum_ext. intros k Hk. cbn [csum]. unfold row, col. rewrite !ent_tab by lia.
      rewrite Cconj_conj. ring. }
    rewrite Q in C0. pose proof (Cmod_ge_0 (ent (mmul X y) i j)). pose proof (size_pos N 1 (row i)). pose proof (size_pos N 1 (col j)).
    rewrite <- !size_sq. apply Rle_trans with ((size N 1 (row i) * size N 1 (col j)) * (size N 1 (row i) * size N 1 (col j)))%R; [|lra].
    replace (Cmod (ent (mmul X y) i j) ^ 2)%R with (Cmod (ent (mmul X y) i j) * Cmod (ent (mmul X y) i j))%R by ring. apply Rmult_le_compat; auto. }
  assert (E1 : forall i, i < N -> sum_squares N 1 (row i) = rsum N (fun k => Cmod (ent X i k) ^ 2)%R).
  { intros i Hi. apply rsum_ext. intros k Hk. cbn [rsum]. unfold row. rewrite ent_tab, Cmod_conj by lia. ring. }
  assert (E2 : forall j, j < q -> sum_squares N 1 (col j) = rsum N (fun k => Cmod (ent y k j) ^ 2)%R).
  { intros j Hj. apply rsum_ext. intros k Hk. cbn [rsum]. unfold col. rewrite ent_tab by lia. ring. }
  assert (E3 : sum_squares N q y = rsum q (fun j => rsum N (fun k => Cmod (ent y k j) ^ 2)%R)).
  { unfold sum_squares. apply rsum_swap. }
  rewrite E3. unfold sum_squares at 1 2. rewrite (Rmult_comm (rsum N _)), <- rsum_scal_l. apply rsum_le. intros i Hi.
  rewrite Rmult_comm, <- rsum_scal_l. apply rsum_le. intros j Hj. eapply Rle_trans; [apply E; auto|]. rewrite E1, E2 by auto. lra.
Qed.

(** ** Derivatives of functions that move slowly *)
Lemma slow_derivative (f : R -> R) x d K : is_derive f x d -> (forall u, Rabs (f u - f x) <= K * Rabs (u - x))%R -> (Rabs d <= K)%R.
Proof.
  intros H HK. apply is_derive_Reals in H. apply Rnot_lt_le. intros L.
  destruct (H ((Rabs d - K) / 2)%R ltac:(lra)) as (del & Hd). pose proof (cond_pos del) as P.
  specialize (Hd (del / 2)%R ltac:(lra)). rewrite (Rabs_pos_eq (del / 2)) in Hd by lra. specialize (Hd ltac:(lra)).
  specialize (HK (x + del / 2)%R). replace (x + del / 2 - x)%R with (del / 2)%R in HK by ring. rewrite (Rabs_pos_eq (del / 2)) in HK by lra.
  set (D := (f (x + del / 2) - f x)%R) in *.
  assert (Q : (Rabs (D / (del / 2)) <= K)%R).
  { unfold Rdiv at 1. rewrite Rabs_mult, (Rabs_pos_eq (/ (del / 2))) by (apply Rlt_le, Rinv_0_lt_compat; lra).
    apply (Rmult_le_reg_r (del / 2)); [lra|]. rewrite Rmult_assoc, Rinv_l by lra. lra. }
  pose proof (Rabs_triang_inv d (D / (del / 2))) as T. rewrite Rabs_minus_sym in Hd. lra.
Qed.
Lemma slow_size r c F D x K : der r c F x D -> (forall u, size r c (msub (F u) (F x)) <= K * Rabs (u - x))%R -> (size r c D <= K)%R.
Proof.
  intros HD HK. pose proof HD as (SF & SD & _).
  pose proof (derM_tr c _ x _ (der_mul_l c r c (mdag D) F x D ltac:(auto with mat) HD)) as [Q _].
  assert (E : Re (mtr (mmul (mdag D) D)) = (size r c D * size r c D)%R) by (rewrite (frob r c) by auto; rewrite size_sq; auto).
  rewrite E in Q. pose proof (size_pos r c D) as PD.
  assert (B := slow_derivative _ _ _ (size r c D * K)%R Q). cbn beta in B.
  assert (HB : (Rabs (size r c D * size r c D) <= size r c D * K)%R).
  { apply B. intros u. replace (Re (mtr (mmul (mdag D) (F u))) - Re (mtr (mmul (mdag D) (F x))))%R with (Re (mtr (mmul (mdag D) (msub (F u) (F x))))).
    - eapply Rle_trans; [apply Re_le_Cmod|]. eapply Rle_trans; [apply (cauchy r c); auto with mat|]. rewrite Rmult_assoc. apply Rmult_le_compat_l; auto.
    - rewrite !(inner r c) by auto with mat.
      rewrite !csum_Re, <- rsum_minus. apply rsum_ext. intros i Hi. rewrite !csum_Re, <- rsum_minus. apply rsum_ext. intros j Hj.
      rewrite !(msub_ent r c) by auto. destruct (ent (F u) i j), (ent (F x) i j), (ent D i j). cbn. ring. }
  rewrite Rabs_pos_eq in HB by (apply Rmult_le_pos; auto).
  destruct (Req_dec (size r c D) 0) as [Z|Z].
  - rewrite Z. specialize (HK (x + 1)%R). replace (x + 1 - x)%R with 1%R in HK by ring. rewrite Rabs_R1 in HK.
    pose proof (size_pos r c (msub (F (x + 1)%R) (F x))). lra.
  - apply (Rmult_le_reg_l (size r c D)); lra.
Qed.
Section Slope.
Context (N : nat) (rt : routines) (EX : exact_routines N rt).
Notation A := (MatAlg N rt).
Context (q n m : nat) (s : settings A).
Hypothesis SP : sized_problem N rt q s.
Hypothesis W : well_posed s n m.
Hypothesis HD : diag_suits N rt s.
Hypothesis HH : hamiltonian_problem N rt s.
Lemma slope_prop r t h cj c z : matrix N N h -> hermitian h -> matrix N N cj -> hermitian cj -> bounds N c cj -> matrix N r z ->
  (size N r (mmul (mdexp (phased s t h) (phased s t cj)) z) <= Rabs t * c * size N r z)%R.
Proof.
  intros Mh Hh Mc Hc HB Mz. pose proof (ham_der N rt q s SP t h cj HH Mh Mc) as Q. destruct Mh as [Sh Ph], Mc as [Sc Pc], Mz as [Sz Pz].
  pose proof (der_mul_r N N r z _ _ _ Sz Q) as Q'. eapply slow_size; [exact Q'|]. intros u. cbn beta. rewrite <- (mmul_sub_l N N r) by auto using mexp_sized with mat.
  assert (RH : forall u h, sized N N h -> hermitian h -> hermitian (mscal (RtoC u) h)).
  { intros v x Sx Ex. unfold hermitian. rewrite (mdag_scal N N), Ex by auto. f_equal. apply injective_projections; cbn; ring. }
  assert (AH : forall v, hermitian (madd h (mscal (RtoC v) cj))).
  { intros v. unfold hermitian. rewrite (mdag_add N N) by auto with mat. rewrite (RH v cj Sc Hc), Hh. auto. }
  assert (E : forall v, mscal (RtoC t * - Ci)%C (madd h (mscal (RtoC v) cj)) = mscal (- Ci)%C (mscal (RtoC t) (madd h (mscal (RtoC v) cj)))).
  { intros v. rewrite (mscal_scal N N) by auto with mat. f_equal. apply Cmult_comm. }
  rewrite !E. replace (Rabs t * c * size N r z * Rabs (u - 0))%R with (Rabs t * (c * Rabs (u - 0)) * size N r z)%R by ring.
  apply exp_close.
  - split; auto with mat.
  - apply RH; auto with mat.
  - split; auto with mat.
  - apply RH; auto with mat.
  - split; auto.
  - rewrite (diff_op N) by auto with mat. apply bounds_time; auto with mat.
    replace (msub (madd h (mscal (RtoC u) cj)) (madd h (mscal (RtoC 0) cj))) with (mscal (RtoC (u - 0)) cj).
    + apply bounds_real; auto.
    + apply (mat_ext N N); auto with mat. intros i j Hi Hj. rewrite (mscal_ent N N), (msub_ent N N), !(madd_ent N N), !(mscal_ent N N) by auto with mat. apply injective_projections; cbn; ring.
Qed.
Lemma size_evolve r ps x : Forall (unitary N) ps -> matrix N r x -> size N r (evolve (A := A) ps x) = size N r x.
Proof.
  intros F. revert x. induction F as [|p ps U F IH]; intros x [Sx Px]; cbn; auto. assert (Sp : sized N N p) by apply U.
  transitivity (size N r (mmul p x)); [apply IH; split; eauto with mat|apply size_unitary; auto].
Qed.
Lemma slope_final a k j t h cj c dp : slot_at s n m a k j t h cj -> bounds N c cj ->
  dslot (A := A) (dprop (A := A) mdexp s) s a k j = Some dp -> 
  matrix N q (dfin N rt s a k dp) /\ (size N q (dfin N rt s a k dp) <= Rabs t * c * size N q (s_initial s))%R.
Proof.
  intros SL HB E. destruct (slot_matrices N rt q s n m SP a k j t h cj SL) as [Mh Mc]. destruct SL as (Ha & Et & Eg & c0 & cs & Ec & Ecs & Ecj).
  unfold dslot in E. rewrite Ec, Et, Eg, (wp_tau _ _ _ W), Ecs, Ecj in E. apply some_inj in E. subst dp.
  change (dprop (A := A) mdexp s t h cj) with (mdexp (phased s t h) (phased s t cj)).
  assert (Hh : hermitian h) by exact (gen_herm N rt q s SP a k h HH Eg).
  assert (Hc : hermitian cj) by (destruct HH as [G _]; exact (proj2 (ctrl_at N rt _ s n k j c0 cs cj G Ec Ecs Ecj))).
  pose proof (props_unitary N rt EX q s n m SP W HD a Ha HH) as U. pose proof (sp_initial _ _ _ _ SP) as Hx.
  assert (Mb : matrix N q (evolve (A := A) (firstn k (props_of s a)) (s_initial s))).
  { apply evolve_matrix; auto. apply Forall_firstn. eapply props_matrix; eauto. }
  assert (Md : sized N N (mdexp (phased s t h) (phased s t cj))).
  { pose proof (phased_matrix N rt s t h (is_lin N rt q s SP) Mh) as [S1 _]. pose proof (phased_matrix N rt s t cj (is_lin N rt q s SP) Mc) as [S2 _]. apply mdexp_sized; auto. }
  assert (Mm : matrix N q (mmul (mdexp (phased s t h) (phased s t cj)) (evolve (A := A) (firstn k (props_of s a)) (s_initial s)))).
  { destruct Mb as [Sb Pb]. split; eauto with mat. }
  split.
  - apply evolve_matrix; auto. apply Forall_skipn. eapply props_matrix; eauto.
  - unfold dfin. rewrite size_evolve; [|apply Forall_skipn; exact U|exact Mm].
    eapply Rle_trans; [apply (slope_prop q t h cj c); auto|]. rewrite size_evolve; [|apply Forall_firstn; exact U|exact Hx]. lra.
Qed.
Lemma slope_entry a k j t h cj c y : slot_at s n m a k j t h cj -> bounds N c cj ->
  isometry N q (s_initial s) -> isometry N q (s_target s) -> 0 < q -> (s_class s = Unitary \/ exact_inv N rt) ->
  grad_entry_of (A := A) (dprop (A := A) mdexp s) s a k j = Some y -> (Rabs y <= error_limit N rt q s (Rabs t * c))%R.
Proof.
  intros SL HB HI HT Hq HC. pose proof SL as (Ha & _).
  pose proof (final_iso N rt EX q s n m SP W HD a Ha HH HI) as FI. pose proof (lt_0_INR q Hq) as Pq.
  assert (Zs : forall X, isometry N q X -> size N q X = sqrt (INR q)) by (intros X HX; unfold size; rewrite (iso_squares N q X HX); auto).
  assert (Sq : (sqrt (INR q) * sqrt (INR q) = INR q)%R) by (apply sqrt_sqrt; lra).
  assert (Sp : (0 < sqrt (INR q))%R) by (apply sqrt_lt_R0; auto).
  assert (Be : (0 <= Rabs t * c)%R) by (apply Rmult_le_pos; [apply Rabs_pos|apply HB]).
  assert (ST : sized N q (s_target s)) by apply HT. assert (SU : sized N q (final_of s a)) by apply FI.
  unfold grad_entry_of, error_limit. destruct (s_fid s).
  - unfold doverlap at 1. destruct (dslot (A := A) (dprop (A := A) mdexp s) s a k j) as [dp|] eqn:Ed; [|discriminate].
    destruct (slope_final a k j t h cj c dp SL HB Ed) as [[SD _] HS]. rewrite (Zs _ HI) in HS.
    pose proof (doverlap_is N rt s a k j dp Ed) as Q. unfold doverlap in Q. rewrite Ed in Q. apply some_inj in Q. rewrite Q. clear Q.
    rewrite (undo_is N rt q s SP HC HT). rewrite (norm_is N rt q s HT). set (w := mtr (mmul (mdag (s_target s)) (dfin N rt s a k dp))).
    assert (Hw : (Cmod w <= Rabs t * c * INR q)%R).
    { unfold w. eapply Rle_trans; [apply (cauchy N q); auto|]. rewrite (Zs _ HT).
      apply Rle_trans with (sqrt (INR q) * (Rabs t * c * sqrt (INR q)))%R; [apply Rmult_le_compat_l; lra|]. rewrite <- Sq at 3. lra. }
    assert (D : forall x, (Rabs x <= Rabs t * c * INR q -> Rabs (x / INR q) <= Rabs t * c)%R).
    { intros x Hx. unfold Rdiv. rewrite Rabs_mult, (Rabs_pos_eq (/ INR q)) by (apply Rlt_le, Rinv_0_lt_compat; auto).
      apply (Rmult_le_reg_r (INR q)); auto. rewrite Rmult_assoc, Rinv_l by lra. lra. }
    assert (G : forall z, (Rabs z <= Rabs t * c -> Rabs ((if Rle_dec 1 (fidelity_of s a) then 1 else -1) * z) <= Rabs t * c)%R).
    { intros z Hz. rewrite Rabs_mult. destruct (Rle_dec 1 (fidelity_of s a)); [rewrite Rabs_R1; lra|]. rewrite (Rabs_left (-1)) by lra. lra. }
    intros E. apply some_inj in E. subst y. apply G. destruct (s_phopt s).
    + cbn [Re RtoC fst]. apply D. eapply Rle_trans; [apply Re_le_Cmod|exact Hw].
    + rewrite Cmod_R, (Rabs_pos_eq (INR q)) by lra. apply D. eapply Rle_trans; [apply Re_le_Cmod|]. rewrite Cmod_mult.
      replace (Cmod (conj_phase (overlap s a))) with 1%R; [lra|]. unfold conj_phase. destruct (Req_EM_T (Cmod (overlap s a)) 0) as [e|e].
      * rewrite Cmod_1. auto.
      * rewrite Cmod_div by (intros Z; apply e; apply (f_equal Cmod) in Z; rewrite Cmod_R, Cmod_0, Rabs_pos_eq in Z; auto using Cmod_ge_0).
        rewrite Cmod_conj, Cmod_R, Rabs_pos_eq by apply Cmod_ge_0. field. auto.
  - unfold dfinal at 1. destruct (dslot (A := A) (dprop (A := A) mdexp s) s a k j) as [dp|] eqn:Ed; [|discriminate].
    destruct (slope_final a k j t h cj c dp SL HB Ed) as [[SD _] HS]. rewrite (Zs _ HI) in HS.
    pose proof (dfinal_is N rt s a k j dp Ed) as Q. unfold dfinal in Q. rewrite Ed in Q. rewrite Q. clear Q.
    intros E. apply some_inj in E. subst y. cbn [osub otr omul odag MatAlg]. set (X := msub (s_target s) (final_of s a)).
    assert (SX : sized N q X) by (unfold X; auto with mat).
    assert (HX : (size N q X <= 2 * sqrt (INR q))%R).
    { unfold X. eapply Rle_trans; [apply size_sub; auto|]. rewrite (Zs _ HT), (Zs _ FI). lra. }
    assert (Hw : (Cmod (mtr (mmul (mdag X) (dfin N rt s a k dp))) <= 2 * sqrt (INR q) * (Rabs t * c * sqrt (INR q)))%R).
    { eapply Rle_trans; [apply (cauchy N q); auto|]. apply Rmult_le_compat; auto using size_pos. }
    rewrite !Rabs_mult. rewrite (Rabs_left (-2)) by lra. pose proof (Re_le_Cmod (mtr (mmul (mdag X) (dfin N rt s a k dp)))) as R0.
    pose proof (Rabs_pos (trace_scale s)) as R1.
    apply Rle_trans with (2 * Rabs (trace_scale s) * (2 * sqrt (INR q) * (Rabs t * c * sqrt (INR q))))%R.
    + replace (- -2)%R with 2%R by lra. apply Rmult_le_compat_l; lra.
    + rewrite <- Sq at 3. right. ring.
Qed.
End Slope.
