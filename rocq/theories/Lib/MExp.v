(** The exponential of a complex matrix, and its derivative. *)
From Coq Require Import Reals Lra Lia Arith Factorial.
From Coquelicot Require Import Coquelicot.
From Verif.Lib Require Import Csum Mat.
Local Open Scope C_scope.
Set Bullet Behavior "Strict Subproofs".

(** ** Series of complex numbers *)
Definition CSeries (u : nat -> C) : C := (Series (fun n => Re (u n)), Series (fun n => Im (u n))).
Definition cvg (u : nat -> C) : Prop := ex_series (fun n => Cmod (u n)).

Lemma cvg_Re u : cvg u -> ex_series (fun n => Re (u n)).
Proof. intros H. eapply (ex_series_le (V := R_CompleteNormedModule)); [|exact H]. intros n. apply Re_le_Cmod. Qed.
Lemma cvg_Im u : cvg u -> ex_series (fun n => Im (u n)).
Proof. intros H. eapply (ex_series_le (V := R_CompleteNormedModule)); [|exact H]. intros n. apply Im_le_Cmod. Qed.
Lemma CSeries_ext u v : (forall n, u n = v n) -> CSeries u = CSeries v.
Proof. intros H. unfold CSeries. f_equal; apply Series_ext; intros; rewrite H; auto. Qed.
Lemma CSeries_plus u v : cvg u -> cvg v -> CSeries (fun n => u n + v n) = CSeries u + CSeries v.
Proof.
  intros Hu Hv. unfold CSeries, Cplus; cbn [fst snd]. f_equal.
  - rewrite <- Series_plus; auto using cvg_Re.
  - rewrite <- Series_plus; auto using cvg_Im.
Qed.
Lemma CSeries_scal c u : cvg u -> CSeries (fun n => c * u n) = c * CSeries u.
Proof.
  intros H. unfold CSeries, Cmult; cbn [fst snd Re Im]. f_equal.
  - rewrite <- !Series_scal_l, <- Series_minus; auto using cvg_Re, cvg_Im, (ex_series_scal_l (K:=R_AbsRing)).
    + apply (ex_series_scal_l (K := R_AbsRing) (V := R_NormedModule) (fst c)). apply (cvg_Re _ H).
    + apply (ex_series_scal_l (K := R_AbsRing) (V := R_NormedModule) (snd c)). apply (cvg_Im _ H).
  - rewrite <- !Series_scal_l, <- Series_plus; auto.
    + apply (ex_series_scal_l (K := R_AbsRing) (V := R_NormedModule) (fst c)). apply (cvg_Im _ H).
    + apply (ex_series_scal_l (K := R_AbsRing) (V := R_NormedModule) (snd c)). apply (cvg_Re _ H).
Qed.
Lemma cvg_scal c u : cvg u -> cvg (fun n => c * u n).
Proof.
  intros H. unfold cvg. eapply ex_series_ext; [|apply (ex_series_scal_l (K := R_AbsRing) (V := R_NormedModule) (Cmod c)); exact H].
  intros n. cbn. rewrite Cmod_mult. reflexivity.
Qed.
Lemma cvg_le u (b : nat -> R) : (forall n, (Cmod (u n) <= b n)%R) -> ex_series b -> cvg u.
Proof.
  intros H E. eapply (ex_series_le (V := R_CompleteNormedModule)); [|exact E]. intros n. cbn.
  unfold norm; cbn; unfold abs; cbn. rewrite Rabs_pos_eq; auto. apply Cmod_ge_0.
Qed.
Lemma cvg_plus u v : cvg u -> cvg v -> cvg (fun n => u n + v n).
Proof.
  intros Hu Hv. eapply cvg_le; [|apply (ex_series_plus (K := R_AbsRing) (V := R_NormedModule) _ _ Hu Hv)].
  intros n. apply Cmod_triangle.
Qed.
Lemma cvg_zero : cvg (fun _ => 0).
Proof.
  eapply ex_series_ext; [|apply (ex_series_scal_l (K := R_AbsRing) (V := R_NormedModule) 0%R (fun n => (/ 2) ^ n)%R)].
  - intros. cbn. rewrite Cmod_0. unfold scal; cbn; unfold mult; cbn. ring.
  - apply ex_series_geom. rewrite Rabs_pos_eq; lra.
Qed.
Lemma CSeries_zero : CSeries (fun _ => 0) = 0.
Proof.
  transitivity (CSeries (fun n => 0 * (fun _ => RtoC 0) n)); [apply CSeries_ext; intros; ring|].
  rewrite CSeries_scal by apply cvg_zero. ring.
Qed.
Lemma cvg_csum m (u : nat -> nat -> C) : (forall k, (k < m)%nat -> cvg (u k)) -> cvg (fun n => csum m (fun k => u k n)).
Proof. induction m; intros H; cbn [csum]; [apply cvg_zero|]. apply cvg_plus; auto. Qed.
Lemma CSeries_csum m (u : nat -> nat -> C) : (forall k, (k < m)%nat -> cvg (u k)) ->
  CSeries (fun n => csum m (fun k => u k n)) = csum m (fun k => CSeries (u k)).
Proof.
  induction m; intros H; cbn [csum]; [apply CSeries_zero|].
  rewrite CSeries_plus; auto using cvg_csum. rewrite IHm; auto.
Qed.
Lemma CSeries_conj u : CSeries (fun n => Cconj (u n)) = Cconj (CSeries u).
Proof. unfold CSeries, Cconj; cbn. f_equal. rewrite <- Series_opp. auto. Qed.
Lemma cvg_conj u : cvg u -> cvg (fun n => Cconj (u n)).
Proof. intros H. eapply cvg_le; [|exact H]. intros. rewrite Cmod_conj. lra. Qed.
Lemma CSeries_shift u : cvg u -> CSeries u = u 0%nat + CSeries (fun n => u (S n)).
Proof.
  intros H. unfold CSeries, Cplus; cbn [fst snd]. f_equal.
  - apply (Series_incr_1 (fun n => Re (u n))). apply cvg_Re; auto.
  - apply (Series_incr_1 (fun n => Im (u n))). apply cvg_Im; auto.
Qed.
Lemma cvg_shift u : cvg u -> cvg (fun n => u (S n)).
Proof. intros H. apply (ex_series_incr_1 (fun n => Cmod (u n))). exact H. Qed.
Lemma CSeries_single (u : nat -> C) : (forall n, u (S n) = 0) -> CSeries u = u 0%nat.
Proof.
  intros H. rewrite CSeries_shift.
  - rewrite (CSeries_ext _ (fun _ => 0)), CSeries_zero; auto. ring.
  - apply (ex_series_incr_1 (fun n => Cmod (u n))). eapply ex_series_ext; [|apply cvg_zero]. intros. cbn. rewrite H. auto.
Qed.
Lemma CSeries_bound u (b : nat -> R) : (forall n, (Cmod (u n) <= b n)%R) -> ex_series b ->
  (Rabs (Re (CSeries u)) <= Series b /\ Rabs (Im (CSeries u)) <= Series b)%R.
Proof.
  intros H E. assert (forall f : C -> R, (forall z, (Rabs (f z) <= Cmod z)%R) -> (Rabs (Series (fun n => f (u n))) <= Series b)%R) as G.
  { intros f Hf. assert (ex_series (fun n => Rabs (f (u n)))).
    { eapply (ex_series_le (V := R_CompleteNormedModule)); [|exact E]. intros n. unfold norm; cbn; unfold abs; cbn. rewrite Rabs_Rabsolu.
      eapply Rle_trans; [apply Hf|apply H]. }
    eapply Rle_trans; [apply Series_Rabs; auto|]. apply Series_le; auto. intros n. split; [apply Rabs_pos|].
    eapply Rle_trans; [apply Hf|apply H]. }
  split; apply (G Re) || apply (G Im); [apply Re_le_Cmod|apply Im_le_Cmod].
Qed.

(** ** The exponential series *)
Definition ifact (n : nat) : C := RtoC (/ INR (fact n)).
Lemma ifact_pos n : (0 < / INR (fact n))%R.
Proof. apply Rinv_0_lt_compat, INR_fact_lt_0. Qed.
Lemma exp_series K : is_series (fun n => K ^ n * / INR (fact n))%R (exp K).
Proof.
  pose proof (is_exp_Reals K) as H. unfold is_pseries in H. eapply is_series_ext; [|exact H].
  intros n. cbn. rewrite pow_n_pow. unfold scal; cbn; unfold mult; cbn. auto.
Qed.
Lemma exp_dom c K : ex_series (fun n => c * (K ^ n * / INR (fact n)))%R.
Proof. apply (ex_series_scal_l (K := R_AbsRing) (V := R_NormedModule) c). eexists. apply exp_series. Qed.
Lemma exp_dom_sum c K : Series (fun n => c * (K ^ n * / INR (fact n)))%R = (c * exp K)%R.
Proof. rewrite Series_scal_l. f_equal. apply is_series_unique, exp_series. Qed.
Lemma ifact_mul n : ifact n = (INR (S n)) * ifact (S n).
Proof.
  unfold ifact. rewrite <- RtoC_mult. f_equal. rewrite fact_simpl, mult_INR. field. split; [apply INR_fact_neq_0|apply not_0_INR; lia].
Qed.

Definition mexp (A : mat) : mat := tab (nr A) (nr A) (fun i j => CSeries (fun n => ifact n * ent (mpow A n) i j)).

(** Derivative of the [n]-th power at [X] in the direction [E]. *)
Fixpoint dpow (X E : mat) (n : nat) : mat :=
  match n with
  | O => mzero (nr X) (nr X)
  | S k => madd (mmul E (mpow X k)) (mmul X (dpow X E k))
  end.
(** Derivative of the exponential. *)
Definition mdexp (X E : mat) : mat := tab (nr X) (nr X) (fun i j => CSeries (fun n => ifact n * ent (dpow X E n) i j)).

Section Exp.
Context (N : nat).
Implicit Types (A X E : mat).
Lemma mexp_sized A : sized N N A -> sized N N (mexp A). Proof. intros [H _]. unfold mexp. rewrite H. auto with mat. Qed.
Lemma mdexp_sized A E : sized N N A -> sized N N (mdexp A E). Proof. intros [H _]. unfold mdexp. rewrite H. auto with mat. Qed.
Lemma mexp_ent A i j : sized N N A -> (i < N)%nat -> (j < N)%nat -> ent (mexp A) i j = CSeries (fun n => ifact n * ent (mpow A n) i j).
Proof. intros [H _] Hi Hj. unfold mexp. rewrite H, ent_tab; auto. Qed.
Lemma mdexp_ent A E i j : sized N N A -> (i < N)%nat -> (j < N)%nat -> ent (mdexp A E) i j = CSeries (fun n => ifact n * ent (dpow A E n) i j).
Proof. intros [H _] Hi Hj. unfold mdexp. rewrite H, ent_tab; auto. Qed.
Lemma dpow_sized X E n : sized N N X -> sized N N E -> sized N N (dpow X E n).
Proof. intros H1 H2. induction n; cbn; [destruct H1 as [-> _]; apply tab_sized|eauto with mat]. Qed.
Lemma dpow_proper X E n : proper (dpow X E n).
Proof. destruct n; cbn; auto with mat. Qed.

Lemma mexp_proper A : proper (mexp A). Proof. apply tab_proper. Qed.
Lemma mdexp_proper A E : proper (mdexp A E). Proof. apply tab_proper. Qed.
Hint Resolve mexp_sized mdexp_sized mexp_proper mdexp_proper dpow_sized dpow_proper : mat.

Let NN := (INR N * INR N)%R.
Lemma NN_pos : (0 <= NN)%R. Proof. unfold NN. pose proof (pos_INR N). nra. Qed.

Lemma cmod_ifact n z : Cmod (ifact n * z) = (/ INR (fact n) * Cmod z)%R.
Proof. rewrite Cmod_mult. unfold ifact. rewrite Cmod_R, Rabs_pos_eq; auto. left. apply ifact_pos. Qed.

Lemma exp_cvg A i j : sized N N A -> (i < N)%nat -> (j < N)%nat -> cvg (fun n => ifact n * ent (mpow A n) i j).
Proof.
  intros S Hi Hj. apply cvg_le with (b := fun n => (NN * (mnorm A ^ n * / INR (fact n)))%R); [|apply exp_dom].
  intros n. rewrite cmod_ifact. pose proof (ifact_pos n).
  assert (Cmod (ent (mpow A n) i j) <= NN * mnorm A ^ n)%R.
  { eapply Rle_trans; [apply (mnorm_ent N N); eauto with mat|]. apply mnorm_pow; auto. }
  nra.
Qed.

(** Bounds for the first and second order remainders of the powers. *)
Section Remainder.
Context (X E : mat) (HX : sized N N X) (HE : sized N N E) (s K : R).
Hypothesis HK1 : (1 <= K)%R.
Hypothesis HK : (mnorm X + Rabs s * mnorm E <= K)%R.
Let Y := madd X (mscal s E).
Let e := mnorm E.

Lemma Y_sized : sized N N Y. Proof. unfold Y. auto with mat. Qed.
Lemma Y_norm : (mnorm Y <= K)%R.
Proof.
  unfold Y. eapply Rle_trans; [apply (mnorm_add N N); auto with mat|]. rewrite (mnorm_scal N N) by auto.
  rewrite Cmod_R. auto.
Qed.
Lemma X_norm : (mnorm X <= K)%R.
Proof. pose proof (Rabs_pos s). pose proof (mnorm_pos E). nra. Qed.
Lemma Y_pow n : (mnorm (mpow Y n) <= NN * K ^ n)%R.
Proof.
  eapply Rle_trans; [apply mnorm_pow, Y_sized|]. apply Rmult_le_compat_l; [apply NN_pos|].
  apply pow_incr. split; [apply mnorm_pos|apply Y_norm].
Qed.
Lemma X_pow n : (mnorm (mpow X n) <= NN * K ^ n)%R.
Proof.
  eapply Rle_trans; [apply mnorm_pow, HX|]. apply Rmult_le_compat_l; [apply NN_pos|].
  apply pow_incr. split; [apply mnorm_pos|apply X_norm].
Qed.
Lemma K_pow n : (1 <= K ^ n)%R. Proof. apply pow_R1_Rle; auto. Qed.

Lemma dpow_norm n : (mnorm (dpow X E n) <= NN * (INR n * e * K ^ n))%R.
Proof.
  pose proof (mnorm_pos E) as He. fold e in He. induction n.
  - cbn [dpow]. destruct HX as [-> _]. unfold mnorm. rewrite (rsum_zero).
    + cbn. pose proof NN_pos. nra.
    + intros. apply rsum_zero. intros. unfold mzero in *. rewrite nr_tab, nc_tab in *. rewrite ent_tab by auto. apply Cmod_0.
  - cbn [dpow]. eapply Rle_trans; [apply (mnorm_add N N); eauto with mat|].
    assert (H1 : (mnorm (mmul E (mpow X n)) <= e * (NN * K ^ n))%R).
    { eapply Rle_trans; [apply (mnorm_mul N N N); eauto with mat|]. apply Rmult_le_compat_l; auto. apply X_pow. }
    assert (H2 : (mnorm (mmul X (dpow X E n)) <= K * (NN * (INR n * e * K ^ n)))%R).
    { eapply Rle_trans; [apply (mnorm_mul N N N); eauto with mat|]. apply Rmult_le_compat; auto using mnorm_pos, X_norm. }
    rewrite S_INR. cbn [pow]. assert (NN * K ^ n <= NN * (K * K ^ n))%R by (pose proof (K_pow n); pose proof NN_pos; apply Rmult_le_compat_l; nra).
    replace (NN * ((INR n + 1) * e * (K * K ^ n)))%R with (K * (NN * (INR n * e * K ^ n)) + e * (NN * (K * K ^ n)))%R by ring.
    assert (e * (NN * K ^ n) <= e * (NN * (K * K ^ n)))%R by (apply Rmult_le_compat_l; auto). lra.
Qed.

Let P n := msub (mpow Y n) (mpow X n).
Lemma P_step n : P (S n) = madd (mmul X (P n)) (mscal s (mmul E (mpow Y n))).
Proof.
  unfold P. cbn [mpow]. assert (sized N N Y) by apply Y_sized.
  rewrite (mmul_sub_r N N N) by eauto with mat. unfold Y at 1. rewrite (mmul_add_l N N N) by eauto with mat.
  rewrite (mmul_scal_l N N N) by eauto with mat. apply (mat_ext N N); eauto 10 with mat. intros i j Hi Hj.
  assert (sized N N (mmul X (mpow Y n))) by eauto with mat. assert (sized N N (mmul X (mpow X n))) by eauto with mat.
  erewrite msub_ent, !madd_ent, msub_ent by eauto with mat. ring.
Qed.
Lemma P_sized n : sized N N (P n). Proof. unfold P. pose proof Y_sized. auto with mat. Qed.
Lemma P_norm n : (mnorm (P n) <= Rabs s * (NN * (INR n * e * K ^ n)))%R.
Proof.
  pose proof (mnorm_pos E) as He. fold e in He. pose proof Y_sized as HY. pose proof (Rabs_pos s) as Hs. induction n.
  - unfold P. cbn [mpow]. destruct HX as [E1 _], HY as [E2 _]. rewrite E1, E2. unfold mnorm. rewrite rsum_zero.
    + cbn. pose proof NN_pos. nra.
    + intros i Hi. apply rsum_zero. intros j Hj. unfold msub in *. rewrite nr_tab, nc_tab in *. rewrite ent_tab by auto.
      replace (ent (mid N) i j - ent (mid N) i j) with (RtoC 0) by ring. apply Cmod_0.
  - rewrite P_step. eapply Rle_trans; [apply (mnorm_add N N); eauto using P_sized with mat|].
    rewrite (mnorm_scal N N) by eauto with mat. rewrite Cmod_R.
    assert (H1 : (mnorm (mmul E (mpow Y n)) <= e * (NN * K ^ n))%R).
    { eapply Rle_trans; [apply (mnorm_mul N N N); eauto with mat|]. apply Rmult_le_compat_l; auto. apply Y_pow. }
    assert (H2 : (mnorm (mmul X (P n)) <= K * (Rabs s * (NN * (INR n * e * K ^ n))))%R).
    { eapply Rle_trans; [apply (mnorm_mul N N N); eauto using P_sized with mat|]. apply Rmult_le_compat; auto using mnorm_pos, X_norm. }
    rewrite S_INR. cbn [pow]. assert (NN * K ^ n <= NN * (K * K ^ n))%R by (pose proof (K_pow n); pose proof NN_pos; apply Rmult_le_compat_l; nra).
    assert (e * (NN * K ^ n) <= e * (NN * (K * K ^ n)))%R by (apply Rmult_le_compat_l; auto).
    replace (Rabs s * (NN * ((INR n + 1) * e * (K * K ^ n))))%R with
      (K * (Rabs s * (NN * (INR n * e * K ^ n))) + Rabs s * (e * (NN * (K * K ^ n))))%R by ring.
    assert (Rabs s * mnorm (mmul E (mpow Y n)) <= Rabs s * (e * (NN * (K * K ^ n))))%R by (apply Rmult_le_compat_l; auto; lra). lra.
Qed.

Let R' n := msub (P n) (mscal s (dpow X E n)).
Lemma R_step n : R' (S n) = madd (mmul X (R' n)) (mscal s (mmul E (P n))).
Proof.
  unfold R'. rewrite P_step. cbn [dpow]. pose proof Y_sized as HY. pose proof (P_sized n) as HP.
  rewrite (mmul_sub_r N N N) by eauto with mat. rewrite (mmul_scal_r N N N) by eauto with mat.
  replace (mmul E (P n)) with (msub (mmul E (mpow Y n)) (mmul E (mpow X n))) by (unfold P; rewrite (mmul_sub_r N N N); eauto with mat).
  assert (sized N N (mmul X (P n))) by eauto with mat. assert (sized N N (mmul E (mpow X n))) by eauto with mat.
  assert (sized N N (mmul E (mpow Y n))) by eauto with mat. assert (sized N N (mmul X (dpow X E n))) by eauto with mat.
  apply (mat_ext N N); eauto 10 with mat. intros i j Hi Hj.
  erewrite msub_ent, !madd_ent, !mscal_ent, msub_ent, !mscal_ent, msub_ent, madd_ent by eauto with mat. ring.
Qed.
Lemma R_sized n : sized N N (R' n). Proof. unfold R'. pose proof (P_sized n). auto with mat. Qed.
Lemma R_norm n : (mnorm (R' n) <= s * s * (NN * (INR n * INR n * (e * e) * K ^ n)))%R.
Proof.
  pose proof (mnorm_pos E) as He. fold e in He. pose proof Y_sized as HY. pose proof (Rabs_pos s) as Hs.
  assert (Es : (Rabs s * Rabs s = s * s)%R) by (rewrite <- Rabs_mult; apply Rabs_pos_eq; nra). induction n.
  - unfold R', P. cbn [mpow dpow]. destruct HX as [E1 _], HY as [E2 _]. rewrite E1, E2. unfold mnorm. rewrite rsum_zero.
    + cbn. pose proof NN_pos. nra.
    + intros i Hi. apply rsum_zero. intros j Hj. unfold msub in *. rewrite !nr_tab, !nc_tab in *. unfold mid at 1 in Hi. rewrite nr_tab in Hi. rewrite !ent_tab by auto.
      unfold mscal, mzero. rewrite ent_tab by (rewrite ?nr_tab, ?nc_tab; auto). rewrite ent_tab by auto.
      replace (ent (mid N) i j - ent (mid N) i j - s * 0) with (RtoC 0) by ring. apply Cmod_0.
  - rewrite R_step. eapply Rle_trans; [apply (mnorm_add N N); eauto using R_sized, P_sized with mat|].
    rewrite (mnorm_scal N N) by eauto using P_sized with mat. rewrite Cmod_R.
    assert (H1 : (mnorm (mmul E (P n)) <= e * (Rabs s * (NN * (INR n * e * K ^ n))))%R).
    { eapply Rle_trans; [apply (mnorm_mul N N N); eauto using P_sized with mat|]. apply Rmult_le_compat_l; auto. apply P_norm. }
    assert (H2 : (mnorm (mmul X (R' n)) <= K * (s * s * (NN * (INR n * INR n * (e * e) * K ^ n))))%R).
    { eapply Rle_trans; [apply (mnorm_mul N N N); eauto using R_sized with mat|]. apply Rmult_le_compat; auto using mnorm_pos, X_norm. }
    rewrite S_INR. cbn [pow]. pose proof (pos_INR n) as Hn. pose proof (K_pow n) as Hk. pose proof NN_pos as HN.
    assert (H3 : (Rabs s * mnorm (mmul E (P n)) <= s * s * (NN * (INR n * (e * e) * K ^ n)))%R).
    { eapply Rle_trans; [apply Rmult_le_compat_l; [auto|exact H1]|]. rewrite <- Es. lra. }
    assert (H4 : (s * s * (NN * (INR n * (e * e) * K ^ n)) <= s * s * (NN * ((2 * INR n + 1) * (e * e) * (K * K ^ n))))%R).
    { apply Rmult_le_compat_l; [nra|]. apply Rmult_le_compat_l; [auto|].
      assert (0 <= INR n * (e * e))%R by nra. assert (INR n * (e * e) <= (2 * INR n + 1) * (e * e))%R by nra.
      apply Rmult_le_compat; auto; nra. }
    replace (s * s * (NN * ((INR n + 1) * (INR n + 1) * (e * e) * (K * K ^ n))))%R with
      (K * (s * s * (NN * (INR n * INR n * (e * e) * K ^ n))) + s * s * (NN * ((2 * INR n + 1) * (e * e) * (K * K ^ n))))%R by ring.
    lra.
Qed.

Lemma sq_pow4 n : (INR n * INR n <= 4 ^ n)%R.
Proof.
  assert (INR n <= 2 ^ n)%R.
  { induction n; [cbn; lra|]. rewrite S_INR. cbn [pow]. assert (1 <= 2 ^ n)%R by (apply pow_R1_Rle; lra). lra. }
  replace 4%R with (2 * 2)%R by ring. rewrite Rpow_mult_distr. pose proof (pos_INR n). nra.
Qed.
Lemma n_pow4 n : (INR n <= 4 ^ n)%R.
Proof.
  pose proof (sq_pow4 n). pose proof (pos_INR n). destruct n; [cbn; lra|]. assert (1 <= INR (S n))%R; [|nra].
  rewrite S_INR in *. pose proof (pos_INR n). lra.
Qed.

Lemma dexp_dom n i j : (i < N)%nat -> (j < N)%nat ->
  (Cmod (ifact n * ent (dpow X E n) i j)%C <= NN * e * ((4 * K) ^ n * / INR (fact n)))%R.
Proof.
  intros Hi Hj. rewrite cmod_ifact, Rpow_mult_distr. pose proof (ifact_pos n) as Hf. pose proof (mnorm_pos E) as He. fold e in He.
  assert (Cmod (ent (dpow X E n) i j) <= NN * (INR n * e * K ^ n))%R.
  { eapply Rle_trans; [apply (mnorm_ent N N); eauto with mat|]. apply dpow_norm. }
  replace (NN * e * (4 ^ n * K ^ n * / INR (fact n)))%R with (/ INR (fact n) * (NN * (4 ^ n * e * K ^ n)))%R by ring.
  apply Rmult_le_compat_l; [lra|]. eapply Rle_trans; [eauto|]. apply Rmult_le_compat_l; [apply NN_pos|].
  pose proof (K_pow n). pose proof (n_pow4 n). apply Rmult_le_compat_r; [lra|]. apply Rmult_le_compat_r; auto.
Qed.
Lemma dexp_cvg i j : (i < N)%nat -> (j < N)%nat -> cvg (fun n => ifact n * ent (dpow X E n) i j).
Proof.
  intros Hi Hj. eapply cvg_le; [intros n; apply (dexp_dom n i j Hi Hj)|]. apply exp_dom.
Qed.

Lemma exp_remainder i j : (i < N)%nat -> (j < N)%nat ->
  let d := ent (mexp Y) i j - ent (mexp X) i j - s * ent (mdexp X E) i j in
  (Rabs (Re d) <= s * s * (NN * (e * e) * exp (4 * K)) /\ Rabs (Im d) <= s * s * (NN * (e * e) * exp (4 * K)))%R.
Proof.
  intros Hi Hj d. pose proof Y_sized as HY.
  assert (Ed : d = CSeries (fun n => ifact n * ent (R' n) i j)).
  { unfold d. rewrite !mexp_ent, mdexp_ent by auto.
    assert (C1 := exp_cvg Y i j HY Hi Hj). assert (C2 := exp_cvg X i j HX Hi Hj). assert (C3 := dexp_cvg i j Hi Hj).
    transitivity (CSeries (fun n => ifact n * ent (mpow Y n) i j) + ((-(1)) * CSeries (fun n => ifact n * ent (mpow X n) i j) +
      (- RtoC s) * CSeries (fun n => ifact n * ent (dpow X E n) i j))); [ring|].
    rewrite <- !CSeries_scal, <- CSeries_plus, <- CSeries_plus by auto using cvg_scal, cvg_plus.
    apply CSeries_ext. intros n. unfold R', P.
    erewrite msub_ent, msub_ent, mscal_ent by eauto with mat. ring. }
  rewrite Ed. replace (s * s * (NN * (e * e) * exp (4 * K)))%R with (s * s * (NN * (e * e)) * exp (4 * K))%R by ring.
  rewrite <- exp_dom_sum. apply CSeries_bound; [|apply exp_dom]. intros n. rewrite cmod_ifact, Rpow_mult_distr.
  pose proof (ifact_pos n) as Hf.
  replace (s * s * (NN * (e * e)) * (4 ^ n * K ^ n * / INR (fact n)))%R with
    (/ INR (fact n) * (s * s * (NN * (4 ^ n * (e * e) * K ^ n))))%R by ring.
  apply Rmult_le_compat_l; [lra|]. eapply Rle_trans; [apply (mnorm_ent N N); auto using R_sized|].
  eapply Rle_trans; [apply R_norm|]. apply Rmult_le_compat_l; [nra|]. apply Rmult_le_compat_l; [apply NN_pos|].
  pose proof (K_pow n). pose proof (sq_pow4 n). apply Rmult_le_compat_r; [lra|]. apply Rmult_le_compat_r; [nra|auto].
Qed.
End Remainder.

(** ** Derivatives *)
Lemma quad_derive (f : R -> R) x0 d M : (forall s, (Rabs s <= 1)%R -> (Rabs (f (x0 + s) - f x0 - s * d) <= s * s * M)%R) ->
  is_derive f x0 d.
Proof.
  intros H. apply is_derive_Reals. intros eps He.
  assert (Hd : (0 < Rmin 1 (eps / (Rabs M + 1)))%R).
  { apply Rmin_pos; [lra|]. apply Rdiv_lt_0_compat; auto. pose proof (Rabs_pos M). lra. }
  exists (mkposreal _ Hd). intros h Hh Hlt. cbn in Hlt.
  assert (H1 : (Rabs h <= 1)%R) by (left; eapply Rlt_le_trans; [exact Hlt|apply Rmin_l]).
  assert (H2 : (Rabs h < eps / (Rabs M + 1))%R) by (eapply Rlt_le_trans; [exact Hlt|apply Rmin_r]).
  specialize (H h H1). pose proof (Rabs_pos_lt h Hh) as Hp.
  replace ((f (x0 + h) - f x0) / h - d)%R with ((f (x0 + h) - f x0 - h * d) / h)%R by (field; auto).
  unfold Rdiv. rewrite Rabs_mult, Rabs_inv. apply Rle_lt_trans with (Rabs h * (Rabs M + 1))%R.
  - apply Rmult_le_reg_r with (Rabs h); auto. rewrite Rmult_assoc, Rinv_l, Rmult_1_r by lra.
    eapply Rle_trans; [exact H|]. replace (h * h)%R with (Rabs h * Rabs h)%R by (rewrite <- Rabs_mult; apply Rabs_pos_eq; nra).
    pose proof (Rle_abs M). nra.
  - pose proof (Rabs_pos M). apply Rmult_lt_reg_r with (/ (Rabs M + 1))%R; [apply Rinv_0_lt_compat; lra|].
    rewrite Rmult_assoc, Rinv_r, Rmult_1_r by lra. exact H2.
Qed.

(** Derivative of a complex function of a real variable. *)
Definition derC (f : R -> C) (x : R) (d : C) : Prop :=
  is_derive (fun t => Re (f t)) x (Re d) /\ is_derive (fun t => Im (f t)) x (Im d).
Definition derM (F : R -> mat) (x : R) (D : mat) : Prop :=
  forall i j, (i < nr D)%nat -> (j < nc D)%nat -> derC (fun t => ent (F t) i j) x (ent D i j).

Theorem mexp_derive X E x0 : sized N N X -> sized N N E ->
  derM (fun x => mexp (madd X (mscal (RtoC (x - x0)) E))) x0 (mdexp X E).
Proof.
  intros HX HE i j Hi Hj. rewrite (proj1 (mdexp_sized _ _ HX)) in Hi. rewrite (proj2 (mdexp_sized _ _ HX)) in Hj.
  set (K := (1 + mnorm X + mnorm E)%R). pose proof (mnorm_pos X). pose proof (mnorm_pos E).
  assert (E0 : mexp (madd X (mscal (RtoC (x0 - x0)) E)) = mexp (madd X (mscal (RtoC 0) E))) by (do 4 f_equal; ring).
  assert (E1 : ent (mexp (madd X (mscal (RtoC 0) E))) i j = ent (mexp X) i j).
  { destruct (exp_remainder X E HX HE 0 K) with (i := i) (j := j) as [A B]; auto; try (unfold K; rewrite ?Rabs_R0; lra).
    cbn zeta in A, B. rewrite !Rmult_0_l in A, B.
    replace (ent (mexp (madd X (mscal 0 E))) i j) with
      (ent (mexp (madd X (mscal 0 E))) i j - ent (mexp X) i j - 0 * ent (mdexp X E) i j + ent (mexp X) i j) by ring.
    set (d := _ - _ - _) in *. replace d with (RtoC 0); [ring|]. symmetry. apply C_eq.
    - change (Re 0) with 0%R. pose proof (Rabs_pos (Re d)). apply Rabs_eq_0. lra.
    - change (Im 0) with 0%R. pose proof (Rabs_pos (Im d)). apply Rabs_eq_0. lra. }
  split; apply quad_derive with (M := (NN * (mnorm E * mnorm E) * exp (4 * K))%R); intros s Hs; rewrite E0, E1;
    replace (x0 + s - x0)%R with s by ring;
    (destruct (exp_remainder X E HX HE s K) with (i := i) (j := j) as [A B]; auto; [unfold K; lra|unfold K; nra|]);
    [eapply Rle_trans; [|exact A]|eapply Rle_trans; [|exact B]]; right; f_equal; rewrite ?Re_minus, ?Im_minus, ?Re_mult, ?Im_mult; cbn [Re Im RtoC fst snd]; ring.
Qed.
End Exp.
#[export] Hint Resolve mexp_sized mdexp_sized mexp_proper mdexp_proper dpow_sized dpow_proper : mat.
