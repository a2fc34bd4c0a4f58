(** The exponential of a sum of commuting matrices. *)
From Coq Require Import Reals Lra Lia Arith.
From Coquelicot Require Import Coquelicot.
From Verif.Lib Require Import Csum Mat MExp MCalc.
Local Open Scope C_scope.

Section Comm.
Context (N : nat).
Implicit Types x y : mat.

Lemma pow_commutes x y k : sized N N x -> sized N N y -> proper y -> mmul x y = mmul y x -> mmul (mpow x k) y = mmul y (mpow x k).
Proof.
  intros Sx Sy Py E. pose proof (proj1 Sx) as Hn. induction k; cbn [mpow].
  - rewrite Hn, (mmul_1_l N N), (mmul_1_r N N); auto.
  - rewrite <- mmul_assoc, IHk, mmul_assoc, E, mmul_assoc. reflexivity.
Qed.
Lemma exp_commutes x y : sized N N x -> sized N N y -> proper y -> mmul x y = mmul y x -> mmul (mexp x) y = mmul y (mexp x).
Proof.
  intros Sx Sy Py E. apply (mat_ext N N); eauto with mat. intros i j Hi Hj.
  rewrite (mexp_mul_r N N), (mexp_mul_l N N) by auto. apply CSeries_ext. intros n. rewrite pow_commutes; auto.
Qed.
Lemma scal_commutes c x y : sized N N x -> sized N N y -> mmul x y = mmul y x -> mmul (mscal c x) y = mmul y (mscal c x).
Proof. intros Sx Sy E. rewrite (mmul_scal_l N N N), (mmul_scal_r N N N), E; auto. Qed.

Lemma mneg_inv x : sized N N x -> proper x -> mmul (mexp (mscal (-(1)) x)) (mexp x) = mid N.
Proof.
  intros Sx Px. assert (Z : madd (mmul (mscal (-(1)) x) (mid N)) (mmul (mid N) x) = mzero N N).
  { rewrite (mmul_1_r N N), (mmul_1_l N N) by eauto with mat. apply (mat_ext N N); eauto with mat.
    intros i j Hi Hj. erewrite madd_ent, mscal_ent by eauto with mat. unfold mzero. rewrite ent_tab by auto. ring. }
  apply (mexp_conj N) in Z; auto with mat. rewrite (mmul_1_r N N) in Z by eauto with mat. exact Z.
Qed.

Theorem mexp_add x y : sized N N x -> proper x -> sized N N y -> proper y -> mmul x y = mmul y x ->
  mexp (madd x y) = mmul (mexp x) (mexp y).
Proof.
  intros Sx Px Sy Py E. set (s := madd x y). set (w := mscal (-(1)) s).
  assert (Ss : sized N N s) by (unfold s; auto with mat). assert (Ps : proper s) by (unfold s; auto with mat).
  assert (Sw : sized N N w) by (unfold w; auto with mat).
  set (F := fun t => mmul (mmul (mexp (mscal (RtoC t) x)) (mexp (mscal (RtoC t) y))) (mexp (mscal (RtoC t) w))).
  assert (D : forall t, der N N F t (mzero N N)).
  { intros t. unfold F. pose proof (der_flow N x t Sx) as DA. pose proof (der_flow N y t Sy) as DB. pose proof (der_flow N w t Sw) as DC.
    pose proof (der_mul _ _ _ _ _ _ _ _ (der_mul _ _ _ _ _ _ _ _ DA DB) DC) as D. cbn beta in D.
    set (a := mexp (mscal t x)) in *. set (b := mexp (mscal t y)) in *. set (c := mexp (mscal t w)) in *.
    assert (Sa : sized N N a) by (unfold a; eauto with mat). assert (Sb : sized N N b) by (unfold b; eauto with mat).
    assert (Sc : sized N N c) by (unfold c; eauto with mat).
    assert (Cay : mmul a y = mmul y a) by (apply exp_commutes; auto with mat; apply scal_commutes; auto).
    assert (Cax : mmul a x = mmul x a) by (apply (mexp_comm' N); auto).
    assert (Cbx : mmul b x = mmul x b) by (apply exp_commutes; auto with mat; apply scal_commutes; auto).
    assert (Cby : mmul b y = mmul y b) by (apply (mexp_comm' N); auto).
    assert (Sab : sized N N (mmul a b)) by eauto with mat.
    assert (Sabc : sized N N (mmul (mmul a b) c)) by eauto with mat.
    match type of D with der _ _ _ _ ?d => replace (mzero N N) with d; [exact D|] end.
    assert (E1 : mmul (mmul x a) b = mmul x (mmul a b)) by (now rewrite mmul_assoc).
    assert (E2 : mmul a (mmul y b) = mmul y (mmul a b)) by (now rewrite !mmul_assoc, Cay).
    assert (E3 : mmul (mmul a b) (mmul w c) = mscal (-(1)) (mmul s (mmul (mmul a b) c))).
    { unfold w. rewrite (mmul_scal_l N N N) by auto. rewrite (mmul_scal_r N N N) by eauto with mat. f_equal.
      rewrite !mmul_assoc. f_equal. unfold s. rewrite (mmul_add_r N N N), (mmul_add_l N N N), (mmul_add_l N N N) by eauto with mat.
      f_equal.
      - rewrite <- mmul_assoc, Cbx, mmul_assoc, Cax. reflexivity.
      - rewrite <- mmul_assoc, Cby, mmul_assoc, Cay. reflexivity. }
    rewrite E1, E2, E3. rewrite <- (mmul_add_l N N N) by eauto with mat. fold s. rewrite <- mmul_assoc.
    set (p := mmul s (mmul (mmul a b) c)). assert (Sp : sized N N p) by (unfold p; eauto with mat).
    apply (mat_ext N N); eauto with mat. intros i j Hi Hj. erewrite madd_ent, mscal_ent by eauto with mat. unfold mzero. rewrite ent_tab by auto. ring. }
  assert (Q : F 1%R = F 0%R) by (apply (der_zero N N); auto; unfold F; auto with mat).
  unfold F in Q. rewrite !(mexp_mscal1 N), !(mexp_mscal0 N), !(mmul_1_l N N) in Q by auto with mat.
  pose proof (mneg_inv s Ss Ps) as I. fold w in I.
  rewrite <- (mmul_1_l N N (mexp s)) by eauto with mat. rewrite <- Q.
  rewrite <- !mmul_assoc, I. rewrite (mmul_1_r N N); eauto with mat.
Qed.
End Comm.
