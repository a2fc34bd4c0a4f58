(** Rules for derivatives of complex matrices, and facts about the
    exponential: adjoints, conjugation, diagonal and block matrices. *)
From Coq Require Import Reals Lra Lia Arith Factorial.
From Coquelicot Require Import Coquelicot.
From Verif.Lib Require Import Csum Mat MExp.
Local Open Scope C_scope.
Set Bullet Behavior "Strict Subproofs".

(** ** Derivatives *)
Lemma derC_const c x : derC (fun _ => c) x 0.
Proof. split; apply (is_derive_const (K := R_AbsRing) (V := R_NormedModule)). Qed.
Lemma derC_plus f g x a b : derC f x a -> derC g x b -> derC (fun t => f t + g t) x (a + b).
Proof. intros [H1 H2] [H3 H4]. split; apply (is_derive_plus (K := R_AbsRing) (V := R_NormedModule)); auto. Qed.
Lemma derC_minus f g x a b : derC f x a -> derC g x b -> derC (fun t => f t - g t) x (a - b).
Proof. intros [H1 H2] [H3 H4]. split; apply (is_derive_minus (K := R_AbsRing) (V := R_NormedModule)); auto. Qed.
Lemma rd_mult (f g : R -> R) x a b : is_derive f x a -> is_derive g x b ->
  is_derive (fun t => f t * g t)%R x (a * g x + f x * b)%R.
Proof. intros. apply (is_derive_mult f g x a b); auto. intros. apply Rmult_comm. Qed.
Lemma derC_mult f g x a b : derC f x a -> derC g x b -> derC (fun t => f t * g t) x (a * g x + f x * b).
Proof.
  intros [H1 H2] [H3 H4]. split.
  - apply is_derive_ext with (fun t => (Re (f t) * Re (g t) - Im (f t) * Im (g t))%R); [reflexivity|].
    replace (Re (a * g x + f x * b)) with
      (((Re a * Re (g x) + Re (f x) * Re b) - (Im a * Im (g x) + Im (f x) * Im b))%R) by (rewrite Re_plus, !Re_mult; ring).
    apply (is_derive_minus (K := R_AbsRing) (V := R_NormedModule)); apply rd_mult; auto.
  - apply is_derive_ext with (fun t => (Re (f t) * Im (g t) + Im (f t) * Re (g t))%R); [reflexivity|].
    replace (Im (a * g x + f x * b)) with
      (((Re a * Im (g x) + Re (f x) * Im b) + (Im a * Re (g x) + Im (f x) * Re b))%R) by (rewrite Im_plus, !Im_mult; ring).
    apply (is_derive_plus (K := R_AbsRing) (V := R_NormedModule)); apply rd_mult; auto.
Qed.
Lemma derC_ext f g x a : (forall t, f t = g t) -> derC f x a -> derC g x a.
Proof. intros H [H1 H2]. split; eapply is_derive_ext; eauto; intros; cbn; rewrite H; auto. Qed.
Lemma derC_eq f x a b : derC f x a -> a = b -> derC f x b.
Proof. intros H ->; auto. Qed.
Lemma derC_csum n (f : nat -> R -> C) x (a : nat -> C) : (forall k, (k < n)%nat -> derC (f k) x (a k)) ->
  derC (fun t => csum n (fun k => f k t)) x (csum n a).
Proof. induction n; intros H; cbn [csum]; [apply derC_const|]. apply derC_plus; auto. Qed.
Lemma derC_conj f x a : derC f x a -> derC (fun t => Cconj (f t)) x (Cconj a).
Proof. intros [H1 H2]. split; auto. apply (is_derive_opp (K := R_AbsRing) (V := R_NormedModule) (fun t => Im (f t)) x _ H2). Qed.

(** Matrices of fixed dimensions. *)
Definition der (r c : nat) (F : R -> mat) (x : R) (D : mat) : Prop :=
  (forall t, sized r c (F t)) /\ sized r c D /\ derM F x D.
Lemma der_const r c A x : sized r c A -> der r c (fun _ => A) x (mzero r c).
Proof.
  intros H. split; [auto|split; [apply tab_sized|]]. intros i j Hi Hj. unfold mzero in *. rewrite ?nr_tab, ?nc_tab in *. rewrite ent_tab by auto. apply derC_const.
Qed.
Lemma der_mul r k c F G x A B : der r k F x A -> der k c G x B ->
  der r c (fun t => mmul (F t) (G t)) x (madd (mmul A (G x)) (mmul (F x) B)).
Proof.
  intros (S1 & S2 & H1) (S3 & S4 & H2). assert (S5 : sized r c (mmul A (G x))) by eauto with mat.
  split; [intros; eauto with mat|split; [auto with mat|]]. intros i j Hi Hj.
  rewrite (proj1 (madd_sized r c _ (mmul (F x) B) S5)) in Hi. rewrite (proj2 (madd_sized r c _ (mmul (F x) B) S5)) in Hj.
  apply derC_ext with (fun t => csum k (fun l => ent (F t) i l * ent (G t) l j)).
  { intros t. erewrite mmul_ent; eauto. }
  eapply derC_eq; [apply (derC_csum k (fun l t => ent (F t) i l * ent (G t) l j))|].
  - intros l Hl. apply derC_mult; [apply H1|apply H2]; destruct S2, S4; lia.
  - cbn beta. erewrite madd_ent, !mmul_ent by eauto. rewrite <- csum_plus. reflexivity.
Qed.
Lemma mzero_mul_r r k c A : sized r k A -> mmul A (mzero k c) = mzero r c.
Proof.
  intros H. apply (mat_ext r c); eauto with mat. intros i j Hi Hj. erewrite mmul_ent by eauto with mat.
  unfold mzero. rewrite ent_tab by auto. apply csum_zero. intros l Hl. rewrite ent_tab by auto. ring.
Qed.
Lemma mzero_mul_l r k c A : sized k c A -> mmul (mzero r k) A = mzero r c.
Proof.
  intros H. apply (mat_ext r c); eauto with mat. intros i j Hi Hj. erewrite mmul_ent by eauto with mat.
  unfold mzero. rewrite ent_tab by auto. apply csum_zero. intros l Hl. rewrite ent_tab by auto. ring.
Qed.
Lemma madd_0_r r c A : sized r c A -> proper A -> madd A (mzero r c) = A.
Proof.
  intros H P. apply (mat_ext r c); eauto with mat. intros i j Hi Hj. erewrite madd_ent by eauto. unfold mzero. rewrite ent_tab by auto. ring.
Qed.
Lemma madd_0_l r c A : sized r c A -> proper A -> madd (mzero r c) A = A.
Proof.
  intros H P. apply (mat_ext r c); eauto with mat. intros i j Hi Hj. erewrite madd_ent by eauto with mat. unfold mzero. rewrite ent_tab by auto. ring.
Qed.
Lemma der_mul_l r k c A F x B : sized r k A -> der k c F x B -> der r c (fun t => mmul A (F t)) x (mmul A B).
Proof.
  intros HA HF. pose proof HF as (S1 & S2 & _). pose proof (der_mul _ _ _ _ _ _ _ _ (der_const r k A x HA) HF) as H.
  cbn beta in H. erewrite mzero_mul_l, madd_0_l in H by eauto with mat. exact H.
Qed.
Lemma der_mul_r r k c A F x B : sized k c A -> der r k F x B -> der r c (fun t => mmul (F t) A) x (mmul B A).
Proof.
  intros HA HF. pose proof HF as (S1 & S2 & _). pose proof (der_mul _ _ _ _ _ _ _ _ HF (der_const k c A x HA)) as H.
  cbn beta in H. erewrite mzero_mul_r, madd_0_r in H by eauto with mat. exact H.
Qed.
Lemma der_ext r c F G x D : (forall t, F t = G t) -> der r c F x D -> der r c G x D.
Proof.
  intros H (H1 & H2 & H3). split; [intros; rewrite <- H; auto|split; auto]. intros i j Hi Hj. eapply derC_ext; [|apply H3; auto].
  intros t. cbn. rewrite H. auto.
Qed.
Lemma der_dag r c F x D : der r c F x D -> der c r (fun t => mdag (F t)) x (mdag D).
Proof.
  intros (H1 & H2 & H3). split; [auto with mat|split; [auto with mat|]]. intros i j Hi Hj.
  assert (Hi' : (i < c)%nat) by (destruct H2; unfold mdag in Hi; rewrite nr_tab in Hi; lia).
  assert (Hj' : (j < r)%nat) by (destruct H2; unfold mdag in Hj; rewrite nc_tab in Hj; lia).
  erewrite mdag_ent by eauto. eapply derC_ext; [intros t; symmetry; eapply mdag_ent; eauto|]. cbn beta. apply derC_conj. apply H3; destruct H2; lia.
Qed.
Lemma derM_tr r F x D : der r r F x D -> derC (fun t => mtr (F t)) x (mtr D).
Proof.
  intros (H1 & H2 & H3). unfold mtr. eapply derC_ext; [intros t; rewrite (proj1 (H1 t)); reflexivity|]. rewrite (proj1 H2).
  apply (derC_csum r (fun i t => ent (F t) i i)). intros k Hk. apply H3; destruct H2; lia.
Qed.
Lemma der_mexp N X E x0 : sized N N X -> sized N N E ->
  der N N (fun x => mexp (madd X (mscal (RtoC (x - x0)) E))) x0 (mdexp X E).
Proof.
  intros. split; [intros; eauto with mat|split; [eauto with mat|]]. apply (mexp_derive N); auto.
Qed.
(** A function with derivative 0 everywhere is constant. *)
Lemma der_zero r c F a b : (forall x, der r c F x (mzero r c)) -> proper (F a) -> proper (F b) -> F a = F b.
Proof.
  intros H Pa Pb. assert (S : forall t, sized r c (F t)) by (apply (H 0%R)). apply (mat_ext r c); auto. intros i j Hi Hj.
  assert (Z : forall t, derC (fun t => ent (F t) i j) t 0).
  { intros t. destruct (H t) as (_ & S2 & D). specialize (D i j). unfold mzero in D. rewrite nr_tab, nc_tab, ent_tab in D; auto. }
  assert (G : forall f : R -> R, (forall t, is_derive f t 0%R) -> f a = f b).
  { intros f Hf. destruct (Rtotal_order a b) as [L|[->|L]]; auto.
    - apply (eq_is_derive (V := R_NormedModule) f a b); auto.
    - symmetry. apply (eq_is_derive (V := R_NormedModule) f b a); auto. }
  apply C_eq; [apply (G (fun t => Re (ent (F t) i j)))|apply (G (fun t => Im (ent (F t) i j)))]; intros t; apply Z.
Qed.

(** ** The exponential *)
Lemma ifact_0 : ifact 0 = 1.
Proof. unfold ifact. f_equal. cbn. field. Qed.
Section Exp.
Context (N : nat).
Implicit Types A B X E : mat.

Lemma mexp_zero : mexp (mzero N N) = mid N.
Proof.
  apply (mat_ext N N); eauto with mat. intros i j Hi Hj. rewrite (mexp_ent N) by eauto with mat.
  rewrite CSeries_single.
  - cbn [mpow]. unfold mzero at 1. rewrite nr_tab, ifact_0. ring.
  - intros n. cbn [mpow]. rewrite (mzero_mul_l N N N) by (apply mpow_sized; auto with mat). unfold mzero. rewrite ent_tab by auto. ring.
Qed.

Lemma pow_comm A n : sized N N A -> mmul (mpow A n) A = mmul A (mpow A n).
Proof.
  intros H. induction n; cbn [mpow].
  - pose proof H as [-> _]. apply (mat_ext N N); eauto with mat. intros i j Hi Hj.
    erewrite !mmul_ent by eauto with mat. transitivity (ent A i j).
    + etransitivity; [apply (csum_single N i); auto|]; [|cbn beta; rewrite mid_ent, Nat.eqb_refl by auto; ring].
      intros l Hl Hn. rewrite mid_ent by auto. destruct (Nat.eqb_spec i l); [lia|ring].
    + symmetry. etransitivity; [apply (csum_single N j); auto|]; [|cbn beta; rewrite mid_ent, Nat.eqb_refl by auto; ring].
      intros l Hl Hn. rewrite mid_ent by auto. destruct (Nat.eqb_spec l j); [lia|ring].
  - rewrite <- mmul_assoc, IHn. auto.
Qed.

(** Multiplying the series by a matrix, term by term. *)
Lemma mexp_mul_r c A B i j : sized N N A -> sized N c B -> (i < N)%nat -> (j < c)%nat ->
  ent (mmul (mexp A) B) i j = CSeries (fun n => ifact n * ent (mmul (mpow A n) B) i j).
Proof.
  intros HA HB Hi Hj. rewrite (mmul_ent N N c) by eauto with mat.
  transitivity (csum N (fun l => CSeries (fun n => ent B l j * (ifact n * ent (mpow A n) i l)))).
  { apply csum_ext. intros l Hl. rewrite (mexp_ent N), CSeries_scal by eauto using exp_cvg. ring. }
  rewrite <- CSeries_csum.
  - apply CSeries_ext. intros n. rewrite (mmul_ent N N c) by eauto with mat. rewrite <- csum_scal_l. apply csum_ext. intros. ring.
  - intros l Hl. apply cvg_scal. apply (exp_cvg N); auto.
Qed.
Lemma mexp_mul_l r A B i j : sized N N A -> sized r N B -> (i < r)%nat -> (j < N)%nat ->
  ent (mmul B (mexp A)) i j = CSeries (fun n => ifact n * ent (mmul B (mpow A n)) i j).
Proof.
  intros HA HB Hi Hj. rewrite (mmul_ent r N N) by eauto with mat.
  transitivity (csum N (fun l => CSeries (fun n => ent B i l * (ifact n * ent (mpow A n) l j)))).
  { apply csum_ext. intros l Hl. rewrite (mexp_ent N), CSeries_scal by eauto using exp_cvg. ring. }
  rewrite <- CSeries_csum.
  - apply CSeries_ext. intros n. rewrite (mmul_ent r N N) by eauto with mat. rewrite <- csum_scal_l. apply csum_ext. intros. ring.
  - intros l Hl. apply cvg_scal. apply (exp_cvg N); auto.
Qed.
Lemma mexp_comm A : sized N N A -> mmul (mexp A) A = mmul A (mexp A).
Proof.
  intros H. apply (mat_ext N N); eauto with mat. intros i j Hi Hj.
  rewrite (mexp_mul_r N), (mexp_mul_l N) by auto. apply CSeries_ext. intros n. rewrite pow_comm; auto.
Qed.
Lemma mexp_comm' A t : sized N N A -> mmul (mexp (mscal t A)) A = mmul A (mexp (mscal t A)).
Proof.
  intros H. apply (mat_ext N N); eauto with mat. intros i j Hi Hj.
  rewrite (mexp_mul_r N), (mexp_mul_l N) by eauto with mat. apply CSeries_ext. intros n. f_equal. f_equal.
  clear Hi Hj. induction n; cbn [mpow].
  - apply (pow_comm A 0) in H as E. cbn [mpow] in E. exact E.
  - rewrite (mmul_scal_l N N N), (mmul_scal_l N N N), (mmul_scal_r N N N) by eauto with mat. f_equal. rewrite <- mmul_assoc, IHn. auto.
Qed.

(** Along its own direction the derivative is multiplication. *)
Lemma mdexp_self A t : sized N N A -> mdexp (mscal (RtoC t) A) A = mmul A (mexp (mscal (RtoC t) A)).
Proof.
  intros H. set (X := mscal t A). assert (HX : sized N N X) by (unfold X; auto with mat).
  apply (mat_ext N N); eauto with mat. intros i j Hi Hj. rewrite (mdexp_ent N), (mexp_mul_l N) by auto.
  assert (D : forall n, dpow X A (S n) = mscal (INR (S n)) (mmul A (mpow X n))).
  { induction n.
    - cbn [dpow mpow]. destruct HX as [-> _]. rewrite (mzero_mul_r N N N), (madd_0_r N N) by (unfold X; eauto with mat).
      replace (INR 1) with 1%R by reflexivity. rewrite (mscal_1 N N); eauto with mat.
    - change (dpow X A (S (S n))) with (madd (mmul A (mpow X (S n))) (mmul X (dpow X A (S n)))). rewrite IHn.
      rewrite (mmul_scal_r N N N) by eauto with mat. cbn [mpow].
      replace (mmul X (mmul A (mpow X n))) with (mmul A (mmul X (mpow X n))).
      + apply (mat_ext N N); eauto with mat. intros a b Ha Hb. erewrite madd_ent, !mscal_ent by eauto with mat.
        rewrite (S_INR (S n)), RtoC_plus. ring.
      + rewrite !mmul_assoc. f_equal. unfold X. rewrite (mmul_scal_r N N N), (mmul_scal_l N N N); auto. }
  rewrite CSeries_shift by (apply (dexp_cvg N X A HX H 0 (1 + mnorm X)%R); auto; pose proof (mnorm_pos X); rewrite ?Rabs_R0; lra).
  change (dpow X A 0) with (mzero (nr X) (nr X)). unfold mzero at 1. destruct HX as [E1 E2]. rewrite E1, ent_tab by auto. rewrite Cmult_0_r, Cplus_0_l.
  apply CSeries_ext. intros n. rewrite D. erewrite mscal_ent by eauto with mat. rewrite (ifact_mul n). ring.
Qed.

Lemma mscal_diff A t x : sized N N A -> madd (mscal (RtoC x) A) (mscal (RtoC (t - x)) A) = mscal (RtoC t) A.
Proof.
  intros H. apply (mat_ext N N); eauto with mat. intros i j Hi Hj. erewrite madd_ent, !mscal_ent by eauto with mat.
  rewrite RtoC_minus. ring.
Qed.
Lemma der_flow A x : sized N N A -> der N N (fun t => mexp (mscal (RtoC t) A)) x (mmul A (mexp (mscal (RtoC x) A))).
Proof.
  intros H. rewrite <- mdexp_self by auto.
  eapply der_ext; [|apply der_mexp; auto with mat]. intros t. cbn beta. rewrite mscal_diff; auto.
Qed.

Lemma mpow_tab A n : sized N N A -> mpow (mscal 1 A) n = mpow A n.
Proof.
  intros H. assert (E : nr (mscal 1 A) = nr A) by reflexivity. induction n; cbn [mpow]; [rewrite E; auto|]. rewrite IHn.
  apply (mat_ext N N); eauto with mat. intros i j Hi Hj. erewrite !mmul_ent by eauto with mat. apply csum_ext.
  intros. erewrite mscal_ent by eauto. ring.
Qed.
Lemma mexp_mscal1 A : sized N N A -> mexp (mscal 1 A) = mexp A.
Proof.
  intros H. apply (mat_ext N N); eauto with mat. intros i j Hi Hj. rewrite !(mexp_ent N) by eauto with mat.
  apply CSeries_ext. intros n. rewrite mpow_tab; auto.
Qed.
Lemma mexp_mscal0 A : sized N N A -> mexp (mscal 0 A) = mid N.
Proof.
  intros H. replace (mscal 0 A) with (mzero N N); [apply mexp_zero|]. apply (mat_ext N N); eauto with mat. intros i j Hi Hj.
  erewrite mscal_ent by eauto. unfold mzero. rewrite ent_tab by auto. ring.
Qed.

(** exp A . M . exp B = M when A M + M B = 0. *)
Theorem mexp_conj A B M : sized N N A -> sized N N B -> sized N N M -> proper M ->
  madd (mmul A M) (mmul M B) = mzero N N -> mmul (mmul (mexp A) M) (mexp B) = M.
Proof.
  intros HA HB HM PM Z.
  set (F := fun t => mmul (mmul (mexp (mscal (RtoC t) A)) M) (mexp (mscal (RtoC t) B))).
  assert (D : forall x, der N N F x (mzero N N)).
  { intros x. unfold F. pose proof (der_flow A x HA) as DA. pose proof (der_flow B x HB) as DB.
    pose proof (der_mul _ _ _ _ _ _ _ _ (der_mul_r _ _ _ M _ _ _ HM DA) DB) as D. cbn beta in D.
    set (a := mexp (mscal x A)) in *. set (b := mexp (mscal x B)) in *.
    assert (Sa : sized N N a) by (unfold a; eauto with mat). assert (Sb : sized N N b) by (unfold b; eauto with mat).
    replace (mzero N N) with (madd (mmul (mmul (mmul A a) M) b) (mmul (mmul a M) (mmul B b))); auto.
    assert (Ca : mmul A a = mmul a A) by (symmetry; apply mexp_comm'; auto). rewrite Ca.
    transitivity (mmul (mmul a (madd (mmul A M) (mmul M B))) b).
    - rewrite (mmul_add_r N N N), (mmul_add_l N N N) by eauto with mat. f_equal; rewrite !mmul_assoc; auto.
    - rewrite Z. rewrite (mzero_mul_r N N N), (mzero_mul_l N N N); auto. }
  assert (E : F 1%R = F 0%R) by (apply (der_zero N N); auto; unfold F; auto with mat).
  unfold F in E. rewrite !mexp_mscal1, !mexp_mscal0, (mmul_1_l N N), (mmul_1_r N N) in E by auto with mat. exact E.
Qed.
End Exp.
