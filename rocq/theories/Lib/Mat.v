(** Complex matrices: dimensions and entries, entries outside the dimensions
    being 0. *)
From Coq Require Import Reals Lra Lia Arith Bool FunctionalExtensionality.
From Coquelicot Require Import Coquelicot.
From Verif.Lib Require Import Csum.
Local Open Scope C_scope.

Record mat := mkMat { nr : nat; nc : nat; ent : nat -> nat -> C }.
Definition tab (r c : nat) (f : nat -> nat -> C) : mat :=
  mkMat r c (fun i j => if (i <? r)%nat && (j <? c)%nat then f i j else 0).
(** Entries outside the dimensions are 0. *)
Definition proper (A : mat) : Prop := tab (nr A) (nc A) (ent A) = A.
(** An [r] by [c] matrix. *)
Definition sized (r c : nat) (A : mat) : Prop := nr A = r /\ nc A = c.

Lemma tab_ext r c f g : (forall i j, (i < r)%nat -> (j < c)%nat -> f i j = g i j) -> tab r c f = tab r c g.
Proof.
  intros H. unfold tab. f_equal. extensionality i. extensionality j.
  destruct (i <? r)%nat eqn:E1; auto. destruct (j <? c)%nat eqn:E2; auto. cbn. apply H; [apply Nat.ltb_lt|apply Nat.ltb_lt]; auto.
Qed.
Lemma ent_tab r c f i j : (i < r)%nat -> (j < c)%nat -> ent (tab r c f) i j = f i j.
Proof. intros H1 H2. apply Nat.ltb_lt in H1, H2. unfold tab. cbn [ent]. rewrite H1, H2. auto. Qed.
Lemma ent_out r c f i j : (r <= i \/ c <= j)%nat -> ent (tab r c f) i j = 0.
Proof.
  intros H. unfold tab. cbn [ent]. destruct (i <? r)%nat eqn:E1, (j <? c)%nat eqn:E2; auto.
  apply Nat.ltb_lt in E1, E2. lia.
Qed.
Lemma nr_tab r c f : nr (tab r c f) = r. Proof. reflexivity. Qed.
Lemma nc_tab r c f : nc (tab r c f) = c. Proof. reflexivity. Qed.
Lemma tab_tab r c f : tab r c (ent (tab r c f)) = tab r c f.
Proof. apply tab_ext. intros. apply ent_tab; auto. Qed.
Lemma tab_proper r c f : proper (tab r c f).
Proof. unfold proper. apply tab_tab. Qed.
Lemma tab_sized r c f : sized r c (tab r c f).
Proof. split; auto. Qed.
Lemma mat_ext r c A B : sized r c A -> sized r c B -> proper A -> proper B ->
  (forall i j, (i < r)%nat -> (j < c)%nat -> ent A i j = ent B i j) -> A = B.
Proof.
  intros [<- <-] [E1 E2] PA PB H. rewrite <- PA, <- PB, E1, E2. apply tab_ext; auto.
Qed.

Definition mmul (A B : mat) : mat :=
  tab (nr A) (nc B) (fun i j => csum (Nat.min (nc A) (nr B)) (fun k => ent A i k * ent B k j)).
Definition madd (A B : mat) : mat := tab (nr A) (nc A) (fun i j => ent A i j + ent B i j).
Definition msub (A B : mat) : mat := tab (nr A) (nc A) (fun i j => ent A i j - ent B i j).
Definition mscal (c : C) (A : mat) : mat := tab (nr A) (nc A) (fun i j => c * ent A i j).
Definition mdag (A : mat) : mat := tab (nc A) (nr A) (fun i j => Cconj (ent A j i)).
Definition mtrans (A : mat) : mat := tab (nc A) (nr A) (fun i j => ent A j i).
Definition mtr (A : mat) : C := csum (nr A) (fun i => ent A i i).
Definition mid (n : nat) : mat := tab n n (fun i j => if (i =? j)%nat then 1 else 0).
Definition mzero (r c : nat) : mat := tab r c (fun _ _ => 0).
Definition mdiag (n : nat) (f : nat -> C) : mat := tab n n (fun i j => if (i =? j)%nat then f i else 0).
Definition mhad (A : mat) (f : nat -> nat -> C) : mat := tab (nr A) (nc A) (fun i j => ent A i j * f i j).
(** [[A, E], [0, A]] and the blocks of a matrix of [n] by [n] blocks. *)
Definition maug (n : nat) (A E : mat) : mat :=
  tab (n + n) (n + n) (fun i j =>
    if (i <? n)%nat then (if (j <? n)%nat then ent A i j else ent E i (j - n)%nat)
    else (if (j <? n)%nat then 0 else ent A (i - n)%nat (j - n)%nat)).
Definition mblk00 (n : nat) (A : mat) : mat := tab n n (fun i j => ent A i j).
Definition mblk01 (n : nat) (A : mat) : mat := tab n n (fun i j => ent A i (n + j)%nat).

Definition hermitian (A : mat) : Prop := mdag A = A.
Definition unitary (n : nat) (U : mat) : Prop := sized n n U /\ proper U /\ mmul (mdag U) U = mid n /\ mmul U (mdag U) = mid n.

Ltac msimp := unfold mmul, madd, msub, mscal, mdag, mtrans, mid, mzero, mdiag, mhad; cbn [nr nc].

Lemma mmul_sized r k c A B : sized r k A -> sized k c B -> sized r c (mmul A B).
Proof. intros [] []. split; auto. Qed.
Lemma mmul_ent r k c A B i j : sized r k A -> sized k c B -> (i < r)%nat -> (j < c)%nat ->
  ent (mmul A B) i j = csum k (fun l => ent A i l * ent B l j).
Proof. intros [<- <-] [E <-] Hi Hj. unfold mmul. rewrite ent_tab; auto. rewrite E, Nat.min_id. auto. Qed.
Lemma madd_sized r c A B : sized r c A -> sized r c (madd A B). Proof. auto. Qed.
Lemma msub_sized r c A B : sized r c A -> sized r c (msub A B). Proof. auto. Qed.
Lemma mscal_sized r c x A : sized r c A -> sized r c (mscal x A). Proof. auto. Qed.
Lemma mdag_sized r c A : sized r c A -> sized c r (mdag A). Proof. intros [<- <-]. split; auto. Qed.
Lemma mtrans_sized r c A : sized r c A -> sized c r (mtrans A). Proof. intros [<- <-]. split; auto. Qed.
Lemma madd_ent r c A B i j : sized r c A -> (i < r)%nat -> (j < c)%nat -> ent (madd A B) i j = ent A i j + ent B i j.
Proof. intros [<- <-] Hi Hj. unfold madd. rewrite ent_tab; auto. Qed.
Lemma msub_ent r c A B i j : sized r c A -> (i < r)%nat -> (j < c)%nat -> ent (msub A B) i j = ent A i j - ent B i j.
Proof. intros [<- <-] Hi Hj. unfold msub. rewrite ent_tab; auto. Qed.
Lemma mscal_ent r c x A i j : sized r c A -> (i < r)%nat -> (j < c)%nat -> ent (mscal x A) i j = x * ent A i j.
Proof. intros [<- <-] Hi Hj. unfold mscal. rewrite ent_tab; auto. Qed.
Lemma mdag_ent r c A i j : sized r c A -> (i < c)%nat -> (j < r)%nat -> ent (mdag A) i j = Cconj (ent A j i).
Proof. intros [<- <-] Hi Hj. unfold mdag. rewrite ent_tab; auto. Qed.
Lemma mtrans_ent r c A i j : sized r c A -> (i < c)%nat -> (j < r)%nat -> ent (mtrans A) i j = ent A j i.
Proof. intros [<- <-] Hi Hj. unfold mtrans. rewrite ent_tab; auto. Qed.
Lemma mhad_ent r c A f i j : sized r c A -> (i < r)%nat -> (j < c)%nat -> ent (mhad A f) i j = ent A i j * f i j.
Proof. intros [<- <-] Hi Hj. unfold mhad. rewrite ent_tab; auto. Qed.
Lemma mid_ent n i j : (i < n)%nat -> (j < n)%nat -> ent (mid n) i j = if (i =? j)%nat then 1 else 0.
Proof. intros. apply ent_tab; auto. Qed.
Lemma mdiag_ent n f i j : (i < n)%nat -> (j < n)%nat -> ent (mdiag n f) i j = if (i =? j)%nat then f i else 0.
Proof. intros. apply ent_tab; auto. Qed.
Lemma mid_sized n : sized n n (mid n). Proof. split; auto. Qed.
Lemma mdiag_sized n f : sized n n (mdiag n f). Proof. split; auto. Qed.
#[export] Hint Resolve tab_proper tab_sized mid_sized mdiag_sized madd_sized msub_sized mscal_sized mdag_sized mtrans_sized : mat.
Lemma mzero_sized r c : sized r c (mzero r c). Proof. split; auto. Qed.
Lemma mhad_sized r c A f : sized r c A -> sized r c (mhad A f). Proof. auto. Qed.
#[export] Hint Resolve mmul_sized mzero_sized mhad_sized : mat.
#[export] Hint Unfold mmul madd msub mscal mdag mtrans mid mzero mdiag mhad : matu.

Lemma proper_mul A B : proper (mmul A B). Proof. apply tab_proper. Qed.
Lemma proper_add A B : proper (madd A B). Proof. apply tab_proper. Qed.
Lemma proper_sub A B : proper (msub A B). Proof. apply tab_proper. Qed.
Lemma proper_scal c A : proper (mscal c A). Proof. apply tab_proper. Qed.
Lemma proper_dag A : proper (mdag A). Proof. apply tab_proper. Qed.
Lemma proper_trans A : proper (mtrans A). Proof. apply tab_proper. Qed.
Lemma proper_id n : proper (mid n). Proof. apply tab_proper. Qed.
Lemma proper_zero r c : proper (mzero r c). Proof. apply tab_proper. Qed.
Lemma proper_diag n f : proper (mdiag n f). Proof. apply tab_proper. Qed.
Lemma proper_had A f : proper (mhad A f). Proof. apply tab_proper. Qed.
#[export] Hint Resolve proper_mul proper_add proper_sub proper_scal proper_dag proper_trans proper_id proper_zero proper_diag proper_had : mat.

Lemma mmul_assoc A B D : mmul A (mmul B D) = mmul (mmul A B) D.
Proof.
  unfold mmul. rewrite !nr_tab, !nc_tab. apply tab_ext. intros i j Hi Hj.
  set (a := Nat.min (nc A) (nr B)). set (b := Nat.min (nc B) (nr D)).
  transitivity (csum a (fun k => csum b (fun l => ent A i k * ent B k l * ent D l j))).
  - apply csum_ext. intros k Hk. rewrite ent_tab by (unfold a in Hk; auto; lia).
    rewrite <- csum_scal_l. apply csum_ext. intros. ring.
  - rewrite csum_swap. apply csum_ext. intros l Hl. rewrite ent_tab by (unfold b in Hl; auto; lia).
    rewrite <- csum_scal_r. reflexivity.
Qed.

Section Laws.
Context (r k c : nat).
Implicit Types (A B D : mat).

Lemma mmul_1_l A : sized r c A -> proper A -> mmul (mid r) A = A.
Proof.
  intros S P. apply (mat_ext r c); eauto with mat. intros i j Hi Hj. erewrite mmul_ent by eauto with mat.
  etransitivity; [apply (csum_single r i); auto|].
  - intros l Hl N. rewrite mid_ent by auto. destruct (Nat.eqb_spec i l); [lia|]. ring.
  - cbn beta. rewrite mid_ent, Nat.eqb_refl by auto. ring.
Qed.
Lemma mmul_1_r A : sized r c A -> proper A -> mmul A (mid c) = A.
Proof.
  intros S P. apply (mat_ext r c); eauto with mat. intros i j Hi Hj. erewrite mmul_ent by eauto with mat.
  etransitivity; [apply (csum_single c j); auto|].
  - intros l Hl N. rewrite mid_ent by auto. destruct (Nat.eqb_spec l j); [lia|]. ring.
  - cbn beta. rewrite mid_ent, Nat.eqb_refl by auto. ring.
Qed.
Lemma mmul_add_l A B D : sized r k A -> sized r k B -> sized k c D -> mmul (madd A B) D = madd (mmul A D) (mmul B D).
Proof.
  intros. apply (mat_ext r c); eauto with mat. intros i j Hi Hj.
  erewrite madd_ent, !mmul_ent by eauto with mat. rewrite <- csum_plus. apply csum_ext. intros. erewrite madd_ent by eauto. ring.
Qed.
Lemma mmul_add_r A B D : sized r k A -> sized k c B -> sized k c D -> mmul A (madd B D) = madd (mmul A B) (mmul A D).
Proof.
  intros. apply (mat_ext r c); eauto with mat. intros i j Hi Hj.
  erewrite madd_ent, !mmul_ent by eauto with mat. rewrite <- csum_plus. apply csum_ext. intros. erewrite madd_ent by eauto. ring.
Qed.
Lemma mmul_sub_l A B D : sized r k A -> sized r k B -> sized k c D -> mmul (msub A B) D = msub (mmul A D) (mmul B D).
Proof.
  intros. apply (mat_ext r c); eauto with mat. intros i j Hi Hj.
  erewrite msub_ent, !mmul_ent by eauto with mat. rewrite <- csum_minus. apply csum_ext. intros. erewrite msub_ent by eauto. ring.
Qed.
Lemma mmul_sub_r A B D : sized r k A -> sized k c B -> sized k c D -> mmul A (msub B D) = msub (mmul A B) (mmul A D).
Proof.
  intros. apply (mat_ext r c); eauto with mat. intros i j Hi Hj.
  erewrite msub_ent, !mmul_ent by eauto with mat. rewrite <- csum_minus. apply csum_ext. intros. erewrite msub_ent by eauto. ring.
Qed.
Lemma mmul_scal_l x A B : sized r k A -> sized k c B -> mmul (mscal x A) B = mscal x (mmul A B).
Proof.
  intros. apply (mat_ext r c); eauto with mat. intros i j Hi Hj.
  erewrite mscal_ent, !mmul_ent by eauto with mat. rewrite <- csum_scal_l. apply csum_ext. intros. erewrite mscal_ent by eauto. ring.
Qed.
Lemma mmul_scal_r x A B : sized r k A -> sized k c B -> mmul A (mscal x B) = mscal x (mmul A B).
Proof.
  intros. apply (mat_ext r c); eauto with mat. intros i j Hi Hj.
  erewrite mscal_ent, !mmul_ent by eauto with mat. rewrite <- csum_scal_l. apply csum_ext. intros. erewrite mscal_ent by eauto. ring.
Qed.
Lemma mdag_mul A B : sized r k A -> sized k c B -> mdag (mmul A B) = mmul (mdag B) (mdag A).
Proof.
  intros. apply (mat_ext c r); eauto with mat. intros i j Hi Hj.
  erewrite mdag_ent, !mmul_ent by eauto with mat. rewrite csum_conj. apply csum_ext. intros.
  erewrite !mdag_ent by eauto. rewrite Cconj_mult. ring.
Qed.
Lemma mtrans_mul A B : sized r k A -> sized k c B -> mtrans (mmul A B) = mmul (mtrans B) (mtrans A).
Proof.
  intros. apply (mat_ext c r); eauto with mat. intros i j Hi Hj.
  erewrite mtrans_ent, !mmul_ent by eauto with mat. apply csum_ext. intros.
  erewrite !mtrans_ent by eauto. ring.
Qed.
Lemma mdag_dag A : sized r c A -> proper A -> mdag (mdag A) = A.
Proof.
  intros. apply (mat_ext r c); eauto with mat. intros i j Hi Hj. erewrite !mdag_ent by eauto with mat. apply Cconj_conj.
Qed.
Lemma mdag_scal x A : sized r c A -> mdag (mscal x A) = mscal (Cconj x) (mdag A).
Proof.
  intros. apply (mat_ext c r); eauto with mat. intros i j Hi Hj. erewrite mdag_ent, !mscal_ent, mdag_ent by eauto with mat.
  apply Cconj_mult.
Qed.
Lemma mscal_scal x y A : sized r c A -> mscal x (mscal y A) = mscal (x * y) A.
Proof. intros. apply (mat_ext r c); eauto with mat. intros i j Hi Hj. erewrite !mscal_ent by eauto with mat. ring. Qed.
Lemma mscal_1 A : sized r c A -> proper A -> mscal 1 A = A.
Proof. intros. apply (mat_ext r c); eauto with mat. intros i j Hi Hj. erewrite !mscal_ent by eauto with mat. ring. Qed.
Lemma mscal_add x A B : sized r c A -> sized r c B -> mscal x (madd A B) = madd (mscal x A) (mscal x B).
Proof. intros. apply (mat_ext r c); eauto with mat. intros i j Hi Hj. erewrite mscal_ent, !madd_ent, !mscal_ent by eauto with mat. ring. Qed.
Lemma madd_assoc A B D : sized r c A -> sized r c B -> sized r c D -> madd A (madd B D) = madd (madd A B) D.
Proof. intros. apply (mat_ext r c); eauto with mat. intros i j Hi Hj. erewrite !madd_ent by eauto with mat. ring. Qed.
Lemma madd_comm A B : sized r c A -> sized r c B -> madd A B = madd B A.
Proof. intros. apply (mat_ext r c); eauto with mat. intros i j Hi Hj. erewrite !madd_ent by eauto with mat. ring. Qed.
Lemma mdag_add A B : sized r c A -> sized r c B -> mdag (madd A B) = madd (mdag A) (mdag B).
Proof. intros. apply (mat_ext c r); eauto with mat. intros i j Hi Hj. erewrite madd_ent, !mdag_ent, madd_ent by eauto with mat. apply Cconj_plus. Qed.
Lemma mtr_mul A B : sized r k A -> sized k r B -> mtr (mmul A B) = mtr (mmul B A).
Proof.
  intros HA HB. unfold mtr. rewrite (proj1 (mmul_sized _ _ _ _ _ HA HB)), (proj1 (mmul_sized _ _ _ _ _ HB HA)).
  transitivity (csum r (fun i => csum k (fun l => ent A i l * ent B l i))).
  { apply csum_ext. intros. erewrite mmul_ent by eauto. auto. }
  rewrite csum_swap. apply csum_ext. intros. erewrite mmul_ent by eauto. apply csum_ext. intros. ring.
Qed.
End Laws.

Lemma mdag_id n : mdag (mid n) = mid n.
Proof.
  apply (mat_ext n n); eauto with mat. intros i j Hi Hj. erewrite mdag_ent, !mid_ent by eauto with mat.
  rewrite Nat.eqb_sym. destruct (i =? j)%nat; apply C_eq; cbn; ring.
Qed.
Lemma mtrans_id n : mtrans (mid n) = mid n.
Proof.
  apply (mat_ext n n); eauto with mat. intros i j Hi Hj. erewrite mtrans_ent, !mid_ent by eauto with mat.
  rewrite Nat.eqb_sym. auto.
Qed.
Lemma mtr_id n : mtr (mid n) = INR n.
Proof.
  unfold mtr. cbn [nr mid tab]. transitivity (csum n (fun _ => 1)).
  - apply csum_ext. intros. rewrite mid_ent, Nat.eqb_refl; auto.
  - clear. induction n; cbn [csum]; [auto|]. rewrite IHn, S_INR, RtoC_plus. auto.
Qed.

(** The sum of the moduli of the entries. *)
Definition mnorm (A : mat) : R := rsum (nr A) (fun i => rsum (nc A) (fun j => Cmod (ent A i j))).
Lemma mnorm_pos A : (0 <= mnorm A)%R.
Proof. apply rsum_pos. intros. apply rsum_pos. intros. apply Cmod_ge_0. Qed.
Lemma mnorm_ent r c A i j : sized r c A -> (i < r)%nat -> (j < c)%nat -> (Cmod (ent A i j) <= mnorm A)%R.
Proof.
  intros [<- <-] Hi Hj. eapply Rle_trans; [|apply (rsum_one (nr A) _ i Hi); intros; apply rsum_pos; intros; apply Cmod_ge_0].
  apply (rsum_one (nc A) (fun j => Cmod (ent A i j)) j Hj). intros. apply Cmod_ge_0.
Qed.
Lemma mnorm_add r c A B : sized r c A -> sized r c B -> (mnorm (madd A B) <= mnorm A + mnorm B)%R.
Proof.
  intros SA SB. unfold mnorm. destruct SA as [E1 E2], SB as [E3 E4]. cbn [nr nc madd tab]. rewrite E1, E2, E3, E4.
  rewrite <- rsum_plus. apply rsum_le. intros i Hi. rewrite <- rsum_plus. apply rsum_le. intros j Hj.
  erewrite madd_ent; [apply Cmod_triangle|split; eauto|auto|auto].
Qed.
Lemma mnorm_scal r c x A : sized r c A -> mnorm (mscal x A) = (Cmod x * mnorm A)%R.
Proof.
  intros [E1 E2]. unfold mnorm. cbn [nr nc mscal tab]. rewrite E1, E2. rewrite <- rsum_scal_l. apply rsum_ext. intros i Hi.
  rewrite <- rsum_scal_l. apply rsum_ext. intros j Hj. erewrite mscal_ent; [apply Cmod_mult|split; eauto|auto|auto].
Qed.
Lemma mnorm_mul r k c A B : sized r k A -> sized k c B -> (mnorm (mmul A B) <= mnorm A * mnorm B)%R.
Proof.
  intros SA SB. unfold mnorm at 1. destruct (mmul_sized _ _ _ _ _ SA SB) as [-> ->].
  apply Rle_trans with (rsum r (fun i => rsum c (fun j => rsum k (fun l => Cmod (ent A i l) * Cmod (ent B l j)))))%R.
  { apply rsum_le. intros i Hi. apply rsum_le. intros j Hj. erewrite mmul_ent by eauto.
    eapply Rle_trans; [apply csum_mod|]. apply rsum_le. intros. rewrite Cmod_mult. lra. }
  unfold mnorm. destruct SA as [-> ->], SB as [-> ->].
  rewrite <- rsum_scal_r. apply rsum_le. intros i Hi. rewrite rsum_swap.
  apply Rle_trans with (rsum k (fun l => Cmod (ent A i l) * rsum k (fun l' => rsum c (fun j => Cmod (ent B l' j)))))%R.
  - apply rsum_le. intros l Hl. rewrite rsum_scal_l. apply Rmult_le_compat_l; [apply Cmod_ge_0|].
    apply (rsum_one k (fun l' => rsum c (fun j => Cmod (ent B l' j))) l Hl). intros. apply rsum_pos. intros. apply Cmod_ge_0.
  - rewrite rsum_scal_r. lra.
Qed.
Lemma mnorm_id n : (mnorm (mid n) <= INR n * INR n)%R.
Proof.
  unfold mnorm, mid at 1 2. rewrite nr_tab, nc_tab. apply Rle_trans with (rsum n (fun _ => INR n)).
  - apply rsum_le. intros i Hi. apply Rle_trans with (rsum n (fun _ => 1%R)).
    + apply rsum_le. intros j Hj. rewrite mid_ent by auto. destruct (i =? j)%nat; rewrite ?Cmod_1, ?Cmod_0; lra.
    + clear. induction n; cbn [rsum]; [cbn; lra|]. rewrite S_INR. lra.
  - clear. assert (H : forall m, rsum m (fun _ => INR n) = (INR m * INR n)%R).
    { induction m; cbn [rsum]; [cbn; ring|]. rewrite IHm, S_INR. ring. }
    rewrite H. lra.
Qed.

Fixpoint mpow (A : mat) (n : nat) : mat :=
  match n with O => mid (nr A) | S k => mmul A (mpow A k) end.
Lemma mpow_sized n A k : sized n n A -> sized n n (mpow A k).
Proof. intros H. induction k; cbn; [destruct H as [-> _]|]; eauto with mat. Qed.
Lemma mpow_proper A k : proper (mpow A k).
Proof. destruct k; cbn; auto with mat. Qed.
#[export] Hint Resolve mpow_sized mpow_proper : mat.
Lemma mnorm_pow n A k : sized n n A -> (mnorm (mpow A k) <= INR n * INR n * mnorm A ^ k)%R.
Proof.
  intros H. induction k; cbn [mpow pow].
  - destruct H as [-> _]. pose proof (mnorm_id n). lra.
  - eapply Rle_trans; [eapply mnorm_mul; eauto with mat|]. pose proof (mnorm_pos A). nra.
Qed.
