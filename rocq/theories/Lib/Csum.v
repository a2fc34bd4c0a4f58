(** Finite sums of complex numbers. *)
From Coq Require Import Reals Lra Lia Arith.
From Coquelicot Require Import Coquelicot.
Local Open Scope C_scope.

Fixpoint csum (n : nat) (f : nat -> C) : C :=
  match n with O => 0 | S k => csum k f + f k end.
Fixpoint rsum (n : nat) (f : nat -> R) : R :=
  match n with O => 0%R | S k => (rsum k f + f k)%R end.

Lemma csum_ext n f g : (forall k, (k < n)%nat -> f k = g k) -> csum n f = csum n g.
Proof. induction n; intros H; cbn; auto. rewrite IHn, H; auto. Qed.
Lemma csum_zero n (f : nat -> C) : (forall k, (k < n)%nat -> f k = 0) -> csum n f = 0.
Proof. induction n; intros H; cbn; auto. rewrite IHn, H; auto. ring. Qed.
Lemma csum_plus n f g : csum n (fun k => f k + g k) = csum n f + csum n g.
Proof. induction n; cbn; [ring|]. rewrite IHn. ring. Qed.
Lemma csum_minus n f g : csum n (fun k => f k - g k) = csum n f - csum n g.
Proof. induction n; cbn; [ring|]. rewrite IHn. ring. Qed.
Lemma csum_scal_l n c f : csum n (fun k => c * f k) = c * csum n f.
Proof. induction n; cbn; [ring|]. rewrite IHn. ring. Qed.
Lemma csum_scal_r n c f : csum n (fun k => f k * c) = csum n f * c.
Proof. induction n; cbn; [ring|]. rewrite IHn. ring. Qed.
Lemma csum_swap n m f : csum n (fun i => csum m (fun j => f i j)) = csum m (fun j => csum n (fun i => f i j)).
Proof.
  induction n; cbn.
  - symmetry. apply csum_zero; auto.
  - rewrite IHn, <- csum_plus. auto.
Qed.
Lemma csum_single n k (f : nat -> C) : (k < n)%nat -> (forall i, (i < n)%nat -> i <> k -> f i = 0) -> csum n f = f k.
Proof.
  induction n; intros Hk H; [lia|]. cbn. destruct (Nat.eq_dec k n) as [->|].
  - rewrite csum_zero; [ring|]. intros i Hi. apply H; lia.
  - rewrite IHn; [|lia|intros; apply H; lia]. rewrite (H n) by lia. ring.
Qed.
Lemma csum_app n m f : csum (n + m) f = csum n f + csum m (fun i => f (n + i)%nat).
Proof.
  induction m; cbn.
  - rewrite Nat.add_0_r. ring.
  - rewrite Nat.add_succ_r. cbn. rewrite IHm. ring.
Qed.
Lemma csum_cut n m (f : nat -> C) : (n <= m)%nat -> (forall k, (n <= k < m)%nat -> f k = 0) -> csum m f = csum n f.
Proof.
  intros L H. replace m with (n + (m - n))%nat by lia. rewrite csum_app.
  rewrite (csum_zero (m - n)); [ring|]. intros k Hk. apply H. lia.
Qed.
Lemma csum_conj n f : Cconj (csum n f) = csum n (fun k => Cconj (f k)).
Proof.
  induction n; cbn.
  - unfold Cconj; cbn. apply injective_projections; cbn; auto. ring.
  - rewrite <- IHn. unfold Cconj, Cplus; cbn. f_equal. ring.
Qed.
Lemma csum_Re n f : Re (csum n f) = rsum n (fun k => Re (f k)).
Proof. induction n; cbn; auto. unfold Re in *. rewrite IHn. auto. Qed.
Lemma csum_Im n f : Im (csum n f) = rsum n (fun k => Im (f k)).
Proof. induction n; cbn; auto. unfold Im in *. rewrite IHn. auto. Qed.

Lemma rsum_ext n f g : (forall k, (k < n)%nat -> f k = g k) -> rsum n f = rsum n g.
Proof. induction n; intros H; cbn; auto. rewrite IHn, H; auto. Qed.
Lemma rsum_le n f g : (forall k, (k < n)%nat -> (f k <= g k)%R) -> (rsum n f <= rsum n g)%R.
Proof. induction n; intros H; cbn; [lra|]. apply Rplus_le_compat; auto. Qed.
Lemma rsum_zero n f : (forall k, (k < n)%nat -> f k = 0%R) -> rsum n f = 0%R.
Proof. induction n; intros H; cbn; auto. rewrite IHn, H; auto. ring. Qed.
Lemma rsum_pos n f : (forall k, (k < n)%nat -> (0 <= f k)%R) -> (0 <= rsum n f)%R.
Proof. induction n; intros H; cbn; [lra|]. apply Rplus_le_le_0_compat; auto. Qed.
Lemma rsum_plus n f g : rsum n (fun k => f k + g k)%R = (rsum n f + rsum n g)%R.
Proof. induction n; cbn; [ring|]. rewrite IHn. ring. Qed.
Lemma rsum_scal_l n c f : rsum n (fun k => c * f k)%R = (c * rsum n f)%R.
Proof. induction n; cbn; [ring|]. rewrite IHn. ring. Qed.
Lemma rsum_scal_r n c f : rsum n (fun k => f k * c)%R = (rsum n f * c)%R.
Proof. induction n; cbn; [ring|]. rewrite IHn. ring. Qed.
Lemma rsum_swap n m f : rsum n (fun i => rsum m (fun j => f i j)) = rsum m (fun j => rsum n (fun i => f i j)).
Proof.
  induction n; cbn.
  - symmetry. apply rsum_zero; auto.
  - rewrite IHn, <- rsum_plus. auto.
Qed.
Lemma rsum_one n f k : (k < n)%nat -> (forall i, (i < n)%nat -> (0 <= f i)%R) -> (f k <= rsum n f)%R.
Proof.
  induction n; intros Hk H; [lia|]. cbn. destruct (Nat.eq_dec k n) as [->|].
  - assert (0 <= rsum n f)%R by (apply rsum_pos; auto). lra.
  - assert (f k <= rsum n f)%R by (apply IHn; auto; lia). specialize (H n). assert (0 <= f n)%R by (apply H; lia). lra.
Qed.
Lemma rsum_null n f : (forall k, (k < n)%nat -> (0 <= f k)%R) -> rsum n f = 0%R -> forall k, (k < n)%nat -> f k = 0%R.
Proof.
  intros H E k Hk. pose proof (rsum_one n f k Hk H). pose proof (H k Hk). lra.
Qed.
Lemma csum_mod n f : (Cmod (csum n f) <= rsum n (fun k => Cmod (f k)))%R.
Proof.
  induction n; cbn.
  - rewrite Cmod_0. lra.
  - eapply Rle_trans; [apply Cmod_triangle|]. lra.
Qed.

(** [Re] and [Im] of the operations. *)
Lemma Re_plus a b : Re (a + b) = (Re a + Re b)%R. Proof. reflexivity. Qed.
Lemma Im_plus a b : Im (a + b) = (Im a + Im b)%R. Proof. reflexivity. Qed.
Lemma Re_minus a b : Re (a - b) = (Re a - Re b)%R. Proof. reflexivity. Qed.
Lemma Im_minus a b : Im (a - b) = (Im a - Im b)%R. Proof. reflexivity. Qed.
Lemma Re_mult a b : Re (a * b) = (Re a * Re b - Im a * Im b)%R. Proof. reflexivity. Qed.
Lemma Im_mult a b : Im (a * b) = (Re a * Im b + Im a * Re b)%R. Proof. reflexivity. Qed.
Lemma C_eq (a b : C) : Re a = Re b -> Im a = Im b -> a = b.
Proof. intros. apply injective_projections; auto. Qed.
Ltac c_eq := apply C_eq; unfold Re, Im, Cconj, Cminus, Copp, Cplus, Cmult, RtoC; cbn [fst snd]; ring.
Lemma Cconj_plus a b : Cconj (a + b) = Cconj a + Cconj b.
Proof. c_eq. Qed.
Lemma Cconj_minus a b : Cconj (a - b) = Cconj a - Cconj b.
Proof. c_eq. Qed.
Lemma Cconj_mult a b : Cconj (a * b) = Cconj a * Cconj b.
Proof. c_eq. Qed.
Lemma Cconj_conj a : Cconj (Cconj a) = a.
Proof. c_eq. Qed.
Lemma Cconj_R (x : R) : Cconj x = x.
Proof. c_eq. Qed.
Lemma Cmod_sqr a : (Cmod a * Cmod a)%R = Re (Cconj a * a).
Proof.
  unfold Cmod. rewrite sqrt_sqrt; [cbn; unfold Re, Im; ring|]. destruct a as [x y]; cbn. nra.
Qed.
Lemma conj_mul_self a : Cconj a * a = (Cmod a * Cmod a)%R.
Proof. apply C_eq; [rewrite Cmod_sqr; auto|]. cbn. ring. Qed.
Lemma Re_le_Cmod a : (Rabs (Re a) <= Cmod a)%R.
Proof. eapply Rle_trans; [apply Rmax_l|apply Rmax_Cmod]. Qed.
Lemma Im_le_Cmod a : (Rabs (Im a) <= Cmod a)%R.
Proof. eapply Rle_trans; [apply Rmax_r|apply Rmax_Cmod]. Qed.
Lemma Cmod_conj a : Cmod (Cconj a) = Cmod a.
Proof. unfold Cmod; cbn. f_equal. ring. Qed.
