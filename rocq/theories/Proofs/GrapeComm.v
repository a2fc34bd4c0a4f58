(** The GRAPE direction is the exact gradient for a commuting control. *)
From Coq Require Import Reals Lra.
From Coquelicot Require Import Coquelicot.
From Verif.Model Require Import Base Dyn Grape.
From Verif.Lib Require Import Lists Csum Mat MExp MCalc MComm.
From Verif.Spec Require Import Evolution MatAlg Grapes.
From Verif.Proofs Require Import GrapeFacts GrapeMat.
Local Open Scope nat_scope.
Set Bullet Behavior "Strict Subproofs".

Section Comm.
Context (N : nat).

Lemma nth_upd_same (row : list R) m x : m < length row -> nth m (upd row m x) 0%R = x.
Proof. intros H. rewrite nth_upd_nth by auto. now rewrite Nat.eqb_refl. Qed.
Lemma nth_upd_other (row : list R) m x k : k <> m -> nth k (upd row m x) 0%R = nth k row 0%R.
Proof.
  revert m k. induction row as [|a row IH]; intros [|m] [|k] H; cbn; auto; try lia.
Qed.
Lemma control_other (u : pulse) : forall (Hs : list mat) j m k x, k <> m ->
  control_part N (upd u j (upd (nth j u []) m x)) Hs k = control_part N u Hs k.
Proof.
  unfold control_part. induction u as [|r u IH]; intros Hs j m k x H; cbn [upd]; auto.
  destruct Hs as [|h Hs]; [destruct j; reflexivity|]. destruct j as [|j]; cbn [upd nth combine fold_right].
  - now rewrite nth_upd_other.
  - f_equal. now apply IH.
Qed.
Lemma control_same (u : pulse) : forall (Hs : list mat) j m h s, Forall (matrix N N) Hs -> nth_error Hs j = Some h ->
  j < length u -> m < length (nth j u []) ->
  control_part N (upd u j (upd (nth j u []) m (nth m (nth j u []) 0 + s)%R)) Hs m = madd (control_part N u Hs m) (mscal (RtoC s) h).
Proof.
  induction u as [|r u IH]; intros Hs j m h s F E Hj Hm; cbn [length] in Hj; [lia|].
  destruct Hs as [|h0 Hs]; [now destruct j|].
  assert (M0 : matrix N N h0) by now inversion F. assert (F' : Forall (matrix N N) Hs) by now inversion F.
  assert (SC : sized N N (control_part N u Hs m)) by now apply control_sized.
  destruct j as [|j]; cbn [nth_error nth] in *.
  - injection E as <-. change (control_part N (upd (r :: u) 0 (upd r m (nth m r 0 + s)%R)) (h0 :: Hs) m)
      with (madd (mscal (RtoC (nth m (upd r m (nth m r 0 + s)%R) 0%R)) h0) (control_part N u Hs m)).
    change (control_part N (r :: u) (h0 :: Hs) m) with (madd (mscal (RtoC (nth m r 0%R)) h0) (control_part N u Hs m)).
    rewrite nth_upd_same by auto. destruct M0 as [S0 P0].
    apply (mat_ext N N); eauto with mat. intros a b Ha Hb.
    rewrite (madd_ent N N), (mscal_ent N N), (madd_ent N N), (madd_ent N N), !(mscal_ent N N) by eauto with mat.
    rewrite RtoC_plus. ring.
  - change (control_part N (upd (r :: u) (S j) (upd (nth j u []) m (nth m (nth j u []) 0 + s)%R)) (h0 :: Hs) m)
      with (madd (mscal (RtoC (nth m r 0%R)) h0) (control_part N (upd u j (upd (nth j u []) m (nth m (nth j u []) 0 + s)%R)) Hs m)).
    change (control_part N (r :: u) (h0 :: Hs) m) with (madd (mscal (RtoC (nth m r 0%R)) h0) (control_part N u Hs m)).
    rewrite (IH Hs j m h s) by (auto; lia). destruct M0 as [S0 P0].
    assert (Sh : sized N N h) by (eapply Forall_forall in F'; [apply F'|]; eapply nth_error_In; eauto).
    apply (madd_assoc N N); auto with mat.
Qed.

Lemma ordered_ext (f h : nat -> mat) a n : (forall k, a <= k < a + n -> f k = h k) -> ordered N f a n = ordered N h a n.
Proof. induction n; intros H; cbn [ordered]; auto. rewrite H, IHn by (intros; try apply H; lia). auto. Qed.

(** The control commutes with the Hamiltonian of the slot. *)
Lemma nudged_is (H0 : mat) (Hs : list mat) dt J M (u : pulse) j m h s :
  matrix N N H0 -> Forall (matrix N N) Hs -> nth_error Hs j = Some h -> shape J M u -> j < J -> m < M - 1 ->
  mmul h (madd H0 (control_part N u Hs m)) = mmul (madd H0 (control_part N u Hs m)) h ->
  nudged N H0 Hs dt M u m h s = pulse_unitary N H0 Hs dt M (with_entry u j m (at2 u j m + s)%R).
Proof.
  intros [S0 P0] F E Su Hj Hm HC. pose proof (shape_row J M u j Su Hj) as Lr.
  assert (Sh : matrix N N h) by (eapply Forall_forall in F; [apply F|]; eapply nth_error_In; eauto). destruct Sh as [Sh Ph].
  assert (Eu : with_entry u j m (at2 u j m + s)%R = upd u j (upd (nth j u []) m (nth m (nth j u []) 0 + s)%R)).
  { unfold with_entry. rewrite (nth_of u j []) by (destruct Su; lia). reflexivity. }
  rewrite Eu. clear Eu. set (u' := upd u j _).
  assert (SC : sized N N (madd H0 (control_part N u Hs m))) by auto with mat.
  assert (Eo : forall k, k <> m -> slot_propagator N H0 Hs dt u' k = slot_propagator N H0 Hs dt u k).
  { intros k Hk. unfold slot_propagator, u'. now rewrite control_other. }
  assert (Em : slot_propagator N H0 Hs dt u' m = mmul (mexp (mscal (RtoC s) (mscal (RtoC dt * - Ci)%C h))) (slot_propagator N H0 Hs dt u m)).
  { unfold slot_propagator, u'. rewrite (control_same u Hs j m h s) by (auto; destruct Su; lia).
    set (c := (RtoC dt * - Ci)%C). set (G := madd H0 (control_part N u Hs m)) in *.
    rewrite <- (mexp_add N); auto with mat.
    - f_equal. assert (SCp : sized N N (control_part N u Hs m)) by now apply control_sized.
      apply (mat_ext N N); eauto with mat. intros a b Ha Hb. unfold G.
      rewrite !(mscal_ent N N), !(madd_ent N N), !(mscal_ent N N), (madd_ent N N) by eauto with mat. ring.
    - rewrite (mscal_scal N N) by auto. rewrite !(mmul_scal_l N N N), !(mmul_scal_r N N N) by auto with mat. rewrite HC.
      rewrite !(mscal_scal N N) by eauto with mat. f_equal. ring. }
  unfold pulse_unitary, nudged. cbv zeta.
  assert (Hp : forall v k, sized N N (slot_propagator N H0 Hs dt v k) /\ proper (slot_propagator N H0 Hs dt v k)).
  { intros v k. split; [|apply mexp_proper]. apply mexp_sized. auto with mat. }
  replace (M - 1) with (S m + (M - 2 - m)) by lia.
  rewrite (ordered_app N _ (Hp u')). cbn [Nat.add].
  rewrite (ordered_ext (slot_propagator N H0 Hs dt u') (slot_propagator N H0 Hs dt u) (S m)) by (intros; apply Eo; lia).
  cbn [ordered Nat.add]. rewrite Em.
  rewrite (ordered_ext (slot_propagator N H0 Hs dt u') (slot_propagator N H0 Hs dt u) 0 m) by (intros; apply Eo; lia).
  f_equal. now rewrite mmul_assoc.
Qed.
End Comm.
