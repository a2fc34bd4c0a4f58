(** The one-dimensional system is well posed and its routines are right. *)
From Coq Require Import Reals Lra.
From Coquelicot Require Import Complex.
From Verif.Model Require Import Base Dyn.
From Verif.Lib Require Import Lists.
From Verif.Spec Require Import Evolution History Scalar.
Local Open Scope R_scope.

Lemma cexp_0 : cexp (RtoC 0) = RtoC 1.
Proof. unfold cexp, RtoC, Re, Im; cbn. rewrite exp_0, cos_0, sin_0. f_equal; ring. Qed.

Lemma cexp_real x : cexp (RtoC x) = RtoC (exp x).
Proof. unfold cexp, RtoC, Re, Im; cbn. rewrite cos_0, sin_0. f_equal; ring. Qed.

Lemma sc_well_posed cl n ph p f : (0 < n)%nat -> (p = Diag -> cl = Unitary) ->
  well_posed (sc_settings cl n ph p f) n 1.
Proof.
  intros Hn Hd. constructor; cbn; auto.
  - apply repeat_length.
  - exists (DConst (RtoC 0 : Op ScalarAlg)). split; cbn; auto. destruct cl; reflexivity.
  - exists (CList [(RtoC 1 : Op ScalarAlg)]). split; cbn; auto. destruct cl; reflexivity.
Qed.

Lemma sc_frechet (s : settings ScalarAlg) t g c : frechet_expm s t g c.
Proof. reflexivity. Qed.

Lemma sc_routines cl n ph p f : p <> AugMat -> p <> Diag -> routines_ok (sc_settings cl n ph p f) n 1.
Proof. intros H1 H2. split; [|split]; cbn; intros; try congruence. apply sc_frechet. Qed.

(** Generators of the one-level system are real, so diagonalisation works. *)
Lemma sc_gens_real cl n ph p f a g :
  In g (gens_of (sc_settings cl n ph p f) a) -> Im g = 0.
Proof.
  unfold gens_of. replace (eff_drift _) with (Some (DConst (RtoC 0 : Op ScalarAlg))) by (destruct cl; reflexivity).
  replace (eff_ctrls _) with (Some (CList [(RtoC 1 : Op ScalarAlg)])) by (destruct cl; reflexivity).
  unfold generators; cbn [s_tau sc_settings drift_ops ctrl_ops]. rewrite repeat_length.
  revert a; induction n as [|n IH]; intros [|r a]; cbn; try tauto.
  intros [<-|H]; [|eapply IH; eauto].
  destruct r as [|u r]; cbn.
  - reflexivity.
  - destruct r; cbn; unfold Im, Cplus, Cmult, RtoC; cbn; ring.
Qed.

Lemma sc_routines_diag n f :
  routines_ok (sc_settings Unitary n (Some (PhNum (- Ci)%C : phase ScalarAlg)) Diag f) n 1.
Proof.
  split; [discriminate|split; [discriminate|intros _ a k t g Ha Ht Hg]].
  assert (E : Im g = 0) by (eapply sc_gens_real; eapply nth_error_In; exact Hg).
  assert (t = 1) as -> by (apply nth_error_In, repeat_spec in Ht; auto). clear Ht Hg.
  unfold diag_expm, propagator, with_phase; cbn. unfold cexp, eigphase.
  destruct g as [x y]; unfold Im, Re in *; cbn in *; subst.
  unfold Cmult, Cconj, RtoC; cbn.
  replace (1 * (- (0) * x - - (1) * 0) - 0 * (- (0) * 0 + - (1) * x)) with 0 by ring.
  replace (1 * (- (0) * 0 + - (1) * x) + 0 * (- (0) * x - - (1) * 0)) with (- (x * 1)) by ring.
  rewrite exp_0, cos_neg, sin_neg. f_equal; ring.
Qed.
