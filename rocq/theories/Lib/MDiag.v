(** Exponentials of adjoints, transposes, diagonalised and block matrices;
    unitarity. *)
From Coq Require Import Reals Lra Lia Arith Factorial.
From Coquelicot Require Import Coquelicot.
From Verif.Lib Require Import Csum Mat MExp MCalc.
Local Open Scope C_scope.
Set Bullet Behavior "Strict Subproofs".

Lemma Cmod_pos2 z : (0 <= Cmod z)%R. Proof. apply Cmod_ge_0. Qed.

Section Diag.
Context (N : nat).
Implicit Types A B X E V : mat.

Lemma pow_dag A n : sized N N A -> mpow (mdag A) n = mdag (mpow A n).
Proof.
  intros H. assert (Q : nr (mdag A) = nr A) by (destruct H as [E1 E2]; unfold mdag; rewrite nr_tab; congruence).
  induction n; cbn [mpow].
  - rewrite Q, mdag_id. auto.
  - rewrite IHn, <- (mdag_mul N N N), pow_comm with (N := N); eauto with mat.
Qed.
Lemma pow_trans A n : sized N N A -> mpow (mtrans A) n = mtrans (mpow A n).
Proof.
  intros H. assert (Q : nr (mtrans A) = nr A) by (destruct H as [E1 E2]; unfold mtrans; rewrite nr_tab; congruence).
  induction n; cbn [mpow].
  - rewrite Q, mtrans_id. auto.
  - rewrite IHn, <- (mtrans_mul N N N), pow_comm with (N := N); eauto with mat.
Qed.
Lemma mexp_dag A : sized N N A -> mexp (mdag A) = mdag (mexp A).
Proof.
  intros H. apply (mat_ext N N); eauto with mat. intros i j Hi Hj.
  rewrite (mdag_ent N N), !(mexp_ent N) by eauto with mat. rewrite <- CSeries_conj. apply CSeries_ext. intros n.
  rewrite pow_dag, (mdag_ent N N) by eauto with mat. rewrite Cconj_mult. unfold ifact. rewrite Cconj_R. auto.
Qed.
Lemma mexp_trans A : sized N N A -> mexp (mtrans A) = mtrans (mexp A).
Proof.
  intros H. apply (mat_ext N N); eauto with mat. intros i j Hi Hj.
  rewrite (mtrans_ent N N), !(mexp_ent N) by eauto with mat. apply CSeries_ext. intros n.
  rewrite pow_trans, (mtrans_ent N N) by eauto with mat. auto.
Qed.

(** The exponential of an anti-Hermitian matrix is unitary. *)
Theorem mexp_unitary A : sized N N A -> mdag A = mscal (-(1)) A -> unitary N (mexp A).
Proof.
  intros H Ha. assert (Z1 : madd (mmul (mdag A) (mid N)) (mmul (mid N) A) = mzero N N).
  { rewrite Ha. apply (mat_ext N N); eauto with mat. intros i j Hi Hj. erewrite madd_ent by eauto with mat.
    rewrite (mmul_1_r N N) by eauto with mat. 
    replace (mmul (mid N) A) with (mscal 1 A) by (rewrite <- (mmul_1_l N N (mscal 1 A)), (mmul_scal_r N N N), (mscal_1 N N) by eauto with mat; auto).
    erewrite !mscal_ent by eauto. unfold mzero. rewrite ent_tab by auto. ring. }
  assert (Z2 : madd (mmul A (mid N)) (mmul (mid N) (mdag A)) = mzero N N).
  { rewrite Ha. apply (mat_ext N N); eauto with mat. intros i j Hi Hj. erewrite madd_ent by eauto with mat.
    rewrite (mmul_1_l N N) by eauto with mat. 
    replace (mmul A (mid N)) with (mscal 1 A) by (rewrite <- (mmul_1_r N N (mscal 1 A)), (mmul_scal_l N N N), (mscal_1 N N) by eauto with mat; auto).
    erewrite !mscal_ent by eauto. unfold mzero. rewrite ent_tab by auto. ring. }
  apply mexp_conj in Z1, Z2; auto with mat. rewrite (mmul_1_r N N) in Z1, Z2 by eauto with mat.
  rewrite mexp_dag in Z1, Z2 by auto. split; [auto with mat|split; [auto with mat|auto]].
Qed.
Lemma unitary_mul U V : unitary N U -> unitary N V -> unitary N (mmul U V).
Proof.
  intros (S1 & P1 & A1 & B1) (S2 & P2 & A2 & B2). split; [eauto with mat|split; [auto with mat|]].
  rewrite (mdag_mul N N N) by auto. split.
  - rewrite mmul_assoc, <- (mmul_assoc (mdag V)), A1, (mmul_1_r N N) by auto with mat. auto.
  - rewrite mmul_assoc, <- (mmul_assoc U), B2, (mmul_1_r N N) by auto. auto.
Qed.
Lemma unitary_id : unitary N (mid N).
Proof. split; [auto with mat|split; [auto with mat|]]. rewrite mdag_id, (mmul_1_l N N) by auto with mat. auto. Qed.
Lemma unitary_dag U : unitary N U -> unitary N (mdag U).
Proof. intros (S1 & P1 & A1 & B1). split; [auto with mat|split; [auto with mat|]]. rewrite (mdag_dag N N) by auto. auto. Qed.

End Diag.

(** ** Diagonalisation *)
(** [V] diag(f) [V]^dagger. *)
Definition spectral (N : nat) (V : mat) (f : nat -> C) : mat := mmul (mmul V (mdiag N f)) (mdag V).
Fixpoint cpow (z : C) (n : nat) : C := match n with O => 1 | S k => z * cpow z k end.
(** The exponential of a complex number as a series. *)
Definition cexpS (z : C) : C := CSeries (fun n => ifact n * cpow z n).
(** sum_{k<n} a^k b^(n-1-k) *)
Fixpoint dpowc (a b : C) (n : nat) : C :=
  match n with O => 0 | S k => cpow b k + a * dpowc a b k end.
(** The divided difference of the exponential. *)
Definition ddexp (a b : C) : C := CSeries (fun n => ifact n * dpowc a b n).
(** [E] in the basis [V]. *)
Definition inbasis (V E : mat) : mat := mmul (mmul (mdag V) E) V.

Section Spectral.
Context (N : nat) (V : mat) (HV : unitary N V).
Notation spectral := (spectral N V).
Let SV : sized N N V := proj1 HV.

Lemma spectral_sized f : sized N N (spectral f).
Proof. unfold MDiag.spectral. pose proof SV. eauto with mat. Qed.
Lemma spectral_mul f g : mmul (spectral f) (spectral g) = spectral (fun i => f i * g i).
Proof.
  pose proof SV as S. pose proof HV as (_ & P & A & _). unfold MDiag.spectral.
  rewrite <- (mmul_assoc _ _ (mmul (mmul V (mdiag N g)) (mdag V))).
  rewrite (mmul_assoc (mdag V) (mmul V (mdiag N g)) (mdag V)), (mmul_assoc (mdag V) V), A, (mmul_1_l N N) by auto with mat.
  rewrite !mmul_assoc. f_equal. rewrite <- !mmul_assoc. f_equal.
  apply (mat_ext N N); eauto with mat. intros i j Hi Hj. rewrite (mmul_ent N N N), mdiag_ent by auto with mat.
  etransitivity; [apply (csum_single N i); auto|].
  - intros l Hl Hn. rewrite mdiag_ent by auto. destruct (Nat.eqb_spec i l); [lia|]. ring.
  - cbn beta. rewrite !mdiag_ent, Nat.eqb_refl by auto. destruct (i =? j)%nat; ring.
Qed.
Lemma spectral_one : spectral (fun _ => 1) = mid N.
Proof.
  pose proof SV as S. pose proof HV as (_ & P & _ & B). unfold MDiag.spectral. change (mdiag N (fun _ => 1)) with (mid N).
  rewrite (mmul_1_r N N); auto.
Qed.
Lemma spectral_pow f n : mpow (spectral f) n = spectral (fun i => cpow (f i) n).
Proof.
  induction n; cbn [mpow cpow].
  - rewrite (proj1 (spectral_sized f)), spectral_one. auto.
  - rewrite IHn, spectral_mul. auto.
Qed.
Lemma spectral_ent f i j : (i < N)%nat -> (j < N)%nat ->
  ent (spectral f) i j = csum N (fun k => ent V i k * f k * Cconj (ent V j k)).
Proof.
  intros Hi Hj. pose proof SV as S. unfold MDiag.spectral. rewrite (mmul_ent N N N) by eauto with mat.
  apply csum_ext. intros k Hk. rewrite (mdag_ent N N) by auto. f_equal. rewrite (mmul_ent N N N) by auto with mat.
  etransitivity; [apply (csum_single N k); auto|].
  - intros l Hl Hn. rewrite mdiag_ent by auto. destruct (Nat.eqb_spec l k); [lia|]. ring.
  - cbn beta. rewrite mdiag_ent, Nat.eqb_refl by auto. auto.
Qed.

Lemma cpow_mod z n : Cmod (cpow z n) = (Cmod z ^ n)%R.
Proof. induction n; cbn; [apply Cmod_1|]. rewrite Cmod_mult, IHn. auto. Qed.
Lemma cexp_cvg z : cvg (fun n => ifact n * cpow z n).
Proof.
  apply cvg_le with (b := fun n => (1 * (Cmod z ^ n * / INR (fact n)))%R); [|apply exp_dom].
  intros n. rewrite cmod_ifact, cpow_mod. lra.
Qed.
Lemma mexp_spectral f : mexp (spectral f) = spectral (fun i => cexpS (f i)).
Proof.
  pose proof SV as S. assert (PS : forall g, proper (spectral g)) by (intros; unfold MDiag.spectral; auto with mat).
  assert (SS : forall g, sized N N (spectral g)) by (intros; apply spectral_sized). apply (mat_ext N N); auto with mat.
  intros i j Hi Hj. rewrite (mexp_ent N), spectral_ent by auto using spectral_sized.
  transitivity (CSeries (fun n => csum N (fun k => (ent V i k * Cconj (ent V j k)) * (ifact n * cpow (f k) n)))).
  - apply CSeries_ext. intros n. rewrite spectral_pow, spectral_ent by auto. rewrite <- csum_scal_l. apply csum_ext. intros. ring.
  - rewrite (CSeries_csum N (fun k n => (ent V i k * Cconj (ent V j k)) * (ifact n * cpow (f k) n))).
    + apply csum_ext. intros k Hk. rewrite CSeries_scal by apply cexp_cvg. unfold cexpS. ring.
    + intros k Hk. apply cvg_scal, cexp_cvg.
Qed.

(** ** Derivative in the eigenbasis *)
Lemma dpowc_mul a b n : (a - b) * dpowc a b n = cpow a n - cpow b n.
Proof. induction n; cbn [dpowc cpow]; [ring|]. transitivity ((a - b) * cpow b n + a * ((a - b) * dpowc a b n)); [ring|]. rewrite IHn. ring. Qed.
Lemma dpowc_eq a n : dpowc a a (S n) = INR (S n) * cpow a n.
Proof.
  induction n; [cbn; ring|]. change (dpowc a a (S (S n))) with (cpow a (S n) + a * dpowc a a (S n)). rewrite IHn.
  rewrite (S_INR (S n)), RtoC_plus. cbn [cpow]. ring.
Qed.
Lemma dpowc_dom a b n : (Cmod (dpowc a b n) <= (4 * (1 + Cmod a + Cmod b)) ^ n)%R.
Proof.
  set (K := (1 + Cmod a + Cmod b)%R). pose proof (Cmod_ge_0 a). pose proof (Cmod_ge_0 b).
  assert (H1 : (Cmod (dpowc a b n) <= INR n * K ^ n)%R).
  { induction n; [cbn [dpowc]; rewrite Cmod_0; cbn; lra|]. cbn [dpowc pow]. rewrite S_INR.
    eapply Rle_trans; [apply Cmod_triangle|]. rewrite Cmod_mult, cpow_mod.
    assert (Hk : (0 <= K ^ n)%R) by (apply pow_le; unfold K; lra).
    assert (Cmod b ^ n <= K ^ n)%R by (apply pow_incr; unfold K; lra). pose proof (pos_INR n).
    assert (Cmod a * Cmod (dpowc a b n) <= K * (INR n * K ^ n))%R by (apply Rmult_le_compat; auto using Cmod_ge_0; unfold K; lra).
    assert (1 * K ^ n <= K * K ^ n)%R by (apply Rmult_le_compat_r; unfold K in *; lra). lra. }
  rewrite Rpow_mult_distr. eapply Rle_trans; [exact H1|]. apply Rmult_le_compat_r; [apply pow_le; unfold K; lra|].
  apply n_pow4.
Qed.
Lemma ddexp_cvg a b : cvg (fun n => ifact n * dpowc a b n).
Proof.
  eapply cvg_le; [|apply (exp_dom 1 (4 * (1 + Cmod a + Cmod b)))]. intros n. rewrite cmod_ifact.
  pose proof (ifact_pos n). pose proof (dpowc_dom a b n). nra.
Qed.
Lemma ddexp_neq a b : a <> b -> ddexp a b = (cexpS a - cexpS b) / (a - b).
Proof.
  intros H. assert (Hn : a - b <> 0) by (intros E; apply H; replace a with (a - b + b) by ring; rewrite E; ring).
  transitivity (((a - b) * ddexp a b) / (a - b)); [field; auto|]. f_equal.
  unfold ddexp, cexpS. rewrite <- CSeries_scal by apply ddexp_cvg.
  transitivity (CSeries (fun n => ifact n * cpow a n + (-(1)) * (ifact n * cpow b n))).
  - apply CSeries_ext. intros n. transitivity (ifact n * ((a - b) * dpowc a b n)); [ring|]. rewrite dpowc_mul. ring.
  - rewrite CSeries_plus, CSeries_scal by (try apply cvg_scal; apply cexp_cvg). ring.
Qed.
Lemma ddexp_diag a : ddexp a a = cexpS a.
Proof.
  unfold ddexp, cexpS. rewrite CSeries_shift by apply ddexp_cvg. cbn [dpowc]. rewrite Cmult_0_r, Cplus_0_l.
  apply CSeries_ext. intros n. change (cpow a n + a * dpowc a a n) with (dpowc a a (S n)). rewrite dpowc_eq, (ifact_mul n). ring.
Qed.

(** D(exp)(V f V+) in direction E is V ((V+ E V) o ddexp) V+. *)
Notation inbasis := (inbasis V).
Lemma inbasis_back E : sized N N E -> proper E -> mmul (mmul V (inbasis E)) (mdag V) = E.
Proof.
  intros HE PE. pose proof SV as S. pose proof HV as (_ & P & A & B). unfold MDiag.inbasis.
  rewrite !mmul_assoc, B, (mmul_1_l N N), <- mmul_assoc, B, (mmul_1_r N N); auto.
Qed.
Lemma dpow_spectral f E n : sized N N E -> proper E ->
  dpow (spectral f) E n = mmul (mmul V (mhad (inbasis E) (fun i j => dpowc (f i) (f j) n))) (mdag V).
Proof.
  intros HE PE. pose proof SV as S. pose proof (inbasis_back E HE PE) as EB. pose proof HV as (_ & P & A & B).
  assert (SI : sized N N (inbasis E)) by (unfold MDiag.inbasis; eauto with mat).
  induction n; cbn [dpow dpowc].
  - rewrite (proj1 (spectral_sized f)). replace (mhad (inbasis E) (fun _ _ => 0)) with (mzero N N).
    + rewrite (mzero_mul_r N N N), (mzero_mul_l N N N); auto with mat.
    + apply (mat_ext N N); eauto with mat. intros i j Hi Hj. rewrite (mhad_ent N N) by auto. unfold mzero. rewrite ent_tab by auto. ring.
  - rewrite IHn, spectral_pow. unfold MDiag.spectral.
    set (M := mhad (inbasis E) (fun i j => dpowc (f i) (f j) n)). assert (SM : sized N N M) by (unfold M; auto with mat).
    assert (PI : forall f, mmul (mmul V f) (mmul (mdag V) V) = mmul V f -> True) by auto. clear PI.
    replace (mhad (inbasis E) (fun i j => cpow (f j) n + f i * dpowc (f i) (f j) n))
      with (madd (mmul (inbasis E) (mdiag N (fun k => cpow (f k) n))) (mmul (mdiag N f) M)).
    + rewrite (mmul_add_r N N N), (mmul_add_l N N N) by eauto with mat. f_equal.
      * transitivity (mmul (mmul (mmul V (inbasis E)) (mdag V)) (mmul (mmul V (mdiag N (fun i => cpow (f i) n))) (mdag V))).
        { rewrite EB. auto. }
        rewrite !mmul_assoc. f_equal. f_equal. rewrite <- !mmul_assoc, A. f_equal. apply (mmul_1_r N N); auto. unfold MDiag.inbasis; auto with mat.
      * transitivity (mmul (mmul V (mdiag N f)) (mmul (mmul (mdag V) V) (mmul M (mdag V)))); [rewrite !mmul_assoc; auto|].
        rewrite A, (mmul_1_l N N) by eauto with mat. rewrite !mmul_assoc. auto.
    + apply (mat_ext N N); eauto with mat. intros i j Hi Hj. rewrite (madd_ent N N), !(mmul_ent N N N), (mhad_ent N N) by eauto with mat.
      assert (E1 : csum N (fun l => ent (inbasis E) i l * ent (mdiag N (fun k => cpow (f k) n)) l j) = ent (inbasis E) i j * cpow (f j) n).
      { etransitivity; [apply (csum_single N j); auto|].
        - intros l Hl Hn. rewrite mdiag_ent by auto. destruct (Nat.eqb_spec l j); [lia|ring].
        - cbn beta. rewrite mdiag_ent, Nat.eqb_refl by auto. auto. }
      assert (E2 : csum N (fun l => ent (mdiag N f) i l * ent M l j) = f i * (ent (inbasis E) i j * dpowc (f i) (f j) n)).
      { etransitivity; [apply (csum_single N i); auto|].
        - intros l Hl Hn. rewrite mdiag_ent by auto. destruct (Nat.eqb_spec i l); [lia|ring].
        - cbn beta. rewrite mdiag_ent, Nat.eqb_refl by auto. unfold M. rewrite (mhad_ent N N) by auto. auto. }
      rewrite E1, E2. ring.
Qed.

Lemma sandwich_ent M i j : sized N N M -> (i < N)%nat -> (j < N)%nat ->
  ent (mmul (mmul V M) (mdag V)) i j = csum N (fun l => csum N (fun k => ent V i k * Cconj (ent V j l) * ent M k l)).
Proof.
  intros HM Hi Hj. pose proof SV as S. rewrite (mmul_ent N N N) by eauto with mat. apply csum_ext. intros l Hl.
  rewrite (mmul_ent N N N), (mdag_ent N N), <- csum_scal_r by eauto with mat. apply csum_ext. intros. ring.
Qed.
Theorem mdexp_spectral f E : sized N N E -> proper E ->
  mdexp (spectral f) E = mmul (mmul V (mhad (inbasis E) (fun i j => ddexp (f i) (f j)))) (mdag V).
Proof.
  intros HE PE. pose proof SV as S. pose proof (spectral_sized f) as SS.
  assert (SI : sized N N (inbasis E)) by (unfold MDiag.inbasis; eauto with mat).
  apply (mat_ext N N); eauto with mat. intros i j Hi Hj. rewrite (mdexp_ent N), sandwich_ent by auto with mat.
  set (a := fun k l => ent V i k * Cconj (ent V j l) * ent (inbasis E) k l).
  transitivity (CSeries (fun n => csum N (fun l => csum N (fun k => a k l * (ifact n * dpowc (f k) (f l) n))))).
  - apply CSeries_ext. intros n. rewrite dpow_spectral, sandwich_ent by auto with mat.
    rewrite <- csum_scal_l. apply csum_ext. intros l Hl. rewrite <- csum_scal_l. apply csum_ext. intros k Hk.
    rewrite (mhad_ent N N) by auto. unfold a. ring.
  - rewrite (CSeries_csum N (fun l n => csum N (fun k => a k l * (ifact n * dpowc (f k) (f l) n)))).
    + apply csum_ext. intros l Hl. rewrite (CSeries_csum N (fun k n => a k l * (ifact n * dpowc (f k) (f l) n))).
      * apply csum_ext. intros k Hk. rewrite CSeries_scal by apply ddexp_cvg. rewrite (mhad_ent N N) by auto. unfold a, ddexp. ring.
      * intros k Hk. apply cvg_scal, ddexp_cvg.
    + intros l Hl. apply (cvg_csum N (fun k n => a k l * (ifact n * dpowc (f k) (f l) n))). intros k Hk. apply cvg_scal, ddexp_cvg.
Qed.
End Spectral.

(** The exponential of an imaginary number. *)
Lemma der_cexpS z x : derC (fun t => cexpS (RtoC t * z)) x (z * cexpS (RtoC x * z)).
Proof.
  set (A := mdiag 1 (fun _ => z)). assert (HA : sized 1 1 A) by (unfold A; auto with mat).
  assert (E : forall t, ent (mexp (mscal (RtoC t) A)) 0 0 = cexpS (RtoC t * z)).
  { intros t. rewrite (mexp_ent 1) by eauto with mat. unfold cexpS. apply CSeries_ext. intros n. f_equal. induction n; cbn [mpow cpow].
    - rewrite (proj1 (mscal_sized 1 1 t A HA)), mid_ent by auto. reflexivity.
    - rewrite (mmul_ent 1 1 1) by eauto with mat. cbn [csum]. rewrite IHn, (mscal_ent 1 1) by auto. unfold A. rewrite mdiag_ent by auto. cbn [Nat.eqb]. ring. }
  destruct (der_flow 1 A x HA) as (_ & S & D). specialize (D 0%nat 0%nat). rewrite (proj1 S), (proj2 S) in D.
  eapply derC_ext; [exact E|]. eapply derC_eq; [apply D; auto|].
  rewrite (mmul_ent 1 1 1) by eauto with mat. cbn [csum]. rewrite E. unfold A. rewrite mdiag_ent by auto. cbn [Nat.eqb]. ring.
Qed.
Lemma cpow_0 n : cpow 0 (S n) = 0. Proof. cbn. ring. Qed.
Lemma cexpS_0 : cexpS 0 = 1.
Proof. unfold cexpS. rewrite CSeries_single; [cbn [cpow]; rewrite ifact_0; ring|]. intros n. rewrite cpow_0. ring. Qed.
Theorem cexpS_imag x : cexpS (0, x) = (cos x, sin x).
Proof.
  set (f := fun t => cexpS (RtoC t * Ci)). set (g := fun t => f t * (cos t, (- sin t)%R)).
  assert (Df : forall t, derC f t (Ci * f t)) by (intros; apply der_cexpS).
  assert (Dc : forall t, derC (fun t => (cos t, (- sin t)%R)) t ((- sin t)%R, (- cos t)%R)).
  { intros t. split; cbn.
    - apply is_derive_cos.
    - apply (is_derive_opp (K := R_AbsRing) (V := R_NormedModule) sin). apply is_derive_sin. }
  assert (Dg : forall t, derC g t 0).
  { intros t. eapply derC_eq; [apply (derC_mult f _ t _ _ (Df t) (Dc t))|]. apply C_eq; unfold Ci; cbn; ring. }
  assert (G : forall t, g t = g 0%R).
  { intros t. assert (Q : forall h : R -> R, (forall t, is_derive h t 0%R) -> h t = h 0%R).
    { intros h Hh. destruct (Rtotal_order t 0) as [L|[->|L]]; auto.
      - apply (eq_is_derive (V := R_NormedModule) h t 0%R); auto.
      - symmetry. apply (eq_is_derive (V := R_NormedModule) h 0%R t); auto. }
    apply C_eq; [apply (Q (fun t => Re (g t)))|apply (Q (fun t => Im (g t)))]; intros u; apply (Dg u). }
  assert (G0 : g 0%R = 1).
  { unfold g, f. rewrite Cmult_0_l, cexpS_0, cos_0, sin_0. apply C_eq; cbn; ring. }
  specialize (G x). rewrite G0 in G. unfold g in G.
  replace (cexpS (0, x)) with (f x) by (unfold f; f_equal; apply C_eq; unfold Ci; cbn; ring).
  transitivity (f x * (cos x, (- sin x)%R) * (cos x, sin x)).
  - assert (E : (cos x, (- sin x)%R) * (cos x, sin x) = 1).
    { pose proof (sin2_cos2 x) as H. unfold Rsqr in H. apply C_eq; cbn; lra. }
    rewrite <- Cmult_assoc, E. ring.
  - rewrite G. ring.
Qed.

(** ** The augmented matrix *)
Section Aug.
Context (N : nat) (X E : mat) (HX : sized N N X) (HE : sized N N E).
Let AUG := maug N X E.
Lemma aug_sized : sized (N + N) (N + N) AUG. Proof. split; auto. Qed.
Lemma aug_ent i j : (i < N)%nat -> (j < N)%nat ->
  ent AUG i j = ent X i j /\ ent AUG i (N + j) = ent E i j /\ ent AUG (N + i) j = 0 /\ ent AUG (N + i) (N + j) = ent X i j.
Proof.
  intros Hi Hj. unfold AUG, maug. rewrite !ent_tab by lia.
  replace (i <? N)%nat with true by (symmetry; apply Nat.ltb_lt; auto). replace (j <? N)%nat with true by (symmetry; apply Nat.ltb_lt; auto).
  replace (N + i <? N)%nat with false by (symmetry; apply Nat.ltb_ge; lia). replace (N + j <? N)%nat with false by (symmetry; apply Nat.ltb_ge; lia).
  replace (N + i - N)%nat with i by lia. replace (N + j - N)%nat with j by lia. auto.
Qed.
Lemma aug_pow n i j : (i < N)%nat -> (j < N)%nat ->
  ent (mpow AUG n) i j = ent (mpow X n) i j /\ ent (mpow AUG n) i (N + j) = ent (dpow X E n) i j /\
  ent (mpow AUG n) (N + i) j = 0 /\ ent (mpow AUG n) (N + i) (N + j) = ent (mpow X n) i j.
Proof.
  revert i j. induction n; intros i j Hi Hj; cbn [mpow dpow].
  - rewrite (proj1 aug_sized), (proj1 HX), !mid_ent by lia. unfold mzero. rewrite ent_tab by auto.
    replace (i =? N + j)%nat with false by (symmetry; apply Nat.eqb_neq; lia).
    replace (N + i =? j)%nat with false by (symmetry; apply Nat.eqb_neq; lia).
    replace (N + i =? N + j)%nat with (i =? j)%nat; auto. destruct (Nat.eqb_spec i j), (Nat.eqb_spec (N + i) (N + j)); auto; lia.
  - assert (SP : sized (N + N) (N + N) (mpow AUG n)) by (apply mpow_sized, aug_sized).
    assert (Q : forall f g : nat -> C, forall h, (forall l, (l < N)%nat -> h l = f l) -> (forall l, (l < N)%nat -> h (N + l)%nat = g l) ->
       csum (N + N) h = csum N f + csum N g).
    { intros f g h H1 H2. rewrite csum_app. f_equal; apply csum_ext; auto. }
    assert (MA : forall i j, (i < N + N)%nat -> (j < N + N)%nat ->
       ent (mmul AUG (mpow AUG n)) i j = csum (N + N) (fun l => ent AUG i l * ent (mpow AUG n) l j)).
    { intros. apply (mmul_ent (N + N) (N + N) (N + N)); auto using aug_sized. }
    rewrite (madd_ent N N), (mmul_ent N N N X (mpow X n)), (mmul_ent N N N X (dpow X E n)), (mmul_ent N N N E (mpow X n)) by eauto with mat.
    rewrite !MA by lia. repeat split.
    + rewrite (Q (fun l => ent X i l * ent (mpow X n) l j) (fun l => 0)).
      * rewrite (csum_zero N (fun _ => 0)) by auto. ring.
      * intros l Hl. destruct (aug_ent i l Hi Hl) as (-> & _). destruct (IHn l j Hl Hj) as (-> & _). auto.
      * intros l Hl. destruct (IHn l j Hl Hj) as (_ & _ & -> & _). ring.
    + rewrite (Q (fun l => ent X i l * ent (dpow X E n) l j) (fun l => ent E i l * ent (mpow X n) l j)); [ring| |].
      * intros l Hl. destruct (aug_ent i l Hi Hl) as (-> & _). destruct (IHn l j Hl Hj) as (_ & -> & _). auto.
      * intros l Hl. destruct (aug_ent i l Hi Hl) as (_ & -> & _). destruct (IHn l j Hl Hj) as (_ & _ & _ & ->). auto.
    + rewrite (Q (fun l => 0) (fun l => 0)); [rewrite (csum_zero N (fun _ => 0)) by auto; ring| |].
      * intros l Hl. destruct (aug_ent i l Hi Hl) as (_ & _ & -> & _). ring.
      * intros l Hl. destruct (IHn l j Hl Hj) as (_ & _ & -> & _). ring.
    + rewrite (Q (fun l => 0) (fun l => ent X i l * ent (mpow X n) l j)); [rewrite (csum_zero N (fun _ => 0)) by auto; ring| |].
      * intros l Hl. destruct (aug_ent i l Hi Hl) as (_ & _ & -> & _). ring.
      * intros l Hl. destruct (aug_ent i l Hi Hl) as (_ & _ & _ & ->). destruct (IHn l j Hl Hj) as (_ & _ & _ & ->). auto.
Qed.
Theorem mexp_aug00 : mblk00 N (mexp AUG) = mexp X.
Proof.
  apply (mat_ext N N); eauto with mat; try apply tab_sized; try apply tab_proper. intros i j Hi Hj. unfold mblk00. rewrite ent_tab by auto.
  rewrite (mexp_ent (N + N)), (mexp_ent N) by (auto using aug_sized; lia). apply CSeries_ext. intros n.
  destruct (aug_pow n i j Hi Hj) as (-> & _). auto.
Qed.
Theorem mexp_aug01 : mblk01 N (mexp AUG) = mdexp X E.
Proof.
  apply (mat_ext N N); eauto with mat; try apply tab_sized; try apply tab_proper. intros i j Hi Hj. unfold mblk01. rewrite ent_tab by auto.
  rewrite (mexp_ent (N + N)), (mdexp_ent N) by (auto using aug_sized; lia). apply CSeries_ext. intros n.
  destruct (aug_pow n i j Hi Hj) as (_ & -> & _). auto.
Qed.
End Aug.
