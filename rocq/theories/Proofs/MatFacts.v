(** Matrix systems: the routines deliver the exponential and its derivative,
    and the gradient entries are derivatives. *)
From Coq Require Import Reals Lra.
From Coquelicot Require Import Coquelicot.
From Verif.Model Require Import Base Dyn.
From Verif.Lib Require Import Lists Csum Mat MExp MCalc MDiag.
From Verif.Spec Require Import Evolution History MatAlg.
From Verif.Proofs Require Import DynInv DynRun DynHist DynHistory DynProps.
Local Open Scope nat_scope.
Set Bullet Behavior "Strict Subproofs".

Lemma derC_unique f x a b : derC f x a -> derC f x b -> a = b.
Proof.
  intros [A1 A2] [B1 B2]. apply C_eq.
  - rewrite <- (is_derive_unique _ _ _ A1). apply is_derive_unique; auto.
  - rewrite <- (is_derive_unique _ _ _ A2). apply is_derive_unique; auto.
Qed.
Lemma der_unique r c F x D D' : der r c F x D -> der r c F x D' -> proper D -> proper D' -> D = D'.
Proof.
  intros (_ & S1 & H1) (_ & S2 & H2) P1 P2. apply (mat_ext r c); auto. intros i j Hi Hj.
  destruct S1, S2. eapply derC_unique; [apply H1; lia|apply H2; lia].
Qed.

Section Mat.
Context (N : nat) (rt : routines) (EX : exact_routines N rt).
Notation A := (MatAlg N rt).

Lemma frechet_is x e : matrix N N x -> matrix N N e -> r_frechet rt x e = (mexp x, mdexp x e).
Proof.
  intros Hx He. destruct (ex_frechet _ _ EX x e Hx He) as (E1 & P & D). destruct Hx as [Sx Px], He as [Se Pe].
  rewrite (surjective_pairing (r_frechet rt x e)), E1. f_equal.
  eapply der_unique; [exact D| |auto|apply mdexp_proper].
  eapply der_ext; [|apply (der_mexp N x e 0); auto]. intros t. cbn beta. do 4 f_equal. ring.
Qed.

(** ** Generators *)
Definition lin (s : settings A) : Prop :=
  match s_phase s with Some (PhOp p) => matrix N N p | _ => True end /\
  match s_phapp s with CustomApp _ => False | _ => True end.
Lemma with_phase_matrix (s : settings A) g : lin s -> matrix N N g -> matrix N N (with_phase s g).
Proof.
  intros [L1 L2] [Sg Pg]. unfold with_phase. destruct (s_phase s) as [[c|p]|]; [| |split; auto].
  - destruct (s_phapp s); [| |tauto]; cbn; split; auto with mat.
  - destruct L1 as [Sp Pp]. destruct (s_phapp s); [| |tauto]; cbn; split; eauto with mat.
Qed.
Lemma mscal_comm r c x y M : sized r c M -> mscal x (mscal y M) = mscal y (mscal x M).
Proof. intros. rewrite !(mscal_scal r c) by auto. f_equal. ring. Qed.
Lemma with_phase_lin (s : settings A) g c z : lin s -> matrix N N g -> matrix N N c ->
  with_phase s (madd g (mscal z c)) = madd (with_phase s g) (mscal z (with_phase s c)).
Proof.
  intros [L1 L2] [Sg Pg] [Sc Pc]. unfold with_phase. destruct (s_phase s) as [[x|p]|]; [| |auto].
  - destruct (s_phapp s); [| |tauto]; cbn; rewrite (mscal_add N N), (mscal_comm N N) by auto with mat; auto.
  - destruct L1 as [Sp Pp]. destruct (s_phapp s); [| |tauto]; cbn.
    + rewrite (mmul_add_r N N N), (mmul_scal_r N N N); auto with mat.
    + rewrite (mmul_add_l N N N), (mmul_scal_l N N N); auto with mat.
Qed.
Lemma phased_matrix (s : settings A) t g : lin s -> matrix N N g -> matrix N N (phased s t g).
Proof. intros L H. destruct (with_phase_matrix s g L H). split; cbn; auto with mat. Qed.

Lemma lincomb_matrix d row (cs : list mat) : matrix N N d -> Forall (matrix N N) cs -> matrix N N (lincomb (A := A) d row cs).
Proof.
  intros Hd Hc. revert d row Hd. induction Hc as [|c cs H Hc IH]; intros d [|u row] Hd; cbn; auto.
  apply IH. destruct Hd, H. split; auto with mat.
Qed.
Lemma lincomb_shift d row (cs : list mat) z c : matrix N N d -> Forall (matrix N N) cs -> matrix N N c ->
  lincomb (A := A) (madd d (mscal z c)) row cs = madd (lincomb (A := A) d row cs) (mscal z c).
Proof.
  intros Hd Hc Hz. revert d row Hd. induction Hc as [|c' cs H Hc IH]; intros d [|u row] Hd; cbn; auto.
  destruct Hd as [Sd Pd], H as [Sc Pc], Hz as [Sz Pz].
  rewrite <- (madd_assoc N N), (madd_comm N N (mscal z c)), (madd_assoc N N) by auto with mat.
  apply IH. split; auto with mat.
Qed.
Lemma lincomb_upd d row (cs : list mat) j x0 x cj : matrix N N d -> Forall (matrix N N) cs ->
  nth_error row j = Some x0 -> nth_error cs j = Some cj ->
  lincomb (A := A) d (upd row j x) cs = madd (lincomb (A := A) d row cs) (mscal (RtoC (x - x0)) cj).
Proof.
  intros Hd Hc. revert d row cs Hd Hc. induction j as [|j IH]; intros d [|u row] [|c cs] Hd Hc; cbn [nth_error]; try discriminate.
  - intros [= ->] [= ->]. cbn [upd lincomb]. inversion Hc as [|? ? H H']; subst.
    pose proof Hd as [Sd Pd]. pose proof H as [Sc Pc]. cbn [oadd oscale MatAlg].
    rewrite <- lincomb_shift; auto.
    + f_equal. apply (mat_ext N N); auto with mat. intros i l Hi Hl.
      rewrite !(madd_ent N N), !(mscal_ent N N) by auto with mat. rewrite RtoC_minus. ring.
    + split; cbn; auto with mat.
  - intros E1 E2. cbn [upd lincomb]. inversion Hc as [|? ? H H']; subst. apply IH; auto.
    destruct Hd, H. split; cbn; auto with mat.
Qed.

(** ** The propagator of a slot as a function of one amplitude *)
Lemma slot_der (s : settings A) t d row (cs : list mat) j x0 cj : lin s -> matrix N N d -> Forall (matrix N N) cs ->
  nth_error row j = Some x0 -> nth_error cs j = Some cj ->
  der N N (fun x => propagator s t (lincomb (A := A) d (upd row j x) cs)) x0
      (mdexp (phased s t (lincomb (A := A) d row cs)) (phased s t cj)).
Proof.
  intros L Hd Hc E1 E2. set (g := lincomb (A := A) d row cs). assert (Hg : matrix N N g) by (apply lincomb_matrix; auto).
  assert (Hj : matrix N N cj) by (eapply Forall_forall; [exact Hc|eapply nth_error_In; eauto]).
  pose proof (phased_matrix s t g L Hg) as [Sg Pg]. pose proof (phased_matrix s t cj L Hj) as [Sj Pj].
  eapply der_ext; [|apply (der_mexp N _ _ x0 Sg Sj)]. intros x. cbn beta. unfold propagator. cbn [oexpm MatAlg].
  rewrite (lincomb_upd _ _ _ _ x0 x cj) by auto. fold g. rewrite with_phase_lin by auto.
  pose proof (with_phase_matrix s g L Hg) as [Sw Pw]. pose proof (with_phase_matrix s cj L Hj) as [Sv Pv].
  rewrite (ex_expm _ _ EX N) by (cbn; auto with mat). unfold phased. cbn [oscale MatAlg]. f_equal.
  rewrite (mscal_add N N), (mscal_comm N N) by auto with mat. auto.
Qed.

(** ** The final operator *)
Lemma evolve_matrix q ps x : Forall (matrix N N) ps -> matrix N q x -> matrix N q (evolve (A := A) ps x).
Proof.
  intros H. revert x. induction H as [|p ps [Sp Pp] H IH]; intros x [Sx Px]; cbn; [split; auto|].
  apply IH. split; eauto with mat.
Qed.
Lemma evolve_der q ps F x D : Forall (matrix N N) ps -> der N q F x D ->
  der N q (fun u => evolve (A := A) ps (F u)) x (evolve (A := A) ps D).
Proof.
  intros H. revert F D. induction H as [|p ps [Sp Pp] H IH]; intros F D HF; cbn; auto.
  apply (IH (fun u => mmul p (F u)) (mmul p D)). apply (der_mul_l N N q); auto.
Qed.
(** ** What holds of the given operators holds of the generators *)
Lemma gens_closed (P : mat -> Prop) (s : settings A) a :
  (forall x y u, P x -> P y -> P (madd x (mscal (RtoC u) y))) ->
  generators_all N rt P s -> Forall P (gens_of s a).
Proof.
  intros Hcl [H1 H2]. unfold gens_of. destruct (eff_drift s) as [dr|]; [|constructor]. destruct (eff_ctrls s) as [c|]; [|constructor].
  specialize (H1 _ eq_refl). specialize (H2 _ eq_refl). unfold generators. set (n := length (s_tau s)). clearbody n.
  assert (D : Forall P (drift_ops (A := A) n dr)).
  { destruct dr as [o|l]; cbn in *; [apply Forall_forall; intros x Hx; apply repeat_spec in Hx; subst; auto|].
    apply Forall_forall. intros x Hx. rewrite Forall_forall in H1. apply H1. rewrite <- (firstn_skipn n l). apply in_or_app; auto. }
  assert (K : Forall (Forall P) (ctrl_ops (A := A) n c)).
  { destruct c as [l|rows]; cbn in *; [apply Forall_forall; intros x Hx; apply repeat_spec in Hx; subst; auto|].
    apply Forall_forall. intros x Hx. rewrite Forall_forall in H2. apply H2. rewrite <- (firstn_skipn n rows). apply in_or_app; auto. }
  clear H1 H2. revert a K D. generalize (drift_ops (A := A) n dr), (ctrl_ops (A := A) n c). clear dr c n.
  assert (Q : forall row (cs : list mat) d, P d -> Forall P cs -> P (lincomb (A := A) d row cs)).
  { induction row as [|u row IH]; intros [|c cs] d Hd Hc; cbn; auto. inversion Hc; subst. apply IH; auto. }
  induction l as [|d l IH]; intros [|cs L] [|row a] K D; cbn; auto. inversion K; subst. inversion D; subst. constructor; auto. 
Qed.
Lemma matrix_closed x y u : matrix N N x -> matrix N N y -> matrix N N (madd x (mscal (RtoC u) y)).
Proof. intros [] []. split; auto with mat. Qed.
Lemma ctrl_at P (s : settings A) n k j c cs cj : generators_all N rt P s -> eff_ctrls s = Some c ->
  nth_error (ctrl_ops (A := A) n c) k = Some cs -> nth_error cs j = Some cj -> Forall P cs /\ P cj.
Proof.
  intros [_ H] Hc E1 E2. specialize (H _ Hc). assert (F : Forall P cs).
  { destruct c as [l|rows]; cbn in *.
    - apply nth_error_In, repeat_spec in E1. subst. auto.
    - apply nth_error_In in E1. rewrite Forall_forall in H. apply H. rewrite <- (firstn_skipn n rows). apply in_or_app; auto. }
  split; auto. rewrite Forall_forall in F. eapply F, nth_error_In; eauto.
Qed.

Section Problem.
Context (q : nat) (s : settings A) (n m : nat).
Hypothesis SP : sized_problem N rt q s.
Hypothesis W : well_posed s n m.
Hypothesis HD : diag_suits N rt s.

Lemma is_lin : lin s. Proof. destruct SP; split; auto. Qed.
Lemma gen_matrix a k g : nth_error (gens_of s a) k = Some g -> matrix N N g.
Proof.
  intros E. pose proof (gens_closed (matrix N N) s a matrix_closed (sp_gens _ _ _ _ SP)) as F.
  rewrite Forall_forall in F. eapply F, nth_error_In; eauto.
Qed.
Lemma herm_closed x y u : matrix N N x /\ hermitian x -> matrix N N y /\ hermitian y ->
  matrix N N (madd x (mscal (RtoC u) y)) /\ hermitian (madd x (mscal (RtoC u) y)).
Proof.
  intros [[Sx Px] Hx] [[Sy Py] Hy]. split; [split; auto with mat|]. unfold hermitian in *.
  rewrite (mdag_add N N), (mdag_scal N N), Hx, Hy, Cconj_R by auto with mat. auto.
Qed.
Lemma generators_and P Q : generators_all N rt P s -> generators_all N rt Q s -> generators_all N rt (fun x => P x /\ Q x) s.
Proof.
  intros [H1 H2] [H3 H4]. split.
  - intros d E. specialize (H1 d E). specialize (H3 d E). destruct d; cbn in *; auto. rewrite Forall_forall in *. auto.
  - intros c E. specialize (H2 c E). specialize (H4 c E). destruct c; cbn in *; rewrite Forall_forall in *; auto.
    intros x Hx. specialize (H2 x Hx). specialize (H4 x Hx). rewrite Forall_forall in *. auto.
Qed.
Lemma gen_herm a k g : hamiltonian_problem N rt s -> nth_error (gens_of s a) k = Some g -> hermitian g.
Proof.
  intros [H _] E.
  pose proof (gens_closed _ s a herm_closed (generators_and _ _ (sp_gens _ _ _ _ SP) H)) as F.
  rewrite Forall_forall in F. eapply F, nth_error_In; eauto.
Qed.

(** The generator of a slot of a Hamiltonian problem, diagonalised. *)
Lemma phased_spectral t g : hamiltonian_problem N rt s -> exact_eigh N rt -> matrix N N g -> hermitian g ->
  let '(lam, V) := r_eigh rt g in
  unitary N V /\ phased s t g = spectral N V (fun i => (0, - (lam i * t))%R).
Proof.
  intros [_ HP] EH Hm Hh. destruct (EH g Hm Hh) as [U E]. destruct (r_eigh rt g) as [lam V]. cbn [fst snd] in *. split; auto.
  pose proof U as (SV & PV & _). unfold phased, with_phase. rewrite HP.
  transitivity (mscal (RtoC t) (mscal (- Ci)%C g)).
  { destruct is_lin as [_ L]. destruct (s_phapp s); [auto|auto|tauto]. }
  destruct Hm as [Sg Pg]. rewrite (mscal_scal N N) by auto. rewrite E at 1. fold (spectral N V (fun i => RtoC (lam i))).
  assert (SS : forall f, sized N N (spectral N V f)) by (intros; apply spectral_sized; auto).
  assert (PS : forall f, proper (spectral N V f)) by (intros; unfold spectral; auto with mat).
  apply (mat_ext N N); auto with mat.
  - intros i j Hi Hj. rewrite (mscal_ent N N) by (auto using spectral_sized). rewrite !spectral_ent by auto.
    rewrite <- csum_scal_l. apply csum_ext. intros k Hk.
    replace ((0, - (lam k * t))%R : C) with (RtoC t * - Ci * RtoC (lam k))%C; [ring|].
    apply C_eq; unfold Ci; cbn; ring.
Qed.
Lemma eig_is lam t i : cexpS (0, - (lam i * t))%R = eigphase lam t i.
Proof. rewrite cexpS_imag, cos_neg, sin_neg. reflexivity. Qed.
Lemma prop_is t g : matrix N N g -> propagator s t g = mexp (phased s t g).
Proof.
  intros H. unfold propagator. cbn [oexpm MatAlg]. pose proof (phased_matrix s t g is_lin H) as [S P].
  rewrite (ex_expm _ _ EX N); auto.
Qed.

Lemma mat_routines : routines_ok s n m.
Proof.
  split; [|split].
  - intros _ a k j t g cj (Ha & Et & Eg & c & cs & Ec & Ecs & Ecj).
    pose proof (gen_matrix a k g Eg) as Hg. destruct (ctrl_at _ s n k j c cs cj (sp_gens _ _ _ _ SP) Ec Ecs Ecj) as [_ Hc].
    unfold frechet_expm. cbn [ofrechet MatAlg]. rewrite frechet_is by (apply phased_matrix; auto using is_lin).
    cbn [fst]. symmetry. apply prop_is; auto.
  - intros _ a k j t g cj (Ha & Et & Eg & c & cs & Ec & Ecs & Ecj).
    pose proof (gen_matrix a k g Eg) as Hg. destruct (ctrl_at _ s n k j c cs cj (sp_gens _ _ _ _ SP) Ec Ecs Ecj) as [_ Hc].
    unfold aug_expm. cbn [oblk00 oexpm oaug MatAlg]. rewrite (ex_expm _ _ EX (N + N)) by apply aug_sized.
    pose proof (phased_matrix s t g is_lin Hg) as [S1 P1]. pose proof (phased_matrix s t cj is_lin Hc) as [S2 P2].
    rewrite mexp_aug00 by auto. symmetry. apply prop_is; auto.
  - intros Ed a k t g Ha Et Eg. destruct (HD Ed) as [HH EH]. pose proof (gen_matrix a k g Eg) as Hg.
    pose proof (gen_herm a k g HH Eg) as Hh. pose proof (phased_spectral t g HH EH Hg Hh) as Q.
    unfold diag_expm. cbn [oeigh MatAlg]. rewrite (prop_is t g Hg). destruct (r_eigh rt g) as [lam V]. destruct Q as [U ->].
    rewrite mexp_spectral by auto. cbn [omul odiag odag MatAlg]. unfold spectral. f_equal. f_equal. apply tab_ext. intros i j _ _.
    rewrite eig_is. auto.
Qed.

(** The divided differences. *)
Lemma divdiff_exact prec lam t i j : (0 < prec)%R -> separated N prec t lam -> i < N -> j < N ->
  divdiff prec lam t i j = ddexp (0, - (lam i * t))%R (0, - (lam j * t))%R.
Proof.
  intros Hp Hs Hi Hj. unfold divdiff. destruct (Hs i j Hi Hj) as [E|G].
  - rewrite E. rewrite Rminus_diag_eq, Rabs_R0 by auto. destruct Rlt_dec; [|lra]. rewrite ddexp_diag, <- eig_is. auto.
  - destruct Rlt_dec; [lra|]. rewrite ddexp_neq.
    + rewrite !eig_is. set (a := eigphase lam t i). set (b := eigphase lam t j).
      assert (D : (lam j * t - lam i * t)%R <> 0%R) by (intros E; rewrite E, Rabs_R0 in G; lra).
      assert (D1 : ((0, - (lam j * t - lam i * t))%R : C) <> RtoC 0) by (intros [= E]; lra).
      assert (D2 : (Cminus (0, - (lam i * t)) (0, - (lam j * t)) = Copp (0, - (lam j * t - lam i * t)))%R) by (apply C_eq; cbn; ring).
      rewrite D2. clear D2. generalize dependent ((0, - (lam j * t - lam i * t))%R : C). intros z D1. field. split; auto. intros E. apply D1. replace z with (- - z)%C by ring. rewrite E. ring.
    + intros [= E]. apply n0. replace (lam j * t - lam i * t)%R with 0%R by lra. rewrite Rabs_R0. lra.
Qed.
Lemma mat_grad_routines a : s_prop s <> Approx -> diag_exact_at N rt s a -> grad_routines_at (A := A) mdexp s n m a.
Proof.
  intros HA HS k j t g cj (Ha & Et & Eg & c & cs & Ec & Ecs & Ecj).
  pose proof (gen_matrix a k g Eg) as Hg. destruct (ctrl_at _ s n k j c cs cj (sp_gens _ _ _ _ SP) Ec Ecs Ecj) as [_ Hc].
  pose proof (phased_matrix s t g is_lin Hg) as [S1 P1]. pose proof (phased_matrix s t cj is_lin Hc) as [S2 P2].
  split; [|split]; intros E.
  - unfold frechet_dexp. cbn [ofrechet MatAlg]. rewrite frechet_is by (split; auto). reflexivity.
  - unfold aug_dexp. cbn [oblk01 oexpm oaug MatAlg]. rewrite (ex_expm _ _ EX (N + N)) by apply aug_sized.
    rewrite mexp_aug01 by auto. reflexivity.
  - destruct (HD E) as [HH EH]. destruct (HS E) as [Hp Hsep]. specialize (Hsep k t g Et Eg).
    pose proof (phased_spectral t g HH EH Hg (gen_herm a k g HH Eg)) as Q. unfold diag_dexp. cbn [oeigh MatAlg].
    change (dprop (A := A) mdexp s t g cj) with (mdexp (phased s t g) (phased s t cj)).
    destruct (r_eigh rt g) as [lam V]. cbn [fst] in Hsep. destruct Q as [U ->]. rewrite mdexp_spectral by auto.
    cbn [omul odag ohad oscale MatAlg]. f_equal. f_equal. unfold inbasis, phased. cbn [oscale MatAlg].
    pose proof U as (SV & PV & _). pose proof (with_phase_matrix s cj is_lin Hc) as [S3 P3].
    rewrite (mmul_scal_r N N N), (mmul_scal_l N N N) by eauto with mat.
    apply (mat_ext N N); auto with mat; try (apply mhad_sized; eauto with mat). intros i l Hi Hl.
    rewrite !(mhad_ent N N) by eauto with mat. rewrite divdiff_exact by auto. auto.
Qed.
End Problem.
End Mat.
