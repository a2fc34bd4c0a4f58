(** Fidelities, distances and unitarity for matrix systems. *)
From Coq Require Import Reals Lra.
From Coquelicot Require Import Coquelicot.
From RecordUpdate Require Import RecordUpdate.
From Verif.Model Require Import Base Dyn.
From Verif.Lib Require Import Lists Csum Mat MExp MCalc MDiag.
From Verif.Spec Require Import Evolution History MatAlg.
From Verif.Proofs Require Import DynInv DynRun DynHist DynHistory DynProps DynMore MatFacts MatGrad.
Local Open Scope nat_scope.
Set Bullet Behavior "Strict Subproofs".

Lemma csum_R n (f : nat -> R) : csum n (fun k => RtoC (f k)) = RtoC (rsum n f).
Proof. induction n; cbn; auto. rewrite IHn, RtoC_plus. auto. Qed.
Lemma rsum_minus n f g : rsum n (fun k => f k - g k)%R = (rsum n f - rsum n g)%R.
Proof. induction n; cbn; [lra|]. rewrite IHn. lra. Qed.

Lemma inner r c X Y : sized r c X -> sized r c Y ->
  mtr (mmul (mdag X) Y) = csum r (fun i => csum c (fun j => (Cconj (ent X i j) * ent Y i j)%C)).
Proof.
  intros SX SY. assert (S1 : sized c c (mmul (mdag X) Y)) by eauto with mat.
  unfold mtr. rewrite (proj1 S1), csum_swap. apply csum_ext. intros i Hi.
  rewrite (mmul_ent c r c) by auto with mat. apply csum_ext. intros k Hk. rewrite (mdag_ent r c) by auto. auto.
Qed.
Lemma frob r c X : sized r c X -> mtr (mmul (mdag X) X) = RtoC (sum_squares r c X).
Proof.
  intros SX. rewrite (inner r c) by auto. unfold sum_squares. rewrite <- csum_R. apply csum_ext. intros i Hi.
  rewrite <- csum_R. apply csum_ext. intros j Hj. rewrite conj_mul_self. f_equal. ring.
Qed.
Lemma sum_squares_pos r c X : (0 <= sum_squares r c X)%R.
Proof. apply rsum_pos. intros. apply rsum_pos. intros. apply pow2_ge_0. Qed.
Lemma sum_squares_zero r c X : sum_squares r c X = 0%R -> forall i j, i < r -> j < c -> ent X i j = RtoC 0.
Proof.
  intros H i j Hi Hj. unfold sum_squares in H.
  assert (H1 := rsum_null r _ (fun k _ => rsum_pos c _ (fun l _ => pow2_ge_0 _)) H i Hi). cbn beta in H1.
  assert (H2 := rsum_null c _ (fun l _ => pow2_ge_0 _) H1 j Hj). cbn beta in H2.
  apply Cmod_eq_0. apply Rsqr_0_uniq. unfold Rsqr. lra.
Qed.
Lemma sum_squares_diff r c X Y : matrix r c X -> matrix r c Y -> (sum_squares r c (msub X Y) = 0%R <-> X = Y).
Proof.
  intros [SX PX] [SY PY]. split.
  - intros H. apply (mat_ext r c); auto. intros i j Hi Hj. pose proof (sum_squares_zero _ _ _ H i j Hi Hj) as E.
    rewrite (msub_ent r c) in E by auto. replace (ent X i j) with (ent Y i j + (ent X i j - ent Y i j))%C by ring. rewrite E. ring.
  - intros <-. apply rsum_zero. intros i Hi. apply rsum_zero. intros j Hj. rewrite (msub_ent r c) by auto.
    replace (ent X i j - ent X i j)%C with (RtoC 0) by ring. rewrite Cmod_0. ring.
Qed.

Lemma expand_diff r c F T z : sized r c F -> sized r c T ->
  sum_squares r c (msub F (mscal z T)) =
  (sum_squares r c F + Cmod z ^ 2 * sum_squares r c T - 2 * Re (Cconj z * mtr (mmul (mdag T) F))%C)%R.
Proof.
  intros SF ST. rewrite (inner r c) by auto.
  assert (E : Re (Cconj z * csum r (fun i => csum c (fun j => (Cconj (ent T i j) * ent F i j)%C)))%C =
              rsum r (fun i => rsum c (fun j => Re (Cconj z * (Cconj (ent T i j) * ent F i j))%C))).
  { rewrite <- csum_scal_l, csum_Re. apply rsum_ext. intros i Hi. rewrite <- csum_scal_l, csum_Re. auto. }
  rewrite E. unfold sum_squares. rewrite <- !rsum_scal_l, <- rsum_plus, <- rsum_minus. apply rsum_ext. intros i Hi.
  rewrite <- !rsum_scal_l, <- rsum_plus, <- rsum_minus. apply rsum_ext. intros j Hj.
  rewrite (msub_ent r c), (mscal_ent r c) by auto with mat.
  assert (Q : forall a, (Cmod a ^ 2 = Re a * Re a + Im a * Im a)%R).
  { intros a. transitivity (Cmod a * Cmod a)%R; [ring|]. rewrite Cmod_sqr. cbn. unfold Re, Im. ring. }
  rewrite !Q. destruct (ent F i j) as [f1 f2], (ent T i j) as [t1 t2], z as [z1 z2]. cbn. ring.
Qed.

Lemma iso_squares N q X : isometry N q X -> sum_squares N q X = INR q.
Proof.
  intros [[S P] H]. pose proof (frob N q X S) as E. rewrite H, mtr_id in E. apply (f_equal Re) in E. cbn in E. auto.
Qed.
Lemma iso_mul N q U X : unitary N U -> isometry N q X -> isometry N q (mmul U X).
Proof.
  intros (S & P & H1 & H2) [[SX PX] H]. split; [split; eauto with mat|].
  rewrite (mdag_mul N N q), mmul_assoc, <- (mmul_assoc (mdag X)), H1 by auto. rewrite <- mmul_assoc, (mmul_1_l N q); auto.
Qed.

Section Overlap.
Context (N q : nat) (T F : mat) (HT : isometry N q T) (HF : isometry N q F).
Notation w := (mtr (mmul (mdag T) F)).
Lemma expand_unit z : Cmod z = 1%R -> sum_squares N q (msub F (mscal z T)) = (2 * INR q - 2 * Re (Cconj z * w)%C)%R.
Proof.
  intros Hz. rewrite expand_diff, (iso_squares N q F), (iso_squares N q T), Hz; auto; try (apply HT || apply HF). ring.
Qed.
Lemma overlap_re : (Re w <= INR q /\ - INR q <= Re w)%R.
Proof.
  pose proof (expand_unit (RtoC 1) ltac:(rewrite Cmod_1; auto)) as E1.
  pose proof (expand_unit (RtoC (-1)) ltac:(rewrite Cmod_R, Rabs_left; lra)) as E2.
  pose proof (sum_squares_pos N q (msub F (mscal (RtoC 1) T))). pose proof (sum_squares_pos N q (msub F (mscal (RtoC (-1)) T))).
  assert (R1 : Re (Cconj (RtoC 1) * w)%C = Re w) by (destruct w; cbn; ring).
  assert (R2 : Re (Cconj (RtoC (-1)) * w)%C = (- Re w)%R) by (destruct w; cbn; ring).
  rewrite R1 in E1. rewrite R2 in E2. lra.
Qed.
Lemma overlap_mod : (Cmod w <= INR q)%R.
Proof.
  destruct (Req_dec (Cmod w) 0) as [E|E]; [rewrite E; apply pos_INR|].
  set (z := (w / RtoC (Cmod w))%C).
  assert (Hz : Cmod z = 1%R).
  { unfold z. rewrite Cmod_div by (intros Q; apply E; apply (f_equal Cmod) in Q; rewrite Cmod_R, Cmod_0, Rabs_pos_eq in Q; auto using Cmod_ge_0).
    rewrite Cmod_R, Rabs_pos_eq by apply Cmod_ge_0. field. auto. }
  pose proof (expand_unit z Hz) as Q. pose proof (sum_squares_pos N q (msub F (mscal z T))).
  assert (Re (Cconj z * w)%C = Cmod w).
  { transitivity (Cmod w * Cmod w / Cmod w)%R; [|field; auto]. rewrite Cmod_sqr. unfold z. destruct w as [a b]. cbn in *. field. auto. }
  lra.
Qed.
Lemma overlap_re_one : Re w = INR q <-> F = T.
Proof.
  pose proof (expand_unit (RtoC 1) ltac:(rewrite Cmod_1; auto)) as E1.
  assert (R1 : Re (Cconj (RtoC 1) * w)%C = Re w) by (destruct w; cbn; ring). rewrite R1 in E1.
  destruct HT as [[ST PT] _], HF as [MF _]. rewrite (mscal_1 N q) in E1 by auto.
  rewrite <- (sum_squares_diff N q F T) by (auto; split; auto). rewrite E1. split; lra.
Qed.
Lemma overlap_mod_one : 0 < q -> (Cmod w = INR q <-> exists z, Cmod z = 1%R /\ F = mscal z T).
Proof.
  intros Hq. pose proof (lt_0_INR q Hq) as Hq'. destruct HT as [[ST PT] _], HF as [MF _]. split.
  - intros E. assert (En : Cmod w <> 0%R) by lra. exists (w / RtoC (Cmod w))%C. set (z := (w / RtoC (Cmod w))%C).
    assert (Hz : Cmod z = 1%R).
    { unfold z. rewrite Cmod_div by (intros Q; apply En; apply (f_equal Cmod) in Q; rewrite Cmod_R, Cmod_0, Rabs_pos_eq in Q; auto using Cmod_ge_0).
      rewrite Cmod_R, Rabs_pos_eq by apply Cmod_ge_0. field. auto. }
    split; auto. apply (sum_squares_diff N q); [auto|split; auto with mat|]. rewrite (expand_unit z Hz).
    assert (Re (Cconj z * w)%C = Cmod w).
    { transitivity (Cmod w * Cmod w / Cmod w)%R; [|field; auto]. rewrite Cmod_sqr. unfold z. destruct w as [a b]. cbn in *. field. auto. }
    lra.
  - intros (z & Hz & E). pose proof (expand_unit z Hz) as Q.
    assert (Q0 : sum_squares N q (msub F (mscal z T)) = 0%R) by (apply sum_squares_diff; auto; split; auto with mat).
    pose proof overlap_mod. assert (Q1 : (Rabs (Re (Cconj z * w)%C) <= Cmod w)%R) by (eapply Rle_trans; [apply Re_le_Cmod|]; rewrite Cmod_mult, Cmod_conj, Hz; lra).
    pose proof (Rle_abs (Re (Cconj z * w)%C)). lra.
Qed.
End Overlap.

(** *** The rounding threshold of the diagonalising computer *)
Lemma mvt (f df : R -> R) x y : (forall u, is_derive f u (df u)) ->
  exists c, (Rabs (c - y) <= Rabs (y - x))%R /\ (f y - f x = df c * (y - x))%R.
Proof.
  intros H. destruct (MVT_gen f x y df) as (c & Hc & E).
  - auto.
  - intros u _. apply continuity_pt_filterlim. apply (ex_derive_continuous (K := R_AbsRing) (V := R_NormedModule)). exists (df u). auto.
  - exists c. split; auto. unfold Rmin, Rmax in Hc. destruct (Rle_dec x y).
    + rewrite (Rabs_pos_eq (y - x)%R), Rabs_left1; lra.
    + rewrite (Rabs_left (y - x)%R), Rabs_pos_eq; lra.
Qed.
Lemma lip (f df : R -> R) x y : (forall u, is_derive f u (df u)) -> (forall u, Rabs (df u) <= 1)%R -> (Rabs (f y - f x) <= Rabs (y - x))%R.
Proof.
  intros H B. destruct (mvt f df x y H) as (c & _ & ->). rewrite Rabs_mult. pose proof (B c). pose proof (Rabs_pos (y - x)). nra.
Qed.
Lemma abs_sin u : (Rabs (sin u) <= 1)%R. Proof. apply Rabs_le, SIN_bound. Qed.
Lemma abs_cos u : (Rabs (cos u) <= 1)%R. Proof. apply Rabs_le, COS_bound. Qed.
Lemma dcos u : is_derive cos u (- sin u)%R. Proof. apply is_derive_Reals, derivable_pt_lim_cos. Qed.
Lemma dsin u : is_derive sin u (cos u)%R. Proof. apply is_derive_Reals, derivable_pt_lim_sin. Qed.
Lemma dopp f df u : is_derive f u df -> is_derive (fun v => - f v)%R u (- df)%R.
Proof. apply (is_derive_opp (K := R_AbsRing) (V := R_NormedModule)). Qed.
Lemma mod_parts z b : (Rabs (Re z) <= b -> Rabs (Im z) <= b -> Cmod z <= 2 * b)%R.
Proof.
  intros H1 H2. assert (E : (Cmod z * Cmod z = Re z * Re z + Im z * Im z)%R) by (rewrite Cmod_sqr; cbn; unfold Re, Im; ring).
  pose proof (Cmod_ge_0 z). pose proof (Rabs_pos (Re z)). assert (Re z * Re z = Rabs (Re z) * Rabs (Re z))%R by (rewrite <- Rabs_mult; symmetry; apply Rabs_pos_eq; nra).
  pose proof (Rabs_pos (Im z)). assert (Im z * Im z = Rabs (Im z) * Rabs (Im z))%R by (rewrite <- Rabs_mult; symmetry; apply Rabs_pos_eq; nra).
  apply Rsqr_incr_0; unfold Rsqr; nra.
Qed.
Lemma dd_close x y : (Cmod ((cos y, - sin y)%R - ddexp (0, - x)%R (0, - y)%R)%C <= 2 * Rabs (y - x))%R.
Proof.
  destruct (Req_dec y x) as [->|Hn].
  - rewrite ddexp_diag, cexpS_imag, cos_neg, sin_neg. replace (Cminus _ _) with (RtoC 0) by ring. rewrite Cmod_0.
    pose proof (Rabs_pos (x - x)). lra.
  - assert (D : (y - x <> 0)%R) by lra. rewrite ddexp_neq by (intros [= E]; lra). rewrite !cexpS_imag, !cos_neg, !sin_neg.
    destruct (mvt sin cos x y dsin) as (u & Hu & Eu). destruct (mvt cos (fun v => - sin v)%R x y dcos) as (v & Hv & Ev).
    replace ((cos x, - sin x)%R - (cos y, - sin y)%R)%C with (((0, - x)%R - (0, - y)%R) * (cos u, - sin v)%R)%C.
    2:{ apply C_eq; cbn; [|lra]. replace (cos x) with (cos y - - sin v * (y - x))%R by lra. ring. }
    set (z := ((0, - x)%R - (0, - y)%R)%C). assert (Hz : z <> RtoC 0) by (intros [= E]; lra).
    set (w := (cos u, - sin v)%R : C). replace (z * w / z)%C with w by (field; auto). unfold w.
    apply mod_parts; cbn.
    + replace (cos y + - cos u)%R with (cos y - cos u)%R by ring. eapply Rle_trans; [apply (lip cos (fun v => - sin v)%R); auto using dcos|].
      { intros ?. rewrite Rabs_Ropp. apply abs_sin. } rewrite Rabs_minus_sym. auto.
    + replace (- sin y + - - sin v)%R with (sin v - sin y)%R by ring. eapply Rle_trans; [apply (lip sin cos); auto using dsin, abs_cos|]. auto.
Qed.

Lemma Cmod_Ci : Cmod Ci = 1%R.
Proof. unfold Cmod, Ci. cbn [fst snd]. replace (0 ^ 2 + 1 ^ 2)%R with 1%R by ring. apply sqrt_1. Qed.

Section Sys.
Context (N : nat) (rt : routines) (EX : exact_routines N rt).
Notation A := (MatAlg N rt).
Context (q : nat) (s : settings A) (n m : nat).
Hypothesis SP : sized_problem N rt q s.
Hypothesis W : well_posed s n m.
Hypothesis HD : diag_suits N rt s.
Notation RO := (mat_routines N rt EX q s n m SP HD).

Lemma ham_prop t g : hamiltonian_problem N rt s -> matrix N N g ->
  propagator s t g = mexp (mscal (RtoC t * - Ci)%C g).
Proof.
  intros [_ HP] Hg. rewrite (prop_is N rt EX q s SP t g Hg). unfold phased, with_phase. rewrite HP. cbn [oscale MatAlg].
  pose proof (sp_phapp _ _ _ _ SP) as L. destruct Hg as [Sg Pg].
  destruct (s_phapp s); [| |tauto]; rewrite (mscal_scal N N); auto.
Qed.
Lemma ham_unitary t g : matrix N N g -> hermitian g -> unitary N (mexp (mscal (RtoC t * - Ci)%C g)).
Proof.
  intros [Sg Pg] Hg. apply mexp_unitary; auto with mat. rewrite (mdag_scal N N), Hg, (mscal_scal N N) by auto. f_equal.
  apply C_eq; cbn; ring.
Qed.
Lemma grad_shape dP a g : shape n m a -> grad_is (A := A) dP s a g -> shape n m g.
Proof.
  intros Ha [L H]. assert (Lg : length g = n) by (destruct Ha; congruence). split; auto. apply Forall_forall. intros row Hr.
  apply In_nth_error in Hr as (k & Ek). assert (Hk : k < n) by (rewrite <- Lg; apply nth_lt in Ek; auto).
  destruct (mslot N rt EX q s n m SP W HD a k Ha Hk) as (dr & c & d0 & row' & cs & t & gg & _ & Ec & _ & _ & Ecs & Et & _ & Lc & _ & Eg & _).
  assert (D : forall j, dslot (A := A) dP s a k j = match nth_error cs j with Some cj => Some (dP t gg cj) | None => None end).
  { intros j. unfold dslot. rewrite Ec, Et, Eg, (wp_tau _ _ _ W), Ecs. auto. }
  assert (Q : forall j, nth_error row j = None <-> nth_error cs j = None).
  { intros j. specialize (H k j). rewrite Ek in H. rewrite H. unfold grad_entry_of, doverlap, dfinal. rewrite D.
    destruct (nth_error cs j); [|destruct (s_fid s); tauto].
    destruct (s_fid s); [split; discriminate|]. destruct (product (A := A) (skipn (S k) (props_of s a))); split; discriminate. }
  pose proof (Q (length row)) as Q1. pose proof (Q m) as Q2. rewrite !nth_error_None in Q1, Q2. lia.
Qed.
Lemma props_unitary a : shape n m a -> hamiltonian_problem N rt s -> Forall (unitary N) (props_of s a).
Proof.
  intros Ha HH.
    apply Forall_forall. intros p Hp. apply In_nth_error in Hp as (k & E). destruct (mlens N rt EX q s n m SP W HD a Ha) as [L _].
    assert (Hk : k < n) by (rewrite <- L; apply nth_lt in E; auto).
    destruct (mslot N rt EX q s n m SP W HD a k Ha Hk) as (dr & c & d0 & row & cs & t & g & _ & _ & _ & _ & _ & _ & _ & _ & _ & Eg & Ep).
    pose proof (eq_trans (eq_sym E) Ep) as Q. injection Q as ->. pose proof (gen_matrix N rt q s SP a k g Eg) as Hg.
    refine (eq_ind_r (unitary N) _ (ham_prop t g HH Hg)). apply ham_unitary; auto. eapply gen_herm; eauto.
Qed.
Lemma final_iso a : shape n m a -> hamiltonian_problem N rt s -> isometry N q (s_initial s) -> isometry N q (final_of s a).
Proof.
  intros Ha HH. unfold final_of. pose proof (props_unitary a Ha HH) as F. generalize (s_initial s). induction F as [|p ps U F IH]; intros x Hx; cbn; auto.
  apply IH. apply (iso_mul N q p x); auto.
Qed.

(** *** Propagator gradients *)
Lemma slot_matrices a k j t h cj : slot_at s n m a k j t h cj -> matrix N N h /\ matrix N N cj.
Proof.
  intros (Ha & Et & Eg & c & cs & Ec & Ecs & Ecj). split; [eapply gen_matrix; eauto|].
  destruct (ctrl_at N rt _ s n k j c cs cj (sp_gens _ _ _ _ SP) Ec Ecs Ecj) as [_ H]. auto.
Qed.
Lemma ham_phased t g : hamiltonian_problem N rt s -> matrix N N g -> phased s t g = mscal (RtoC t * - Ci)%C g.
Proof.
  intros [_ HP] Hg. unfold phased, with_phase. rewrite HP. cbn [oscale MatAlg].
  pose proof (sp_phapp _ _ _ _ SP) as L. destruct Hg as [Sg Pg].
  destruct (s_phapp s); [| |tauto]; rewrite (mscal_scal N N); auto.
Qed.
Lemma ham_der t h cj : hamiltonian_problem N rt s -> matrix N N h -> matrix N N cj ->
  der N N (fun u => mexp (mscal (RtoC t * - Ci)%C (madd h (mscal (RtoC u) cj)))) 0%R (mdexp (phased s t h) (phased s t cj)).
Proof.
  intros HH [Sh Ph] [Sc Pc]. rewrite !ham_phased by (auto; split; auto).
  pose proof (mexp_derive N (mscal (RtoC t * - Ci)%C h) (mscal (RtoC t * - Ci)%C cj) 0%R) as D.
  split; [intros; apply mexp_sized; auto with mat|]. split; [apply mdexp_sized; auto with mat|].
  intros i j Hi Hj. specialize (D ltac:(auto with mat) ltac:(auto with mat) i j Hi Hj).
  eapply derC_ext; [|exact D]. intros u. cbn beta. rewrite Rminus_0_r, (mscal_add N N), !(mscal_scal N N) by auto with mat.
  do 4 f_equal. ring.
Qed.
Lemma diag_grads st a ops : s_prop s = Diag -> s_cache_pg s = true -> shape n m a -> Forall (call_ok s n m) ops ->
  exists d d1 b pg, session s st a ops = Ok d /\ compute_evolution d = Ok (d1, b) /\ snd (get_prop_grads d1) = Some pg /\
    forall k j t h cj, slot_at s n m (latest a ops) k j t h cj -> exists row,
      nth_error pg k = Some row /\ nth_error row j = Some (Some (xgrad s t h cj)).
Proof.
  intros HDg HPg Ha F. destruct (session_ok s n m W RO st a ops Ha F) as (d & E & G & _).
  destruct (good_evo s n m W RO _ _ G) as (d1 & b & E1 & G1 & C1 & _).
  assert (Hm : 0 < m) by (apply (wp_m _ _ _ W); auto).
  assert (He : grad_exact (s_prop s) && s_cache_pg s = true) by (rewrite HDg, HPg; auto).
  destruct (good_pg s n m W RO _ d1 0 0 He G1 C1 (wp_pos _ _ _ W) Hm) as (pg & _ & _ & Epg & _).
  exists d, d1, b, pg. splits; auto. intros k j t h cj (Hs & Et & Eg & c & cs & Ec & Ecs & Ecj).
  assert (Hk : k < n) by (rewrite <- (wp_tau _ _ _ W); apply nth_lt in Et; auto).
  destruct (mslot N rt EX q s n m SP W HD _ k Hs Hk) as (dr & c' & d0 & row' & cs' & t' & gg & _ & Ec' & _ & _ & Ecs' & _ & _ & Lc & _).
  rewrite Ec in Ec'. injection Ec' as <-. rewrite Ecs in Ecs'. injection Ecs' as <-.
  assert (Hj : j < m) by (rewrite <- Lc; apply nth_lt in Ecj; auto).
  destruct (good_pg s n m W RO _ d1 k j He G1 C1 Hk Hj) as (pg' & row & g & Epg' & Er & Ej & Eds).
  rewrite Epg in Epg'. injection Epg' as <-. exists row. split; auto. rewrite Ej. f_equal. rewrite <- Eds.
  unfold dslot. rewrite Ec, Et, Eg, (wp_tau _ _ _ W), Ecs, Ecj. auto.
Qed.
Lemma diag_grad_der a k j t h cj : s_prop s = Diag -> diag_exact_at N rt s a -> slot_at s n m a k j t h cj ->
  der N N (fun u => mexp (mscal (RtoC t * - Ci)%C (madd h (mscal (RtoC u) cj)))) 0%R (xgrad s t h cj).
Proof.
  intros HDg HE HS. destruct (slot_matrices a k j t h cj HS) as [Mh Mc]. destruct (HD HDg) as [HH EH].
  destruct (mat_grad_routines N rt EX q s n m SP HD a ltac:(rewrite HDg; discriminate) HE k j t h cj HS) as (_ & _ & D). specialize (D HDg).
  assert (E : xgrad s t h cj = mdexp (phased s t h) (phased s t cj)).
  { unfold xgrad. rewrite HDg. unfold diag_dexp in D. destruct (oeigh A h). exact D. }
  rewrite E. apply ham_der; auto.
Qed.

Lemma rounded_close prec lam t i l : (0 < prec)%R ->
  (Cmod (divdiff prec lam t i l - ddexp (0, - (lam i * t))%R (0, - (lam l * t))%R)%C <= 2 * prec)%R.
Proof.
  intros Hp.
  unfold divdiff. destruct Rlt_dec as [L|L].
  - pose proof (dd_close (lam i * t) (lam l * t)). unfold eigphase. lra.
  - replace (Cminus _ _) with (RtoC 0); [rewrite Cmod_0; lra|].
    rewrite ddexp_neq, !cexpS_imag, !cos_neg, !sin_neg.
    + unfold eigphase. assert (D : (lam l * t - lam i * t <> 0)%R) by (intros E; rewrite E, Rabs_R0 in L; lra).
      set (u := (cos (lam i * t), - sin (lam i * t))%R : C). set (v := (cos (lam l * t), - sin (lam l * t))%R : C).
      assert (D1 : ((0, - (lam l * t - lam i * t))%R : C) <> RtoC 0) by (intros [= E]; lra).
      assert (D2 : (Cminus (0, - (lam i * t)) (0, - (lam l * t)) = Copp (0, - (lam l * t - lam i * t)))%R) by (apply C_eq; cbn; ring).
      rewrite D2. clear D2. generalize dependent ((0, - (lam l * t - lam i * t))%R : C). intros z D1. field. split; auto. intros E. apply D1. replace z with (- - z)%C by ring. rewrite E. ring.
    + intros [= E]. apply L. replace (lam l * t - lam i * t)%R with 0%R by lra. rewrite Rabs_R0. lra.
Qed.
Lemma diag_error t g cj i l : s_prop s = Diag -> (0 < s_prec s)%R -> matrix N N g -> hermitian g -> matrix N N cj -> i < N -> l < N ->
  let V := snd (r_eigh rt g) in
  (Cmod (ent (inbasis V (msub (xgrad s t g cj) (mdexp (phased s t g) (phased s t cj)))) i l) <=
   2 * s_prec s * Rabs t * Cmod (ent (inbasis V cj) i l))%R.
Proof.
  intros E Hp Hg Hh Hc Hi Hl V. destruct (HD E) as [HH EH]. pose proof (phased_spectral N rt q s SP t g HH EH Hg Hh) as Q.
  unfold xgrad. rewrite E. cbn [oeigh MatAlg]. unfold V. destruct (r_eigh rt g) as [lam V']. cbn [snd]. clear V. destruct Q as [U ->].
  pose proof (phased_matrix N rt s t cj (is_lin N rt q s SP) Hc) as [S2 P2]. rewrite mdexp_spectral by auto. pose proof U as (SV & PV & U1 & U2).
  pose proof (with_phase_matrix N rt s cj (is_lin N rt q s SP) Hc) as [S3 P3].
  cbn [omul odag ohad oscale MatAlg]. unfold inbasis at 2. unfold phased. cbn [oscale MatAlg].
  rewrite (mmul_scal_r N N N), (mmul_scal_l N N N) by eauto with mat.
  set (B := mmul (mmul (mdag V') (with_phase s cj)) V'). assert (SB : sized N N B) by (unfold B; eauto with mat).
  set (M1 := mhad (mscal (RtoC t) B) _). set (M2 := mhad (mscal (RtoC t) B) _).
  assert (SM1 : sized N N M1) by (unfold M1; auto with mat). assert (SM2 : sized N N M2) by (unfold M2; auto with mat).
  assert (E1 : msub (mmul (mmul V' M1) (mdag V')) (mmul (mmul V' M2) (mdag V')) = mmul (mmul V' (msub M1 M2)) (mdag V')).
  { rewrite (mmul_sub_r N N N), (mmul_sub_l N N N) by eauto with mat. auto. }
  rewrite E1. assert (E2 : inbasis V' (mmul (mmul V' (msub M1 M2)) (mdag V')) = msub M1 M2).
  { unfold inbasis. rewrite !mmul_assoc, U1, (mmul_1_l N N), <- (mmul_assoc (msub M1 M2)), U1, (mmul_1_r N N); auto with mat. }
  rewrite E2, (msub_ent N N) by auto. unfold M1, M2. rewrite !(mhad_ent N N), !(mscal_ent N N) by auto with mat.
  replace (Cminus _ _) with (RtoC t * ent B i l * (divdiff (s_prec s) lam t i l - ddexp (0, - (lam i * t))%R (0, - (lam l * t))%R))%C by ring.
  rewrite !Cmod_mult, Cmod_R. replace (Cmod (ent B i l)) with (Cmod (ent (inbasis V' cj) i l)).
  2:{ unfold B, with_phase. rewrite (hp_phase _ _ _ HH). destruct Hc as [Sc Pc].
      pose proof (sp_phapp _ _ _ _ SP) as L. cbn [oscale MatAlg]. unfold inbasis.
      destruct (s_phapp s); [| |tauto]; rewrite (mmul_scal_r N N N), (mmul_scal_l N N N), (mscal_ent N N), Cmod_mult, Cmod_opp by eauto with mat;
        (rewrite Cmod_Ci; ring). }
  pose proof (rounded_close (s_prec s) lam t i l Hp).
  pose proof (Rabs_pos t). pose proof (Cmod_ge_0 (ent (inbasis V' cj) i l)). pose proof (Cmod_ge_0 (divdiff (s_prec s) lam t i l - ddexp (0, - (lam i * t))%R (0, - (lam l * t))%R)%C).
  assert (0 <= Rabs t * Cmod (ent (inbasis V' cj) i l))%R by (apply Rmult_le_pos; auto). nra.
Qed.

(** [undo_target] of an isometry is its adjoint, if inverses are right. *)
Lemma undo_is : (s_class s = Unitary \/ exact_inv N rt) -> isometry N q (s_target s) -> undo_target s = mdag (s_target s).
Proof.
  intros HC [[S P] H]. unfold undo_target. destruct (s_class s); auto. destruct HC as [HC|HC]; [discriminate|].
  cbn [osquare MatAlg odag oinv]. destruct (Nat.eqb_spec (nr (s_target s)) (nc (s_target s))) as [E|E]; auto.
  pose proof S as [S1 S2]. assert (Eq : q = N) by congruence. rewrite Eq in *. apply HC; [split; auto with mat|split; auto with mat|exact H].
Qed.
Section Fid.
Context (HC : s_class s = Unitary \/ exact_inv N rt) (HT : isometry N q (s_target s)) (Hq : 0 < q).
Lemma norm_is : target_norm s = RtoC (INR q).
Proof. unfold target_norm. cbn [otr omul odag MatAlg]. destruct HT as [_ E]. rewrite E. apply mtr_id. Qed.
Lemma psu_is a : s_phopt s = PSU -> fidelity_of s a = (Cmod (mtr (mmul (mdag (s_target s)) (final_of s a))) / INR q)%R.
Proof.
  intros E. unfold fidelity_of, overlap. rewrite E, norm_is, undo_is, Cmod_R, Rabs_pos_eq; auto using pos_INR.
Qed.
Lemma su_is a : s_phopt s = SU -> fidelity_of s a = (Re (mtr (mmul (mdag (s_target s)) (final_of s a))) / INR q)%R.
Proof. intros E. unfold fidelity_of, overlap. rewrite E, norm_is, undo_is; auto. Qed.
End Fid.
End Sys.

(** *** Scaling the target or the initial operator by a unit number *)
Section Scaled.
Context (N : nat) (rt : routines) (EX : exact_routines N rt).
Notation A := (MatAlg N rt).
Context (q : nat) (s : settings A) (n m : nat) (z : C).
Hypothesis SP : sized_problem N rt q s.
Hypothesis Hz : Cmod z = 1%R.

Definition target_times : settings A := s <| s_target := (mscal z (s_target s) : Op A) |>.
Definition initial_times : settings A := s <| s_initial := (mscal z (s_initial s) : Op A) |>.

Lemma tt_sized : sized_problem N rt q target_times.
Proof. destruct SP as [H1 H2 [S P] H4 H5]. constructor; cbn; auto. split; auto with mat. Qed.
Lemma it_sized : sized_problem N rt q initial_times.
Proof. destruct SP as [H1 [S P] H3 H4 H5]. constructor; cbn; auto. split; auto with mat. Qed.
Lemma tt_suits : diag_suits N rt s -> diag_suits N rt target_times.
Proof. intros H E. destruct (H E) as [[] ?]. split; auto. constructor; auto. Qed.
Lemma it_suits : diag_suits N rt s -> diag_suits N rt initial_times.
Proof. intros H E. destruct (H E) as [[] ?]. split; auto. constructor; auto. Qed.
Lemma tt_well : well_posed s n m -> well_posed target_times n m.
Proof. intros []; constructor; auto. Qed.
Lemma it_well : well_posed s n m -> well_posed initial_times n m.
Proof. intros []; constructor; auto. Qed.

Lemma conj_unit : (Cconj z * z)%C = RtoC 1.
Proof. rewrite conj_mul_self, Hz. f_equal. ring. Qed.
Lemma mtr_scal r c X : sized r r X -> mtr (mscal c X) = (c * mtr X)%C.
Proof.
  intros S. unfold mtr. change (nr (mscal c X)) with (nr X). rewrite (proj1 S), <- csum_scal_l. apply csum_ext. intros i Hi.
  apply (mscal_ent r r); auto.
Qed.
Lemma tt_norm : target_norm target_times = target_norm s.
Proof.
  unfold target_norm. cbn [otr omul odag MatAlg target_times s_target]. destruct (sp_target _ _ _ _ SP) as [S P].
  change (s_target target_times) with (mscal z (s_target s)).
  rewrite (mdag_scal N q), (mmul_scal_l q N q), (mmul_scal_r q N q), (mscal_scal q q), conj_unit, (mscal_1 q q); eauto with mat.
Qed.
Lemma tt_undo : s_class s = Unitary \/ (exact_inv N rt /\ isometry N q (s_target s)) ->
  undo_target target_times = mscal (Cconj z) (undo_target s).
Proof.
  destruct (sp_target _ _ _ _ SP) as [S P]. intros [E|[HI HT]].
  - unfold undo_target. cbn. rewrite E. cbn [odag MatAlg]. apply (mdag_scal N q); auto.
  - rewrite (undo_is N rt q s SP) by auto.
    assert (E : undo_target target_times = mdag (s_target target_times)).
    { apply (undo_is N rt q target_times tt_sized); auto. destruct HT as [[S1 P1] H1]. split; [split; cbn; auto with mat|]. cbn [s_target target_times].
      change (s_target target_times) with (mscal z (s_target s)).
      rewrite (mdag_scal N q), (mmul_scal_l q N q), (mmul_scal_r q N q), (mscal_scal q q), conj_unit, H1, (mscal_1 q q); eauto with mat. }
    rewrite E. apply (mdag_scal N q). auto.
Qed.
Lemma it_final a : well_posed s n m -> diag_suits N rt s -> shape n m a ->
  final_of initial_times a = mscal z (final_of s a).
Proof.
  intros W HD Ha. unfold final_of. change (props_of initial_times a) with (props_of s a). change (s_initial initial_times) with (mscal z (s_initial s)).
  pose proof (props_matrix N rt EX q s n m SP W HD a Ha) as F. destruct (sp_initial _ _ _ _ SP) as [S P].
  revert S P. generalize (s_initial s). induction F as [|p ps [Sp Pp] F IH]; intros x S P; cbn; auto.
  rewrite (mmul_scal_r N N q) by auto. apply IH; eauto with mat.
Qed.
Section Full.
Hypothesis W : well_posed s n m.
Hypothesis HD : diag_suits N rt s.
Lemma final_matrix a : shape n m a -> matrix N q (final_of s a).
Proof. intros Ha. apply evolve_matrix; [eapply props_matrix; eauto|apply SP]. Qed.
Lemma undo_matrix : sized q N (undo_target s).
Proof. eapply undo_sized; eauto. Qed.
Lemma tt_fidelity a : shape n m a -> s_phopt s = PSU -> s_class s = Unitary \/ (exact_inv N rt /\ isometry N q (s_target s)) ->
  fidelity_of target_times a = fidelity_of s a.
Proof.
  intros Ha HP HC. unfold fidelity_of. change (s_phopt target_times) with (s_phopt s). rewrite HP, tt_norm. f_equal.
  unfold overlap. rewrite tt_undo by auto. change (final_of target_times a) with (final_of s a).
  pose proof undo_matrix. destruct (final_matrix a Ha) as [S P]. cbn [otr omul MatAlg].
  rewrite (mmul_scal_l q N q), (mtr_scal q), Cmod_mult, Cmod_conj, Hz by eauto with mat. ring.
Qed.
Lemma it_fidelity a : shape n m a -> s_phopt s = PSU -> fidelity_of initial_times a = fidelity_of s a.
Proof.
  intros Ha HP. unfold fidelity_of. change (s_phopt initial_times) with (s_phopt s). rewrite HP.
  change (target_norm initial_times) with (target_norm s). f_equal. unfold overlap.
  change (undo_target initial_times) with (undo_target s). rewrite it_final by auto.
  pose proof undo_matrix. destruct (final_matrix a Ha) as [S P]. cbn [otr omul MatAlg].
  rewrite (mmul_scal_r q N q), (mtr_scal q), Cmod_mult, Hz by eauto with mat. ring.
Qed.
End Full.
End Scaled.
