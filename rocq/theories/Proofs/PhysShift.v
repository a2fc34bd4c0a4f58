(** Shifting the zero of energy: facts for [Props/PropsPhysics.v]. *)
From Coq Require Import Reals Lra.
From Coquelicot Require Import Coquelicot.
From RecordUpdate Require Import RecordUpdate.
From Verif.Model Require Import Base Dyn.
From Verif.Lib Require Import Lists Csum Mat MExp MCalc MDiag MComm.
From Verif.Spec Require Import Evolution History MatAlg Physics.
From Verif.Proofs Require Import DynInv DynRun DynHist DynHistory DynProps DynMore MatFacts MatGrad MatProps PhysFacts PhysRotate.
Local Open Scope nat_scope.
Set Bullet Behavior "Strict Subproofs".

Lemma mexp_id N z : mexp (mscal z (mid N)) = mscal (cexpS z) (mid N).
Proof.
  assert (Q : forall h, spectral N (mid N) h = mdiag N h).
  { intros h. unfold spectral. rewrite mdag_id, (mmul_1_l N N), (mmul_1_r N N); auto with mat. }
  assert (D : forall y, mscal y (mid N) = mdiag N (fun _ => y)).
  { intros y. apply (mat_ext N N); auto with mat. intros i j Hi Hj. rewrite (mscal_ent N N), mid_ent, mdiag_ent by auto with mat.
    destruct (i =? j)%nat; ring. }
  rewrite !D, <- !Q. apply mexp_spectral. apply unitary_id.
Qed.
Lemma mscal_mul_id r c z x : matrix r c x -> mmul (mscal z (mid r)) x = mscal z x.
Proof. intros [S P]. rewrite (mmul_scal_l r r c), (mmul_1_l r c); auto with mat. Qed.
Lemma mexp_shift N z x : matrix N N x -> mexp (madd x (mscal z (mid N))) = mscal (cexpS z) (mexp x).
Proof.
  intros [S P]. rewrite (madd_comm N N) by auto with mat. rewrite (mexp_add N); auto with mat.
  - rewrite mexp_id. apply (mscal_mul_id N N). split; [apply mexp_sized; auto|apply mexp_proper].
  - rewrite (mscal_mul_id N N) by (split; auto). rewrite (mmul_scal_r N N N), (mmul_1_r N N); auto with mat.
Qed.
Lemma cmod_imag y : Cmod (cexpS (0, y)%R) = 1%R.
Proof.
  rewrite cexpS_imag. unfold Cmod. cbn [fst snd]. rewrite <- sqrt_1. f_equal.
  pose proof (sin2_cos2 y) as H. unfold Rsqr in H. simpl. lra.
Qed.
Lemma mdexp_shift N z w x e : matrix N N x -> matrix N N e ->
  mdexp (madd x (mscal z (mid N))) (madd e (mscal w (mid N))) = mscal (cexpS z) (madd (mdexp x e) (mscal w (mexp x))).
Proof.
  intros [Sx Px] [Se Pe].
  assert (SE : sized N N (mexp x)) by (apply mexp_sized; auto). assert (PE : proper (mexp x)) by apply mexp_proper.
  assert (SD : sized N N (mdexp x e)) by (apply mdexp_sized; auto).
  apply (der_unique N N (fun u => mexp (madd (madd x (mscal z (mid N))) (mscal (RtoC (u - 0)) (madd e (mscal w (mid N)))))) 0%R).
  - apply der_mexp; auto with mat.
  - (* exp (x + u e) times exp ((z + u w) 1) *)
    set (Z := mscal z (mid N)). set (Y := mscal w (mid N)).
    pose proof (der_mul N N N _ _ _ _ _ (der_mexp N x e 0 Sx Se) (der_mexp N Z Y 0 ltac:(unfold Z; auto with mat) ltac:(unfold Y; auto with mat))) as D.
    cbn beta in D.
    assert (EZ : mexp Z = mscal (cexpS z) (mid N)) by apply mexp_id.
    assert (X0 : forall v, madd x (mscal (RtoC (v - 0)) e) = madd x (mscal (RtoC v) e)) by (intros; rewrite Rminus_0_r; auto).
    assert (E0 : madd x (mscal (RtoC (0 - 0)) e) = x).
    { rewrite Rminus_0_r. apply (mat_ext N N); auto with mat. intros i j Hi Hj. rewrite (madd_ent N N), (mscal_ent N N) by auto. ring. }
    assert (E0' : madd Z (mscal (RtoC (0 - 0)) Y) = Z).
    { rewrite Rminus_0_r. unfold Z, Y. apply (mat_ext N N); auto with mat. intros i j Hi Hj. rewrite (madd_ent N N), !(mscal_ent N N) by auto with mat. ring. }
    assert (DY : mdexp Z Y = mscal (cexpS z * w)%C (mid N)).
    { apply (der_unique N N (fun u => mexp (madd Z (mscal (RtoC (u - 0)) Y))) 0%R).
      - apply der_mexp; unfold Z, Y; auto with mat.
      - pose proof (der_cexpS w 0) as DC.
        split; [|split].
        + intros t. apply mexp_sized. unfold Z. auto with mat.
        + auto with mat.
        + intros i j Hi Hj. change (i < N) in Hi. change (j < N) in Hj.
          assert (EF : forall t, mexp (madd Z (mscal (RtoC (t - 0)) Y)) = mscal (cexpS z * cexpS (RtoC t * w))%C (mid N)).
          { intros t. rewrite Rminus_0_r. unfold Y. rewrite (mscal_scal N N) by auto with mat. rewrite mexp_shift by (unfold Z; split; auto with mat).
            rewrite EZ, (mscal_scal N N) by auto with mat. f_equal. ring. }
          apply (derC_ext (fun t => (cexpS z * cexpS (RtoC t * w)) * ent (mid N) i j)%C); [intros t; rewrite EF, (mscal_ent N N) by auto with mat; reflexivity|].
          eapply derC_eq; [apply derC_mult; [apply derC_mult; [apply derC_const|exact DC]|apply derC_const]|].
          cbn beta. rewrite (mscal_ent N N) by auto with mat. replace (RtoC 0 * w)%C with (RtoC 0) by ring. rewrite cexpS_0. ring.
      - apply mdexp_proper.
      - auto with mat. }
    rewrite E0, E0', DY, EZ in D.
    eapply der_ext; [|eapply (fun H => eq_ind _ (fun M => der N N _ 0%R M) D _ H)].
    + intros t. cbn beta. rewrite <- (mexp_add N); unfold Z, Y; auto with mat.
      * f_equal. apply (mat_ext N N); auto with mat. intros i j Hi Hj.
        rewrite !(madd_ent N N), !(mscal_ent N N), !(madd_ent N N), !(mscal_ent N N) by auto with mat. ring.
      * rewrite (mscal_scal N N) by auto with mat.
        assert (ES : madd (mscal z (mid N)) (mscal (RtoC (t - 0) * w)%C (mid N)) = mscal (z + RtoC (t - 0) * w)%C (mid N)).
        { apply (mat_ext N N); auto with mat. intros i j Hi Hj. rewrite !(madd_ent N N), !(mscal_ent N N) by auto with mat. ring. }
        rewrite ES. rewrite (mscal_mul_id N N) by (split; auto with mat). rewrite (mmul_scal_r N N N), (mmul_1_r N N); auto with mat.
    + rewrite !(mmul_scal_r N N N), !(mmul_1_r N N) by auto with mat. apply (mat_ext N N); auto with mat. intros i j Hi Hj.
      rewrite !(madd_ent N N), !(mscal_ent N N), !(madd_ent N N), !(mscal_ent N N) by auto with mat. ring.
  - apply mdexp_proper.
  - auto with mat.
Qed.

Lemma Forall2_len {X Y} (P : X -> Y -> Prop) l k : Forall2 P l k -> length l = length k.
Proof. induction 1; cbn; auto. Qed.

(** ** Conjugate phases *)
Lemma conj_phase_mul Z w : Cmod Z = 1%R -> conj_phase (Z * w)%C = (Cconj Z * conj_phase w)%C \/ Cmod w = 0%R.
Proof.
  intros HZ. unfold conj_phase. rewrite Cmod_mult, HZ, Rmult_1_l. destruct Req_EM_T as [E|E]; auto. left.
  replace (Cconj (Z * w))%C with (Cconj Z * Cconj w)%C by (destruct Z, w; apply C_eq; cbn; ring). unfold Cdiv. ring.
Qed.
Lemma conj_phase_self w : (w * conj_phase w)%C = RtoC (Cmod w).
Proof.
  unfold conj_phase. destruct Req_EM_T as [E|E].
  - rewrite E. apply Cmod_eq_0 in E. subst. ring.
  - assert (Q : (w * Cconj w)%C = RtoC (Cmod w * Cmod w)).
    { rewrite Cmod_sqr. destruct w as [a b]. apply C_eq; cbn; ring. }
    unfold Cdiv. rewrite Cmult_assoc, Q, RtoC_mult. field. intros H. apply E. injection H; auto.
Qed.

Lemma map2_firstn {X Y Z} (f : X -> Y -> Z) k l1 l2 : firstn k (map2 f l1 l2) = map2 f (firstn k l1) (firstn k l2).
Proof. revert l1 l2. induction k; intros [|x l1] [|y l2]; cbn; auto. rewrite IHk. auto. Qed.
Lemma map2_skipn {X Y Z} (f : X -> Y -> Z) k l1 l2 : length l1 = length l2 -> skipn k (map2 f l1 l2) = map2 f (skipn k l1) (skipn k l2).
Proof. revert l1 l2. induction k; intros [|x l1] [|y l2] L; cbn in *; try discriminate; auto. Qed.
Lemma map2_nth {X Y Z} (f : X -> Y -> Z) k l1 l2 : nth_error (map2 f l1 l2) k =
  match nth_error l1 k, nth_error l2 k with Some x, Some y => Some (f x y) | _, _ => None end.
Proof. revert l1 l2. induction k; intros [|x l1] [|y l2]; cbn; auto. destruct (nth_error l1 k); auto. Qed.

Fixpoint cprod (l : list C) : C := match l with [] => RtoC 1 | z :: l' => (z * cprod l')%C end.
Lemma cprod_app l k : cprod (l ++ k) = (cprod l * cprod k)%C.
Proof. induction l; cbn; [ring|rewrite IHl; ring]. Qed.
Lemma cprod_mod l : Forall (fun z => Cmod z = 1%R) l -> Cmod (cprod l) = 1%R.
Proof. induction 1; cbn; [apply Cmod_1|]. rewrite Cmod_mult, H, IHForall. ring. Qed.

Section Shift.
Context (N : nat) (rt : routines) (EX : exact_routines N rt).
Notation A := (MatAlg N rt).

Lemma lincomb_energy d d' row (cs cs' : list mat) : matrix N N d -> Forall (matrix N N) cs ->
  energy_shift N d d' -> Forall2 (energy_shift N) cs cs' ->
  energy_shift N (lincomb (A := A) d row cs) (lincomb (A := A) d' row cs').
Proof.
  intros Hd Hc Ed F. revert d d' row Hd Ed Hc. induction F as [|c c' cs cs' [e ->] F IH]; intros d d' [|u row] Hd [e0 ->] Hc; cbn; try (eexists; eauto; fail).
  inversion Hc as [|? ? Hc1 Hc2]; subst. apply IH; auto; [apply matrix_closed; auto|].
  exists (e0 + u * e)%R. destruct Hd as [S P], Hc1 as [S1 P1]. apply (mat_ext N N); auto with mat. intros i j Hi Hj.
  rewrite !(madd_ent N N), !(mscal_ent N N), !(madd_ent N N), !(mscal_ent N N) by auto with mat. rewrite RtoC_plus, RtoC_mult. ring.
Qed.
Lemma map3_energy (ds ds' : list mat) (a : amps) (cs cs' : list (list mat)) :
  Forall (matrix N N) ds -> Forall (Forall (matrix N N)) cs ->
  Forall2 (energy_shift N) ds ds' -> Forall2 (Forall2 (energy_shift N)) cs cs' ->
  Forall2 (energy_shift N) (map3 (lincomb (A := A)) ds a cs) (map3 (lincomb (A := A)) ds' a cs').
Proof.
  intros F1 F2 G1 G2. revert a cs cs' F2 G2. induction G1 as [|d d' ds ds' E G1 IH]; intros [|row a] cs cs' F2 G2; cbn; auto.
  destruct G2; cbn; auto. inversion F1; inversion F2; subst. constructor; auto. apply lincomb_energy; auto.
Qed.

Context (q : nat) (s s' : settings A) (n m : nat).
Hypothesis SP : sized_problem N rt q s.
Hypothesis W : well_posed s n m.
Hypothesis HD : diag_suits N rt s.
Hypothesis HH : s_phase s = Some (PhNum (- Ci)%C : phase A).
Hypothesis SH : shifted_problem N rt s s'.

Lemma shift_gens a : Forall2 (energy_shift N) (gens_of s a) (gens_of s' a).
Proof.
  destruct (shift_drifts _ _ _ _ SH) as (l & l' & E1 & E2 & F1). destruct (shift_ctrls _ _ _ _ SH) as (c & c' & E3 & E4 & F2).
  pose proof (shift_tau _ _ _ _ SH) as Et. unfold slot_drifts, slot_ctrls in *. rewrite Et in *.
  unfold gens_of. rewrite Et.
  destruct (eff_drift s) as [dr|] eqn:D1; try discriminate. destruct (eff_drift s') as [dr'|]; try discriminate.
  destruct (eff_ctrls s) as [cl|] eqn:D2; try discriminate. destruct (eff_ctrls s') as [cl'|]; try discriminate.
  cbn in *. injection E1 as <-. injection E2 as <-. injection E3 as <-. injection E4 as <-. unfold generators.
  apply map3_energy; auto; [eapply drifts_all|eapply ctrls_all_ops]; eauto; apply SP.
Qed.
Lemma shift_with g : with_phase s' g = with_phase s g.
Proof. unfold with_phase. rewrite (shift_phase _ _ _ _ SH), (shift_phapp _ _ _ _ SH). auto. Qed.
Lemma shift_phased t g e : matrix N N g ->
  phased s' t (madd g (mscal (RtoC e) (mid N))) = madd (phased s t g) (mscal (0, - (t * e))%R (mid N)).
Proof.
  intros [S P]. unfold phased. rewrite shift_with. unfold with_phase. rewrite HH. pose proof (is_lin N rt q s SP) as [_ L].
  assert (E : forall x : Op A, match s_phapp s with PreOp => oscale A (- Ci)%C x | PostOp => oscale A (- Ci)%C x | CustomApp f => f x end = mscal (- Ci)%C x).
  { intros. destruct (s_phapp s); auto; tauto. }
  transitivity (mscal (RtoC t) (mscal (- Ci)%C (madd g (mscal (RtoC e) (mid N))))).
  { destruct (s_phapp s); auto; tauto. }
  transitivity (madd (mscal (RtoC t) (mscal (- Ci)%C g)) (mscal (0, - (t * e))%R (mid N))).
  2:{ destruct (s_phapp s); auto; tauto. }
  apply (mat_ext N N); auto with mat. intros i j Hi Hj.
  rewrite !(madd_ent N N), !(mscal_ent N N), !(madd_ent N N), !(mscal_ent N N) by auto with mat.
  replace ((0, - (t * e))%R : C) with (RtoC t * - Ci * RtoC e)%C by (apply C_eq; unfold Ci; cbn; ring). ring.
Qed.
Lemma shift_prop t g e : matrix N N g ->
  propagator s' t (madd g (mscal (RtoC e) (mid N))) = mscal (cexpS (0, - (t * e))%R) (propagator s t g).
Proof.
  intros Hg. rewrite (prop_is N rt EX q s SP t g Hg). pose proof (shift_phased t g e Hg) as E.
  unfold propagator. unfold phased in E. rewrite E. cbn [oexpm MatAlg].
  pose proof (phased_matrix N rt s t g (is_lin N rt q s SP) Hg) as Hp. destruct Hp as [Sp Pp].
  rewrite (ex_expm _ _ EX N) by auto with mat. apply mexp_shift. split; auto.
Qed.
Lemma shift_dprop t g c e e' : matrix N N g -> matrix N N c ->
  dprop (A := A) mdexp s' t (madd g (mscal (RtoC e) (mid N))) (madd c (mscal (RtoC e') (mid N))) =
  mscal (cexpS (0, - (t * e))%R) (madd (dprop (A := A) mdexp s t g c) (mscal (0, - (t * e'))%R (propagator s t g))).
Proof.
  intros Hg Hc. rewrite (prop_is N rt EX q s SP t g Hg).
  change (mdexp (phased s' t (madd g (mscal (RtoC e) (mid N)))) (phased s' t (madd c (mscal (RtoC e') (mid N)))) =
    mscal (cexpS (0, - (t * e))%R) (madd (mdexp (phased s t g) (phased s t c)) (mscal (0, - (t * e'))%R (mexp (phased s t g))))).
  rewrite !shift_phased by auto. apply mdexp_shift; apply phased_matrix; auto; apply (is_lin N rt q s SP).
Qed.
(** The phases picked up in the timeslots. *)
Lemma shift_phases a : exists es, length es = length (gens_of s a) /\
  gens_of s' a = map2 (fun g e => madd g (mscal (RtoC e) (mid N))) (gens_of s a) es /\
  props_of s' a = map2 (fun p z => mscal z p) (props_of s a) (map2 (fun t e => cexpS (0, - (t * e))%R) (s_tau s) es).
Proof.
  pose proof (shift_gens a) as F. pose proof (gens_all N rt s a (sp_gens _ _ _ _ SP)) as G.
  assert (Q : exists es, length es = length (gens_of s a) /\ gens_of s' a = map2 (fun g e => madd g (mscal (RtoC e) (mid N))) (gens_of s a) es).
  { clear G. induction F as [|g g' gs gs' [e E] F IH]; [exists []; auto|]. destruct IH as (es & L & E1). exists (e :: es).
    cbn. split; [f_equal; exact L|]. rewrite E, E1. auto. }
  destruct Q as (es & L & E). exists es. splits; auto. unfold props_of, propagators. rewrite (shift_tau _ _ _ _ SH), E. clear F E.
  generalize (s_tau s). revert es L. induction G as [|g gs Hg G IH]; intros [|e es] L [|t tl]; try discriminate; auto.
  cbn [map2]. rewrite shift_prop by auto. f_equal. apply IH. injection L; auto.
Qed.
Lemma evolve_scaled ps zs x y : Forall (matrix N N) ps -> length zs = length ps -> matrix N q x ->
  evolve (A := A) (map2 (fun p z => mscal z p) ps zs) (mscal y x) = mscal (cprod zs * y)%C (evolve (A := A) ps x).
Proof.
  intros F. revert zs x y. induction F as [|p ps [Sp Pp] F IH]; intros [|z zs] x y L [Sx Px]; try discriminate.
  - cbn. f_equal. ring.
  - cbn [map2 cprod]. change (evolve (A := A) (mscal z p :: map2 (fun p z => mscal z p) ps zs) (mscal y x))
      with (evolve (A := A) (map2 (fun p z => mscal z p) ps zs) (mmul (mscal z p) (mscal y x))).
    rewrite (mmul_scal_l N N q), (mmul_scal_r N N q), (mscal_scal N q) by eauto with mat.
    rewrite IH; [f_equal; ring|cbn in L; congruence|split; eauto with mat].
Qed.
Lemma evolve_additive ps x y w : Forall (matrix N N) ps -> matrix N q x -> matrix N q y ->
  evolve (A := A) ps (madd x (mscal w y)) = madd (evolve (A := A) ps x) (mscal w (evolve (A := A) ps y)).
Proof.
  intros F. revert x y. induction F as [|p ps [Sp Pp] F IH]; intros x y [Sx Px] [Sy Py]; cbn; auto.
  rewrite (mmul_add_r N N q), (mmul_scal_r N N q) by auto with mat. apply IH; split; eauto with mat.
Qed.
Section At.
Context (a : amps).
Hypothesis Ha : shape n m a.
Lemma shift_final : exists zs es, length es = n /\ zs = map2 (fun t e => cexpS (0, - (t * e))%R) (s_tau s) es /\ length zs = n /\
  Cmod (cprod zs) = 1%R /\ gens_of s' a = map2 (fun g e => madd g (mscal (RtoC e) (mid N))) (gens_of s a) es /\
  props_of s' a = map2 (fun p z => mscal z p) (props_of s a) zs /\
  final_of s' a = mscal (cprod zs) (final_of s a).
Proof.
  destruct (shift_phases a) as (es & L & E1 & E2). destruct (mlens N rt EX q s n m SP W HD a Ha) as [Lp Lg].
  pose proof (props_matrix N rt EX q s n m SP W HD a Ha) as FP.
  set (zs := map2 (fun t e => cexpS (0, - (t * e))%R) (s_tau s) es) in *.
  assert (Lz : length zs = n).
  { unfold zs. assert (Q : forall (tl : list R) es, length tl = length es -> length (map2 (fun t e => cexpS (0, - (t * e))%R) tl es) = length tl).
    { induction tl; intros [|]; cbn; intros; try discriminate; auto. }
    rewrite Q; rewrite (wp_tau _ _ _ W); auto. congruence. }
  exists zs, es. splits; auto; try congruence.
  - apply cprod_mod. unfold zs. generalize (s_tau s). clear. induction es; intros [|t l]; cbn; constructor; auto. apply cmod_imag.
  - unfold final_of. rewrite E2, (shift_initial _ _ _ _ SH). destruct (sp_initial _ _ _ _ SP) as [S P].
    transitivity (evolve (A := A) (map2 (fun p z => mscal z p) (props_of s a) zs) (mscal (RtoC 1) (s_initial s))).
    { rewrite (mscal_1 N q) by auto. auto. }
    rewrite evolve_scaled; [f_equal; ring|auto|etransitivity; [exact Lz|symmetry; exact Lp]|split; auto].
Qed.
Lemma shift_undo : undo_target s' = undo_target s.
Proof. unfold undo_target. rewrite (shift_class _ _ _ _ SH), (shift_target _ _ _ _ SH). auto. Qed.
Lemma shift_norm : target_norm s' = target_norm s.
Proof. unfold target_norm. rewrite (shift_target _ _ _ _ SH). auto. Qed.
Lemma shift_fidelity : s_phopt s = PSU -> fidelity_of s' a = fidelity_of s a.
Proof.
  intros HP. destruct shift_final as (zs & es & _ & _ & _ & HZ & _ & _ & EF). unfold fidelity_of. rewrite (shift_phopt _ _ _ _ SH), HP, shift_norm.
  unfold overlap. rewrite shift_undo, EF. cbn [otr omul MatAlg]. pose proof (undo_sized N rt EX q s SP) as Su.
  destruct (final_matrix N rt EX q s n m SP W HD a Ha) as [Sf Pf].
  rewrite (mmul_scal_r q N q), (mtr_scal q), Cmod_mult, HZ, Rmult_1_l by eauto with mat. auto.
Qed.
Lemma shift_err : s_fid s = FUnit -> s_phopt s = PSU -> fid_err_of s' a = fid_err_of s a.
Proof. intros HF HP. unfold fid_err_of. rewrite (shift_fid _ _ _ _ SH), HF, shift_fidelity; auto. Qed.
Lemma shift_dslot zs es k j dp : zs = map2 (fun t e => cexpS (0, - (t * e))%R) (s_tau s) es ->
  gens_of s' a = map2 (fun g e => madd g (mscal (RtoC e) (mid N))) (gens_of s a) es -> length es = n ->
  dslot (dprop (A := A) mdexp s) s a k j = Some dp -> exists z p t e',
  nth_error zs k = Some z /\ nth_error (props_of s a) k = Some p /\
  dslot (dprop (A := A) mdexp s') s' a k j = Some (mscal z (madd dp (mscal (0, - (t * e'))%R p))).
Proof.
  intros Ez Eg Le. destruct (shift_ctrls _ _ _ _ SH) as (c & c' & E3 & E4 & F2). pose proof (shift_tau _ _ _ _ SH) as Et.
  unfold slot_ctrls in *. rewrite Et in E4. unfold dslot. rewrite Et, Eg.
  destruct (eff_ctrls s) as [cl|] eqn:D2; try discriminate. destruct (eff_ctrls s') as [cl'|]; try discriminate.
  cbn [option_map] in E3, E4. injection E3 as E3. injection E4 as E4. rewrite E3, E4.
  assert (FC : Forall (Forall (matrix N N)) c) by (rewrite <- E3; eapply ctrls_all_ops; eauto; apply SP).
  pose proof (gens_all N rt s a (sp_gens _ _ _ _ SP)) as FG. rewrite Forall_forall in FG.
  rewrite map2_nth. destruct (nth_error (s_tau s) k) as [t|] eqn:E5; try discriminate.
  destruct (nth_error (gens_of s a) k) as [g|] eqn:E6; try discriminate.
  destruct (nth_error c k) as [cs|] eqn:E7; try discriminate. destruct (nth_error cs j) as [cj|] eqn:E8; try discriminate.
  intros [= <-].
  assert (Hk : k < n) by (rewrite <- (wp_tau _ _ _ W); apply nth_error_Some; congruence).
  destruct (nth_error es k) as [e|] eqn:E9; [|apply nth_error_None in E9; lia].
  assert (Q : exists cs', nth_error c' k = Some cs' /\ Forall2 (energy_shift N) cs cs').
  { clear - F2 E7. revert c' F2 k E7. induction c as [|x c IH]; intros c' F2 k E7; inversion F2; subst; destruct k; cbn in *; try discriminate.
    - injection E7 as <-. eauto.
    - apply (IH l' H3 k); auto. }
  destruct Q as (cs' & E10 & F3).
  assert (Q : exists cj', nth_error cs' j = Some cj' /\ energy_shift N cj cj').
  { clear - F3 E8. revert cs' F3 j E8. induction cs as [|x cs IH]; intros cs' F3 j E8; inversion F3; subst; destruct j; cbn in *; try discriminate.
    - injection E8 as <-. eauto.
    - apply (IH l' H3 j); auto. }
  destruct Q as (cj' & E11 & (e' & ->)).
  exists (cexpS (0, - (t * e))%R), (propagator s t g), t, e'. splits.
  - rewrite Ez, map2_nth, E5, E9. auto.
  - unfold props_of, propagators. rewrite map2_nth, E5, E6. auto.
  - pose proof E6 as E6'. change (@nth_error mat (gens_of s a) k = Some g) in E6'. rewrite E10, E11, E6'. f_equal. apply shift_dprop.
    + apply FG. eapply nth_error_In; eauto.
    + rewrite Forall_forall in FC. pose proof (FC _ (nth_error_In _ _ E7)) as Q. rewrite Forall_forall in Q. apply Q. eapply nth_error_In; eauto.
Qed.
Lemma shift_dfin zs k z p dp w : Cmod (cprod zs) = 1%R -> length zs = n ->
  props_of s' a = map2 (fun p z => mscal z p) (props_of s a) zs ->
  nth_error zs k = Some z -> nth_error (props_of s a) k = Some p -> matrix N N dp ->
  dfin N rt s' a k (mscal z (madd dp (mscal w p))) = mscal (cprod zs) (madd (dfin N rt s a k dp) (mscal w (final_of s a))).
Proof.
  intros HZ Lz EP Ez Ep [Sd Pd]. destruct (mlens N rt EX q s n m SP W HD a Ha) as [Lp _].
  pose proof (props_matrix N rt EX q s n m SP W HD a Ha) as FP. destruct (sp_initial _ _ _ _ SP) as [Si Pi].
  assert (Hp : matrix N N p) by (rewrite Forall_forall in FP; apply FP; eapply nth_error_In; eauto). destruct Hp as [Sp Pp].
  assert (Lzp : length (props_of s a) = length zs) by (etransitivity; [exact Lp|symmetry; exact Lz]).
  assert (Sz : zs = firstn k zs ++ z :: skipn (S k) zs).
  { rewrite <- (firstn_skipn k zs) at 1. f_equal. clear - Ez. revert zs Ez. induction k; intros [|y zs] Ez; cbn in *; try discriminate; [congruence|auto]. }
  assert (Spp : props_of s a = firstn k (props_of s a) ++ p :: skipn (S k) (props_of s a)).
  { rewrite <- (firstn_skipn k (props_of s a)) at 1. f_equal. clear - Ep. revert Ep. generalize (props_of s a).
    induction k; intros [|y l] Ep; cbn in *; try discriminate; [congruence|auto]. }
  unfold dfin. rewrite EP, (shift_initial _ _ _ _ SH).
  rewrite (map2_skipn (fun p z => mscal z p)) by auto. rewrite (map2_firstn (fun p z => mscal z p)).
  set (b := evolve (A := A) (firstn k (props_of s a)) (s_initial s)).
  assert (Hb : matrix N q b) by (apply evolve_matrix; [apply Forall_firstn; auto|split; auto]).
  assert (E1 : evolve (A := A) (map2 (fun p z => mscal z p) (firstn k (props_of s a)) (firstn k zs)) (s_initial s) = mscal (cprod (firstn k zs)) b).
  { transitivity (evolve (A := A) (map2 (fun p z => mscal z p) (firstn k (props_of s a)) (firstn k zs)) (mscal (RtoC 1) (s_initial s))).
    { rewrite (mscal_1 N q) by auto. auto. }
    rewrite evolve_scaled; [f_equal; ring|apply Forall_firstn; auto| |split; auto].
    rewrite !firstn_length. f_equal. symmetry. exact Lzp. }
  etransitivity; [apply f_equal2; [reflexivity|apply f_equal2; [reflexivity|exact E1]]|]. clear E1. destruct Hb as [Sb Pb].
  assert (E2 : mmul (mscal z (madd dp (mscal w p))) (mscal (cprod (firstn k zs)) b) =
    mscal (z * cprod (firstn k zs))%C (madd (mmul dp b) (mscal w (mmul p b)))).
  { rewrite (mmul_scal_l N N q), (mmul_scal_r N N q), (mscal_scal N q) by eauto with mat. f_equal.
    rewrite (mmul_add_l N N q), (mmul_scal_l N N q); auto with mat. }
  rewrite E2. clear E2. rewrite evolve_scaled.
  - assert (EZ : cprod zs = (cprod (firstn k zs) * (z * cprod (skipn (S k) zs)))%C) by (rewrite Sz at 1; rewrite cprod_app; auto).
    rewrite EZ. replace (cprod (skipn (S k) zs) * (z * cprod (firstn k zs)))%C with (cprod (firstn k zs) * (z * cprod (skipn (S k) zs)))%C by ring.
    f_equal. rewrite evolve_additive; [|apply Forall_skipn; auto|split; eauto with mat|split; eauto with mat]. f_equal. f_equal.
    unfold final_of. rewrite Spp at 2. rewrite (evolve_app (A := A)). reflexivity.
  - apply Forall_skipn; auto.
  - rewrite !skipn_length. f_equal. symmetry. exact Lzp.
  - split; eauto with mat.
Qed.
Lemma shift_entry k j : s_fid s = FUnit -> s_phopt s = PSU -> fidelity_of s a <> 0%R ->
  grad_entry_of (dprop (A := A) mdexp s') s' a k j = grad_entry_of (dprop (A := A) mdexp s) s a k j.
Proof.
  intros HF HP HN. destruct shift_final as (zs & es & Le & Ez & Lz & HZ & Eg & Ep & EF). rewrite !entry_as.
  destruct (dslot (dprop (A := A) mdexp s) s a k j) as [dp|] eqn:E.
  2:{ (* outside the pulse *)
    destruct (dslot (dprop (A := A) mdexp s') s' a k j) as [dp'|] eqn:E'; auto. exfalso.
    destruct (shift_ctrls _ _ _ _ SH) as (c & c' & E3 & E4 & F2). pose proof (shift_tau _ _ _ _ SH) as Et.
    unfold slot_ctrls in *. rewrite Et in E4. unfold dslot in E, E'. rewrite Et, Eg in E'.
    destruct (eff_ctrls s) as [cl|] eqn:D2; try discriminate. destruct (eff_ctrls s') as [cl'|]; try discriminate.
    cbn [option_map] in E3, E4. injection E3 as E3. injection E4 as E4. rewrite E3 in E. rewrite E4 in E'.
    rewrite map2_nth in E'. destruct (nth_error (s_tau s) k) as [t|] eqn:E5; try discriminate.
    destruct (mlens N rt EX q s n m SP W HD a Ha) as [_ Lg].
    assert (Hk : k < n) by (rewrite <- (wp_tau _ _ _ W); apply nth_error_Some; congruence).
    destruct (nth_error (gens_of s a) k) as [g|] eqn:E6; [|apply nth_error_None in E6; rewrite Lg in E6; lia].
    destruct (nth_error c' k) as [cs'|] eqn:E7.
    2:{ match type of E' with match ?x with _ => _ end = _ => destruct x; discriminate end. }
    destruct (nth_error c k) as [cs|] eqn:E8.
    2:{ apply nth_error_None in E8. assert (length c = length c') by exact (Forall2_len _ _ _ F2). assert (k < length c') by (apply nth_error_Some; congruence). lia. }
    assert (F3 : Forall2 (energy_shift N) cs cs').
    { clear - F2 E7 E8. revert k E7 E8. induction F2; intros [|k] E7 E8; cbn in *; try discriminate; [|eauto]. injection E7 as <-. injection E8 as <-. auto. }
    assert (L3 : length cs = length cs') by exact (Forall2_len _ _ _ F3).
    destruct (nth_error cs j) as [cj|] eqn:E9; [discriminate|]. apply nth_error_None in E9.
    assert (E10 : nth_error cs' j = None) by (apply nth_error_None; lia).
    rewrite E10 in E'. match type of E' with match ?x with _ => _ end = _ => destruct x; discriminate end. }
  destruct (shift_dslot zs es k j dp Ez Eg Le E) as (z & p & t & e' & Hz & Hp & E').
  rewrite E'. cbn [option_map]. f_equal.
  pose proof (dslot_matrix N rt q s n m a k j dp EX SP W E) as Hd.
  rewrite (shift_dfin zs k z p dp _ HZ Lz Ep Hz Hp Hd).
  set (D := dfin N rt s a k dp). unfold gform. rewrite (shift_fid _ _ _ _ SH), (shift_phopt _ _ _ _ SH), HF, HP, shift_norm, shift_undo, shift_fidelity by auto.
  f_equal. f_equal. set (w := overlap s a).
  pose proof (undo_sized N rt EX q s SP) as Su. destruct (final_matrix N rt EX q s n m SP W HD a Ha) as [Sf Pf].
  assert (SD : matrix N q D).
  { pose proof (props_matrix N rt EX q s n m SP W HD a Ha) as F. unfold D, dfin. apply evolve_matrix; [apply Forall_skipn; auto|].
    pose proof (evolve_matrix N rt q (firstn k (props_of s a)) (s_initial s) (Forall_firstn _ _ _ F) (sp_initial _ _ _ _ SP)) as [S P].
    destruct Hd. split; eauto with mat. }
  destruct SD as [SD PD].
  assert (EW : overlap s' a = (cprod zs * w)%C).
  { unfold overlap. rewrite shift_undo, EF. cbn [otr omul MatAlg]. rewrite (mmul_scal_r q N q), (mtr_scal q) by eauto with mat. auto. }
  assert (ET : mtr (mmul (undo_target s) (mscal (cprod zs) (madd D (mscal (0, - (t * e'))%R (final_of s a))))) =
    (cprod zs * (mtr (mmul (undo_target s) D) + (0, - (t * e'))%R * w))%C).
  { rewrite (mmul_scal_r q N q), (mtr_scal q) by eauto with mat. f_equal. rewrite (mmul_add_r q N q), (mmul_scal_r q N q) by eauto with mat.
    unfold mtr at 1. change (nr (madd (mmul (undo_target s) D) (mscal (0, - (t * e'))%R (mmul (undo_target s) (final_of s a))))) with (nr (mmul (undo_target s) D)).
    assert (SQ : sized q q (mmul (undo_target s) D)) by eauto with mat. assert (SQ' : sized q q (mmul (undo_target s) (final_of s a))) by eauto with mat.
    rewrite (proj1 SQ). unfold mtr. rewrite (proj1 SQ). unfold w, overlap. cbn [otr omul MatAlg]. unfold mtr. rewrite (proj1 SQ').
    rewrite <- csum_scal_l, <- csum_plus. apply csum_ext. intros i Hi. rewrite (madd_ent q q), (mscal_ent q q) by auto. auto. }
  rewrite EW, ET. destruct (conj_phase_mul (cprod zs) w HZ) as [EC|Z0].
  - rewrite EC. set (T := mtr (mmul (undo_target s) D)).
    replace (cprod zs * (T + (0, - (t * e'))%R * w) * (Cconj (cprod zs) * conj_phase w))%C
      with ((Cconj (cprod zs) * cprod zs) * (T * conj_phase w + (0, - (t * e'))%R * (w * conj_phase w)))%C by ring.
    rewrite conj_mul_self, HZ, conj_phase_self.
    assert (EI : Re ((0, - (t * e'))%R * RtoC (Cmod w))%C = 0%R) by (cbn; ring).
    replace (RtoC (1 * 1)) with (RtoC 1) by (f_equal; ring). rewrite Cmult_1_l.
    change (Re (T * conj_phase w + (0, - (t * e'))%R * RtoC (Cmod w))%C) with (Re (T * conj_phase w)%C + Re ((0, - (t * e'))%R * RtoC (Cmod w))%C)%R.
    rewrite EI. ring.
  - exfalso. apply HN. unfold fidelity_of. rewrite HP. fold w. rewrite Z0. unfold Rdiv. ring.
Qed.
End At.
End Shift.
