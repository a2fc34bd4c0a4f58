(** The gradient of the fidelity error of matrix systems. *)
From Coq Require Import Reals Lra.
From Coquelicot Require Import Coquelicot.
From Verif.Model Require Import Base Dyn.
From Verif.Lib Require Import Lists Csum Mat MExp MCalc MDiag.
From Verif.Spec Require Import Evolution History MatAlg.
From Verif.Proofs Require Import DynInv DynRun DynHist DynHistory DynProps DynMore MatFacts.
Local Open Scope nat_scope.
Set Bullet Behavior "Strict Subproofs".

Lemma upd_same {X} (l : list X) k x : nth_error l k = Some x -> upd l k x = l.
Proof. revert k; induction l; intros [|k]; cbn; try discriminate; [intros [= ->]|intros E; f_equal]; auto. Qed.
Lemma with_entry_shape n m a k j x : shape n m a -> shape n m (with_entry a k j x).
Proof.
  intros [L F]. unfold with_entry. destruct (nth_error a k) as [row|] eqn:E; [|split; auto]. split; [rewrite upd_length; auto|].
  apply Forall_upd; auto. rewrite upd_length. rewrite Forall_forall in F. eapply F, nth_error_In; eauto.
Qed.
Lemma with_entry_same a k j x : entry a k j = Some x -> with_entry a k j x = a.
Proof. unfold entry, with_entry. destruct (nth_error a k) as [row|] eqn:E; [|discriminate]. intros H. rewrite (upd_same row), (upd_same a); auto. Qed.

Section Grad.
Context (N : nat) (rt : routines) (EX : exact_routines N rt).
Notation A := (MatAlg N rt).
Context (q : nat) (s : settings A) (n m : nat).
Hypothesis SP : sized_problem N rt q s.
Hypothesis W : well_posed s n m.
Hypothesis HD : diag_suits N rt s.
Notation RO := (mat_routines N rt EX q s n m SP HD).

Lemma mslot a k : shape n m a -> k < n -> exists dr c d0 row cs t g,
  eff_drift s = Some dr /\ eff_ctrls s = Some c /\
  nth_error (drift_ops (A := A) n dr) k = Some d0 /\ nth_error a k = Some row /\
  nth_error (ctrl_ops (A := A) n c) k = Some cs /\ nth_error (s_tau s) k = Some t /\
  length row = m /\ length cs = m /\ g = lincomb (A := A) d0 row cs /\
  nth_error (gens_of s a) k = Some g /\ nth_error (props_of s a) k = Some (propagator s t g).
Proof.
  intros Ha Hk. destruct W as [Htau Hpos (dr & Hdr & Hdrf) (c & Hc & Hcf) Hm Hdiagc].
  destruct RO as (Hfr & Haug & Hdiag).
  destruct (slot s n m dr c Htau Hpos Hdr Hdrf Hc Hcf Hm Hdiagc Hfr Haug Hdiag a Ha k Hk)
    as (d0 & row & cs & t & g & E0 & E1 & E2 & E3 & L1 & L2 & Eg & E4 & E5).
  exists dr, c, d0, row, cs, t, g. splits; auto.
Qed.
Lemma mlens a : shape n m a -> length (props_of s a) = n /\ length (gens_of s a) = n.
Proof.
  intros Ha. destruct W as [Htau Hpos (dr & Hdr & Hdrf) (c & Hc & Hcf) Hm Hdiagc]. destruct RO as (Hfr & Haug & Hdiag).
  split; [apply (props_length s n m dr c)|apply (gens_length s n m dr c)]; auto.
Qed.
Lemma drift_matrix dr k d0 : eff_drift s = Some dr -> nth_error (drift_ops (A := A) n dr) k = Some d0 -> matrix N N d0.
Proof.
  intros E E0. destruct SP as [[H _] _ _ _ _]. specialize (H dr E). destruct dr as [o|l]; cbn in *.
  - apply nth_error_In, repeat_spec in E0. subst; auto.
  - apply nth_error_In in E0. rewrite Forall_forall in H. apply H. rewrite <- (firstn_skipn n l). apply in_or_app; auto.
Qed.
Lemma prop_matrix t g : matrix N N g -> matrix N N (propagator s t g).
Proof. intros H. rewrite (prop_is N rt EX q s SP t g H). pose proof (phased_matrix N rt s t g (is_lin N rt q s SP) H) as [S P]. split; auto with mat. Qed.
Lemma props_matrix a : shape n m a -> Forall (matrix N N) (props_of s a).
Proof.
  intros Ha. apply Forall_forall. intros p Hp. apply In_nth_error in Hp as (k & E). destruct (mlens a Ha) as [L _].
  assert (Hk : k < n) by (rewrite <- L; apply nth_lt in E; auto).
  destruct (mslot a k Ha Hk) as (dr & c & d0 & row & cs & t & g & _ & _ & _ & _ & _ & _ & _ & _ & _ & Eg & Ep).
  pose proof (eq_trans (eq_sym E) Ep) as Q. injection Q as ->. apply prop_matrix. eapply gen_matrix; eauto.
Qed.

Lemma drift_at_k a a' k dr c d0 row' cs : shape n m a' -> eff_drift s = Some dr -> eff_ctrls s = Some c -> k < n ->
  nth_error (drift_ops (A := A) n dr) k = Some d0 -> nth_error (ctrl_ops (A := A) n c) k = Some cs ->
  a' = a -> nth_error a' k = Some row' -> nth_error (gens_of s a') k = Some (lincomb (A := A) d0 row' cs).
Proof.
  intros Ha E1 E2 Hk E3 E4 -> E5. destruct (mslot a k Ha Hk) as (dr' & c' & d0' & row & cs' & t & g & F1 & F2 & F3 & F4 & F5 & _ & _ & _ & -> & Eg & _).
  rewrite E1 in F1. injection F1 as <-. rewrite E2 in F2. injection F2 as <-. rewrite F3 in E3. injection E3 as <-.
  rewrite E4 in F5. injection F5 as <-. rewrite E5 in F4. injection F4 as <-. auto.
Qed.

(** Changing one amplitude changes one propagator. *)
Lemma props_with_entry a k j row x : shape n m a -> nth_error a k = Some row -> k < n ->
  exists dr c d0 cs t, eff_drift s = Some dr /\ eff_ctrls s = Some c /\
    nth_error (drift_ops (A := A) n dr) k = Some d0 /\ nth_error (ctrl_ops (A := A) n c) k = Some cs /\
    nth_error (s_tau s) k = Some t /\ length cs = m /\
    nth_error (gens_of s a) k = Some (lincomb (A := A) d0 row cs) /\
    props_of s (with_entry a k j x) = upd (props_of s a) k (propagator s t (lincomb (A := A) d0 (upd row j x) cs)).
Proof.
  intros Ha Er Hk. destruct (mslot a k Ha Hk) as (dr & c & d0 & row' & cs & t & g & E1 & E2 & E3 & E4 & E5 & E6 & L1 & L2 & -> & Eg & Ep).
  rewrite Er in E4. injection E4 as <-. exists dr, c, d0, cs, t. splits; auto.
  pose proof (with_entry_shape n m a k j x Ha) as Ha'. destruct (mlens _ Ha') as [L' _]. destruct (mlens _ Ha) as [L _].
  assert (Q : with_entry a k j x = upd a k (upd row j x)) by (unfold with_entry; rewrite Er; auto).
  apply list_ext; [rewrite upd_length; congruence|]. rewrite L'. intros i Hi.
  destruct (mslot _ i Ha' Hi) as (dr1 & c1 & d1 & row1 & cs1 & t1 & g1 & F1 & F2 & F3 & F4 & F5 & F6 & _ & _ & -> & _ & Fp). rewrite Fp.
  rewrite E1 in F1. injection F1 as <-. rewrite E2 in F2. injection F2 as <-. rewrite Q in F4.
  destruct (Nat.eq_dec i k) as [->|Hn].
  - rewrite nth_upd_eq by lia. rewrite nth_upd_eq in F4 by (destruct Ha; lia). injection F4 as <-.
    rewrite E3 in F3. injection F3 as <-. rewrite E5 in F5. injection F5 as <-. rewrite E6 in F6. injection F6 as <-. auto.
  - rewrite nth_upd_neq by auto. rewrite nth_upd_neq in F4 by auto.
    destruct (mslot a i Ha Hi) as (dr2 & c2 & d2 & row2 & cs2 & t2 & g2 & G1 & G2 & G3 & G4 & G5 & G6 & _ & _ & -> & _ & Gp). rewrite Gp.
    rewrite E1 in G1. injection G1 as <-. rewrite E2 in G2. injection G2 as <-. rewrite F4 in G4. injection G4 as <-.
    rewrite F3 in G3. injection G3 as <-. rewrite F5 in G5. injection G5 as <-. rewrite F6 in G6. injection G6 as <-. auto.
Qed.

Lemma evolve_upd (ps : list mat) k p x : k < length ps ->
  evolve (A := A) (upd ps k p) x = evolve (A := A) (skipn (S k) ps) (mmul p (evolve (A := A) (firstn k ps) x)).
Proof.
  revert k x; induction ps as [|p0 ps IH]; intros [|k] x; cbn [length upd]; try lia.
  - intros _. reflexivity.
  - intros Hk. cbn [firstn skipn]. change (evolve (A := A) (p0 :: upd ps k p) x) with (evolve (A := A) (upd ps k p) (mmul p0 x)).
    rewrite IH by lia. reflexivity.
Qed.
Lemma Forall_firstn {X} (P : X -> Prop) k l : Forall P l -> Forall P (firstn k l).
Proof. intros H. rewrite <- (firstn_skipn k l) in H. apply Forall_app in H. tauto. Qed.
Lemma Forall_skipn {X} (P : X -> Prop) k l : Forall P l -> Forall P (skipn k l).
Proof. intros H. rewrite <- (firstn_skipn k l) in H. apply Forall_app in H. tauto. Qed.

Definition dfin a k dp : mat :=
  evolve (A := A) (skipn (S k) (props_of s a)) (mmul dp (evolve (A := A) (firstn k (props_of s a)) (s_initial s))).

(** The final operator is differentiable in every amplitude. *)
Lemma final_der a k j x0 : shape n m a -> entry a k j = Some x0 -> exists dp,
  dslot (A := A) (dprop (A := A) mdexp s) s a k j = Some dp /\ matrix N N dp /\
  der N q (fun x => final_of s (with_entry a k j x)) x0 (dfin a k dp).
Proof.
  intros Ha E. unfold entry in E. destruct (nth_error a k) as [row|] eqn:Er; [|discriminate].
  assert (Hk : k < n) by (destruct Ha as [<- _]; apply nth_lt in Er; auto).
  assert (Hrow : length row = m) by (destruct Ha as [_ F]; rewrite Forall_forall in F; eapply F, nth_error_In; eauto).
  destruct (props_with_entry a k j row x0 Ha Er Hk) as (dr & c & d0 & cs & t & E1 & E2 & E3 & E4 & E5 & L & Eg & _).
  destruct (nth_ex cs j) as (cj & Ej); [rewrite L, <- Hrow; eapply nth_lt; eauto|].
  pose proof (drift_matrix dr k d0 E1 E3) as Hd.
  destruct (ctrl_at N rt _ s n k j c cs cj (sp_gens _ _ _ _ SP) E2 E4 Ej) as [Hcs Hcj].
  set (g := lincomb (A := A) d0 row cs) in *. pose proof (gen_matrix N rt q s SP a k g Eg) as Hg.
  pose proof (phased_matrix N rt s t g (is_lin N rt q s SP) Hg) as [S1 P1].
  pose proof (phased_matrix N rt s t cj (is_lin N rt q s SP) Hcj) as [S2 P2].
  exists (mdexp (phased s t g) (phased s t cj)). splits.
  - unfold dslot. rewrite E2, E5, Eg, (wp_tau _ _ _ W), E4, Ej. reflexivity.
  - split; auto with mat.
  - eapply der_ext; [|eapply (evolve_der N rt q (skipn (S k) (props_of s a))
      (fun x => mmul (propagator s t (lincomb (A := A) d0 (upd row j x) cs)) (evolve (A := A) (firstn k (props_of s a)) (s_initial s))));
      [apply Forall_skipn, props_matrix; auto|]].
    + intros x. unfold final_of. destruct (props_with_entry a k j row x Ha Er Hk) as (dr' & c' & d0' & cs' & t' & F1 & F2 & F3 & F4 & F5 & _ & _ & ->).
      rewrite E1 in F1. injection F1 as <-. rewrite E2 in F2. injection F2 as <-. rewrite E3 in F3. injection F3 as <-.
      rewrite E4 in F4. injection F4 as <-. rewrite E5 in F5. injection F5 as <-.
      rewrite evolve_upd by (destruct (mlens a Ha) as [QL _]; rewrite <- QL in Hk; exact Hk). reflexivity.
    + apply (der_mul_r N N q).
      * apply evolve_matrix; [apply Forall_firstn, props_matrix; auto|apply SP].
      * apply slot_der; auto. apply (is_lin N rt q s SP).
Qed.

Lemma massoc : forall x y z : Op A, omul A x (omul A y z) = omul A (omul A x y) z.
Proof. intros. apply mmul_assoc. Qed.
Lemma doverlap_is a k j dp : dslot (A := A) (dprop (A := A) mdexp s) s a k j = Some dp ->
  doverlap (A := A) (dprop (A := A) mdexp s) s a k j = Some (mtr (mmul (undo_target s) (dfin a k dp))).
Proof.
  intros E. unfold doverlap. rewrite E. f_equal. cbn [otr omul MatAlg]. f_equal.
  rewrite <- mmul_assoc. apply (devolve_evolve (A := A) massoc).
Qed.
Lemma dfinal_is a k j dp : dslot (A := A) (dprop (A := A) mdexp s) s a k j = Some dp ->
  dfinal (A := A) (dprop (A := A) mdexp s) s a k j = Some (dfin a k dp).
Proof.
  intros E. unfold dfinal. rewrite E. unfold dfin. destruct (product (A := A) (skipn (S k) (props_of s a))) as [p|] eqn:Ep.
  - f_equal. apply (product_evolve (A := A) massoc); auto.
  - f_equal. destruct (skipn (S k) (props_of s a)) as [|p ps]; auto.
    destruct (product_total (A := A) (p :: ps)) as (z & Ez); [discriminate|]. congruence.
Qed.

Lemma undo_sized : sized q N (undo_target s).
Proof.
  destruct (sp_target _ _ _ _ SP) as [S P]. unfold undo_target. destruct (s_class s); cbn [osquare MatAlg odag oinv].
  - destruct (Nat.eqb_spec (nr (s_target s)) (nc (s_target s))) as [E|E]; [|auto with mat].
    pose proof S as [S1 S2]. replace q with N in * by congruence. apply (ex_inv_size _ _ EX); auto.
  - auto with mat.
Qed.
Lemma overlap_der a k j x0 : shape n m a -> entry a k j = Some x0 -> exists z,
  doverlap (A := A) (dprop (A := A) mdexp s) s a k j = Some z /\
  derC (fun x => overlap s (with_entry a k j x)) x0 z.
Proof.
  intros Ha E. destruct (final_der a k j x0 Ha E) as (dp & Ed & Mp & D). exists (mtr (mmul (undo_target s) (dfin a k dp))).
  split; [apply doverlap_is; auto|]. unfold overlap. cbn [otr omul MatAlg].
  apply (derM_tr q (fun x => mmul (undo_target s) (final_of s (with_entry a k j x)))). apply (der_mul_l q N q); auto using undo_sized.
Qed.

(** *** Derivatives of real functions *)
Lemma is_derive_Cmod (f : R -> C) x z : derC f x z -> f x <> RtoC 0 ->
  is_derive (fun t => Cmod (f t)) x (Re (z * conj_phase (f x))%C).
Proof.
  intros [D1 D2] Hn. assert (Hm : (Cmod (f x) <> 0)%R) by (intros E; apply Hn, Cmod_eq_0; auto).
  assert (Hp : (0 < Re (f x) * Re (f x) + Im (f x) * Im (f x))%R).
  { pose proof (Cmod_ge_0 (f x)). pose proof (Cmod_sqr (f x)) as H2. cbn in H2. unfold Re, Im. nra. }
  assert (D : is_derive (fun t => (Re (f t) * Re (f t) + Im (f t) * Im (f t))%R) x (2 * (Re (f x) * Re z + Im (f x) * Im z))%R).
  { evar_last. apply (is_derive_plus (K := R_AbsRing) (V := R_NormedModule)); apply rd_mult; eauto. cbn. unfold plus; cbn. ring. }
  eapply is_derive_ext with (f := fun t => sqrt (Re (f t) * Re (f t) + Im (f t) * Im (f t))%R).
  { intros t. unfold Cmod, Re, Im. f_equal. ring. }
  evar_last. apply is_derive_sqrt; [exact D|exact Hp].
  unfold conj_phase. destruct Req_EM_T; [tauto|].
  replace (sqrt (Re (f x) * Re (f x) + Im (f x) * Im (f x))) with (Cmod (f x)) by (unfold Cmod, Re, Im; f_equal; ring).
  cbn. unfold Re, Im. field. auto.
Qed.
Lemma is_derive_scaled (f : R -> R) x d c : is_derive f x d -> is_derive (fun t => f t / c)%R x (d / c)%R.
Proof.
  intros D. eapply is_derive_ext with (f := fun t => (/ c * f t)%R); [intros; cbn; unfold Rdiv; ring|].
  evar_last. apply (is_derive_scal f x (/ c)%R d D). unfold Rdiv. ring.
Qed.
Lemma is_derive_one_minus (f : R -> R) x d : is_derive f x d -> f x <> 1%R ->
  is_derive (fun t => Rabs (1 - f t)) x ((if Rle_dec 1 (f x) then 1 else -1) * d)%R.
Proof.
  intros D Hn. assert (D1 : is_derive (fun t => 1 - f t)%R x (- d)%R).
  { evar_last. apply (is_derive_minus (K := R_AbsRing) (V := R_NormedModule) (fun _ => 1%R) f x 0%R d); [apply (is_derive_const (K := R_AbsRing) (V := R_NormedModule))|auto]. unfold minus, plus, opp; cbn. ring. }
  evar_last. apply (is_derive_Rabs (fun t => 1 - f t)%R x (- d)%R D1). lra.
  destruct Rle_dec; unfold sign; destruct total_order_T as [[|]|]; try lra.
Qed.

Lemma err_der_unit a k j x0 : shape n m a -> entry a k j = Some x0 -> s_fid s = FUnit ->
  fidelity_of s a <> 1%R -> (s_phopt s = PSU -> overlap s a <> RtoC 0) ->
  exists y, grad_entry_of (A := A) (dprop (A := A) mdexp s) s a k j = Some y /\
    is_derive (fun x => fid_err_of s (with_entry a k j x)) x0 y.
Proof.
  intros Ha E HF H1 H2. destruct (overlap_der a k j x0 Ha E) as (z & Ez & D). unfold grad_entry_of. rewrite HF, Ez.
  eexists; split; [reflexivity|]. pose proof (with_entry_same a k j x0 E) as S0.
  assert (Df : is_derive (fun x => fidelity_of s (with_entry a k j x)) x0
     (match s_phopt s with SU => Re z / Re (target_norm s) | PSU => Re (z * conj_phase (overlap s a))%C / Cmod (target_norm s) end)%R).
  { unfold fidelity_of. destruct (s_phopt s).
    - apply is_derive_scaled. apply D.
    - apply is_derive_scaled. pose proof (is_derive_Cmod _ _ _ D) as Q. cbn beta in Q. rewrite S0 in Q. apply Q; auto. }
  pose proof (is_derive_one_minus _ _ _ Df) as Q. cbn beta in Q. rewrite S0 in Q. specialize (Q H1).
  eapply is_derive_ext; [|exact Q]. intros t. unfold fid_err_of. rewrite HF. auto.
Qed.

Lemma trace_sq_der F x D : der N q F x D -> matrix N q (s_target s) ->
  is_derive (fun t => Re (mtr (mmul (mdag (msub (s_target s) (F t))) (msub (s_target s) (F t))))) x
            (-2 * Re (mtr (mmul (mdag (msub (s_target s) (F x))) D)))%R.
Proof.
  intros HF [ST PT]. pose proof HF as (SF & SD & _). set (G := fun t => msub (s_target s) (F t)).
  assert (SG : forall t, sized N q (G t)) by (intros; unfold G; auto with mat).
  assert (DG : der N q G x (mscal (- RtoC 1)%C D)).
  { split; [auto|split; [auto with mat|]]. intros i j Hi Hj. change (nr (mscal (- RtoC 1)%C D)) with (nr D) in Hi. change (nc (mscal (- RtoC 1)%C D)) with (nc D) in Hj. destruct SD as [SD1 SD2].
    apply derC_ext with (f := fun t => (ent (s_target s) i j - ent (F t) i j)%C).
    { intros t. unfold G. rewrite (msub_ent N q); auto; lia. }
    eapply derC_eq; [apply derC_minus; [apply derC_const|apply HF; auto]|]. rewrite (mscal_ent N q) by (try split; auto; lia). ring. }
  pose proof (der_mul q N q _ _ x _ _ (der_dag _ _ _ _ _ DG) DG) as DT.
  apply derM_tr in DT. destruct DT as [DT _]. cbn beta in DT.
  evar_last; [exact DT|]. rewrite (mdag_scal N q), (mmul_scal_l q N q), (mmul_scal_r q N q) by auto with mat.
  change (Re (mtr (madd (mscal (Cconj (- RtoC 1)%C) (mmul (mdag D) (G x))) (mscal (- RtoC 1)%C (mmul (mdag (G x)) D)))) = (-2 * Re (mtr (mmul (mdag (G x)) D)))%R).
  assert (C1 : mtr (mmul (mdag D) (G x)) = Cconj (mtr (mmul (mdag (G x)) D))).
  { unfold mtr. assert (S1 : sized q q (mmul (mdag D) (G x))) by eauto with mat. assert (S2 : sized q q (mmul (mdag (G x)) D)) by eauto with mat.
    rewrite (proj1 S1), (proj1 S2), csum_conj. apply csum_ext. intros i Hi. rewrite !(mmul_ent q N q), csum_conj by auto with mat.
    apply csum_ext. intros l Hl. rewrite !(mdag_ent N q), Cconj_mult, Cconj_conj by auto. ring. }
  assert (T : forall X Y u v, sized q q X -> sized q q Y -> mtr (madd (mscal u X) (mscal v Y)) = (u * mtr X + v * mtr Y)%C).
  { intros X Y u v SX SY. unfold mtr. assert (S1 : sized q q (madd (mscal u X) (mscal v Y))) by auto with mat.
    rewrite (proj1 S1), (proj1 SX), (proj1 SY), <- !csum_scal_l, <- csum_plus. apply csum_ext. intros i Hi.
    rewrite (madd_ent q q), !(mscal_ent q q) by auto with mat. auto. }
  rewrite T, C1 by eauto with mat. generalize (mtr (mmul (mdag (G x)) D)). intros [u v]. cbn. ring.
Qed.
Lemma err_der_trace a k j x0 : shape n m a -> entry a k j = Some x0 -> s_fid s = FTrace ->
  exists y, grad_entry_of (A := A) (dprop (A := A) mdexp s) s a k j = Some y /\
    is_derive (fun x => fid_err_of s (with_entry a k j x)) x0 y.
Proof.
  intros Ha E HF. destruct (final_der a k j x0 Ha E) as (dp & Ed & Mp & D). pose proof (with_entry_same a k j x0 E) as S0.
  unfold grad_entry_of. rewrite HF, (dfinal_is a k j dp Ed). eexists; split; [reflexivity|].
  pose proof (trace_sq_der _ _ _ D (sp_target _ _ _ _ SP)) as Q. cbn beta in Q. rewrite S0 in Q.
  eapply is_derive_ext with (f := fun x => (trace_scale s * Re (mtr (mmul (mdag (msub (s_target s) (final_of s (with_entry a k j x)))) (msub (s_target s) (final_of s (with_entry a k j x))))))%R).
  { intros t. unfold fid_err_of, trace_dist. rewrite HF. reflexivity. }
  evar_last; [apply (is_derive_scal _ x0 (trace_scale s) _ Q)|]. cbn [otr omul odag osub MatAlg]. ring.
Qed.
End Grad.
