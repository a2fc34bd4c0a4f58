(** The problem in another basis: facts for [Props/PropsPhysics.v]. *)
From Coq Require Import Reals Lra.
From Coquelicot Require Import Coquelicot.
From RecordUpdate Require Import RecordUpdate.
From Verif.Model Require Import Base Dyn.
From Verif.Lib Require Import Lists Csum Mat MExp MCalc MDiag MComm.
From Verif.Spec Require Import Evolution History MatAlg Physics.
From Verif.Proofs Require Import DynInv DynRun DynHist DynHistory DynProps DynMore MatFacts MatGrad MatProps PhysFacts.
Local Open Scope nat_scope.
Set Bullet Behavior "Strict Subproofs".

(** ** Conjugation by a unitary *)
Section Conj.
Context (N : nat) (V : mat) (HV : unitary N V).
Definition cj (x : mat) : mat := mmul (mmul V x) (mdag V).
Lemma V_sized : sized N N V. Proof. apply HV. Qed.
Lemma V_proper : proper V. Proof. apply HV. Qed.
Hint Resolve V_sized V_proper : mat.
Lemma cj_sized x : sized N N x -> sized N N (cj x). Proof. intros. unfold cj. eauto with mat. Qed.
Lemma cj_proper x : proper (cj x). Proof. apply proper_mul. Qed.
Hint Resolve cj_sized cj_proper : mat.
Lemma cj_matrix x : matrix N N x -> matrix N N (cj x). Proof. intros [S P]. split; auto with mat. Qed.
Lemma V_cancel c x : sized N c x -> proper x -> mmul (mdag V) (mmul V x) = x.
Proof. intros S P. rewrite mmul_assoc. destruct HV as (_ & _ & E & _). rewrite E. apply (mmul_1_l N c); auto. Qed.
Lemma cj_mul_l c x y : sized N N x -> sized N c y -> proper y -> mmul (cj x) (mmul V y) = mmul V (mmul x y).
Proof. intros S1 S2 P. unfold cj. rewrite <- mmul_assoc, (V_cancel c) by auto. rewrite <- mmul_assoc. auto. Qed.
Lemma cj_mul x y : sized N N x -> sized N N y -> proper y -> mmul (cj x) (cj y) = cj (mmul x y).
Proof.
  intros S1 S2 P. unfold cj at 2 3. rewrite mmul_assoc. rewrite (cj_mul_l N) by auto. auto.
Qed.
Lemma cj_add x y : sized N N x -> sized N N y -> cj (madd x y) = madd (cj x) (cj y).
Proof. intros S1 S2. unfold cj. rewrite (mmul_add_r N N N), (mmul_add_l N N N); eauto with mat. Qed.
Lemma cj_scal z x : sized N N x -> cj (mscal z x) = mscal z (cj x).
Proof. intros S. unfold cj. rewrite (mmul_scal_r N N N), (mmul_scal_l N N N); eauto with mat. Qed.
Lemma cj_dag x : sized N N x -> cj (mdag x) = mdag (cj x).
Proof.
  intros S. unfold cj. rewrite (mdag_mul N N N), (mdag_mul N N N), (mdag_dag N N) by eauto with mat. symmetry. apply mmul_assoc.
Qed.
Lemma cj_exp x : matrix N N x -> mexp (cj x) = cj (mexp x).
Proof.
  intros [S P]. pose proof HV as (SV & PV & E1 & E2).
  assert (H : mmul (mmul (mexp (cj x)) V) (mexp (mscal (- RtoC 1)%C x)) = V).
  { apply (mexp_conj N); auto with mat. unfold cj. rewrite <- mmul_assoc, E1, (mmul_1_r N N) by eauto with mat.
    rewrite (mmul_scal_r N N N) by auto. apply (mat_ext N N); eauto with mat. intros i j Hi Hj.
    rewrite (madd_ent N N), (mscal_ent N N) by eauto with mat. unfold mzero. rewrite ent_tab by auto. ring. }
  assert (H' : mmul (mexp (cj x)) V = mmul V (mexp x)).
  { rewrite <- H at 2. rewrite <- mmul_assoc, (mneg_inv N), (mmul_1_r N N) by (auto; eauto using mexp_sized with mat). auto. }
  unfold cj at 2. rewrite <- H', <- mmul_assoc, E2, (mmul_1_r N N); auto.
  - apply mexp_sized. auto with mat.
  - apply mexp_proper.
Qed.
Lemma cj_dexp x e : matrix N N x -> matrix N N e -> mdexp (cj x) (cj e) = cj (mdexp x e).
Proof.
  intros [Sx Px] [Se Pe]. apply (der_unique N N (fun u => mexp (madd (cj x) (mscal (RtoC (u - 0)) (cj e)))) 0%R).
  - apply der_mexp; auto with mat.
  - eapply der_ext; [|unfold cj; apply (der_mul_r N N N); [auto with mat|apply (der_mul_l N N N); [auto with mat|apply (der_mexp N x e 0); auto]]].
    intros t. cbn beta. change (cj (mexp (madd x (mscal (RtoC (t - 0)) e))) = mexp (madd (cj x) (mscal (RtoC (t - 0)) (cj e)))).
    rewrite <- cj_exp by (split; auto with mat). rewrite cj_add, cj_scal by auto with mat. auto.
  - apply mdexp_proper.
  - auto with mat.
Qed.
End Conj.

(** ** Gradient entries from the derivative of the final operator *)
Section Form.
Context (N : nat) (rt : routines).
Notation A := (MatAlg N rt).
Definition gform (s : settings A) (a : amps) (D : mat) : R :=
  match s_fid s with
  | FUnit =>
    ((if Rle_dec 1 (fidelity_of s a) then 1 else -1) *
     match s_phopt s with
     | SU => Re (mtr (mmul (undo_target s) D)) / Re (target_norm s)
     | PSU => Re (mtr (mmul (undo_target s) D) * conj_phase (overlap s a))%C / Cmod (target_norm s)
     end)%R
  | FTrace => (-2 * trace_scale s * Re (mtr (mmul (mdag (msub (s_target s) (final_of s a))) D)))%R
  end.
Lemma entry_as (s : settings A) a k j : grad_entry_of (dprop (A := A) mdexp s) s a k j =
  option_map (fun dp => gform s a (dfin N rt s a k dp)) (dslot (dprop (A := A) mdexp s) s a k j).
Proof.
  unfold grad_entry_of, gform. destruct (dslot (dprop (A := A) mdexp s) s a k j) as [dp|] eqn:E.
  - rewrite (doverlap_is N rt s a k j dp E), (dfinal_is N rt s a k j dp E). cbn [option_map]. destruct (s_fid s); auto.
  - unfold doverlap, dfinal. rewrite E. destruct (s_fid s); auto.
Qed.
Lemma dslot_matrix q (s : settings A) n m a k j dp : exact_routines N rt -> sized_problem N rt q s -> well_posed s n m ->
  dslot (dprop (A := A) mdexp s) s a k j = Some dp -> matrix N N dp.
Proof.
  intros EX SP W. unfold dslot. destruct (eff_ctrls s) as [c|] eqn:Ec; try discriminate.
  destruct (nth_error (s_tau s) k) as [t|]; try discriminate. destruct (nth_error (gens_of s a) k) as [g|] eqn:Eg; try discriminate.
  destruct (nth_error (ctrl_ops (A := A) (length (s_tau s)) c) k) as [cs|] eqn:Es; try discriminate.
  destruct (nth_error cs j) as [cj|] eqn:Ej; try discriminate. intros [= <-]. unfold dprop.
  pose proof (gens_all N rt s a (sp_gens _ _ _ _ SP)) as FG. rewrite Forall_forall in FG.
  pose proof (phased_matrix N rt s t g (is_lin N rt q s SP) (FG _ (nth_error_In _ _ Eg))) as [S P].
  split; [apply mdexp_sized; auto|apply mdexp_proper].
Qed.
End Form.

(** ** The rotated problem *)
Section Rot.
Context (N : nat) (rt : routines) (EX : exact_routines N rt).
Notation A := (MatAlg N rt).
Context (q : nat) (s : settings A) (n m : nat) (V U : mat).
Hypothesis HV : unitary N V.
Hypothesis HU : unitary q U.
Hypothesis SP : sized_problem N rt q s.
Hypothesis W : well_posed s n m.
Hypothesis HD : diag_suits N rt s.
Notation s' := (rotated N rt V U s).
Hint Resolve cj_sized cj_proper : mat.

Lemma rot_drift : eff_drift s' = option_map (each_drift (A := A) (cj V)) (eff_drift s).
Proof. apply (with_ops_drift s). Qed.
Lemma rot_ctrls : eff_ctrls s' = option_map (each_ctrl (A := A) (cj V)) (eff_ctrls s).
Proof. apply (with_ops_ctrls s). Qed.
Lemma rot_well : well_posed s' n m.
Proof. eapply each_well; [exact W|exact rot_drift|exact rot_ctrls|auto|auto|]. apply W. Qed.
Definition side (x : mat) : mat := mmul (mmul V x) U.
Lemma side_matrix x : matrix N q x -> matrix N q (side x).
Proof. intros [S P]. destruct HV as (SV & PV & _), HU as (SU & PU & _). unfold side. split; eauto with mat. Qed.
Lemma rot_sized : sized_problem N rt q s'.
Proof.
  destruct SP as [H1 H2 H3 H4 H5]. constructor.
  - eapply each_all; [|exact H1|exact rot_drift|exact rot_ctrls]. apply cj_matrix; auto.
  - apply side_matrix, H2.
  - apply side_matrix, H3.
  - cbn. destruct (s_phase s) as [[c|o]|]; cbn; auto. apply cj_matrix; auto.
  - cbn. auto.
Qed.
Lemma rot_suits : diag_suits N rt s'.
Proof.
  intros E. destruct (HD E) as [[H1 H2] H3]. split; auto. constructor.
  - destruct (generators_and N rt s _ _ (sp_gens _ _ _ _ SP) H1) as [G1 G2].
    eapply (each_all N rt (fun y => matrix N N y /\ hermitian y)); [|split; [exact G1|exact G2]|exact rot_drift|exact rot_ctrls].
    intros y [[S P] Hy]. unfold hermitian in *. rewrite <- (cj_dag N); auto. rewrite Hy. auto.
  - cbn. rewrite H2. auto.
Qed.
Lemma rot_additive : additive N (cj V).
Proof. intros x y u [S1 P1] [S2 P2]. rewrite (cj_add N), (cj_scal N) by auto with mat. auto. Qed.
Lemma rot_phase g : matrix N N g -> with_phase s' (cj V g) = cj V (with_phase s g).
Proof.
  intros [S P]. pose proof (is_lin N rt q s SP) as [L1 L2]. unfold with_phase. cbn.
  destruct (s_phase s) as [[z|o]|]; cbn; auto.
  - destruct (s_phapp s); [| |tauto]; symmetry; apply (cj_scal N); auto.
  - destruct L1 as [So Po]. fold (cj V o). destruct (s_phapp s); [| |tauto]; apply (cj_mul N); auto.
Qed.
Lemma rot_phased t g : matrix N N g -> phased s' t (cj V g) = cj V (phased s t g).
Proof.
  intros H. unfold phased. rewrite rot_phase by auto. destruct (with_phase_matrix N rt s g (is_lin N rt q s SP) H) as [S P].
  symmetry. apply (cj_scal N); auto.
Qed.
Lemma rot_prop t g : matrix N N g -> propagator s' t (cj V g) = cj V (propagator s t g).
Proof.
  intros H. rewrite (prop_is N rt EX q s SP t g H). rewrite (prop_is N rt EX q s' rot_sized t) by (apply cj_matrix; auto).
  rewrite rot_phased by auto. apply (cj_exp N); auto. apply phased_matrix; auto. apply (is_lin N rt q s SP).
Qed.
Lemma rot_props a : props_of s' a = map (cj V) (props_of s a).
Proof.
  apply (each_props N rt (cj V) (cj V) (fun t => t) s s').
  - apply rot_additive.
  - apply SP.
  - apply rot_drift.
  - apply rot_ctrls.
  - symmetry. apply map_id.
  - apply rot_prop.
Qed.
Lemma rot_dslot a i j : dslot (dprop (A := A) mdexp s') s' a i j = option_map (cj V) (dslot (dprop (A := A) mdexp s) s a i j).
Proof.
  apply (each_dslot N rt (cj V) (cj V) (fun t => t) s s').
  - apply rot_additive.
  - apply SP.
  - apply rot_drift.
  - apply rot_ctrls.
  - symmetry. apply map_id.
  - intros t g c Hg Hc. change (mdexp (phased s' t (cj V g)) (phased s' t (cj V c)) = cj V (mdexp (phased s t g) (phased s t c))).
    rewrite !rot_phased by auto. apply (cj_dexp N); auto; apply phased_matrix; auto; apply (is_lin N rt q s SP).
Qed.
Lemma side_mul p x : matrix N N p -> matrix N q x -> mmul (cj V p) (side x) = side (mmul p x).
Proof.
  intros [Sp Pp] [Sx Px]. unfold side. rewrite mmul_assoc, (cj_mul_l N V HV q) by auto. auto.
Qed.
Lemma rot_evolve ps x : Forall (matrix N N) ps -> matrix N q x ->
  evolve (A := A) (map (cj V) ps) (side x) = side (evolve (A := A) ps x).
Proof.
  intros F. revert x. induction F as [|p ps Hp F IH]; intros x Hx; cbn; auto.
  rewrite side_mul by auto. apply IH. destruct Hp, Hx. split; eauto with mat.
Qed.
Section At.
Context (a : amps).
Hypothesis Ha : shape n m a.
Lemma rot_final : final_of s' a = side (final_of s a).
Proof.
  unfold final_of. rewrite rot_props. change (s_initial s') with (side (s_initial s)). apply rot_evolve; [|apply SP].
  eapply props_matrix; eauto.
Qed.
Lemma rot_dfin k dp : matrix N N dp -> dfin N rt s' a k (cj V dp) = side (dfin N rt s a k dp).
Proof.
  intros Hd. pose proof (props_matrix N rt EX q s n m SP W HD a Ha) as F.
  unfold dfin. rewrite rot_props. change (s_initial s') with (side (s_initial s)).
  assert (E1 : firstn k (map (cj V) (props_of s a)) = map (cj V) (firstn k (props_of s a))) by apply firstn_map.
  assert (E2 : skipn (S k) (map (cj V) (props_of s a)) = map (cj V) (skipn (S k) (props_of s a))) by apply skipn_map.
  etransitivity; [apply f_equal2; [exact E2|apply f_equal2; [reflexivity|apply f_equal2; [exact E1|reflexivity]]]|].
  assert (Hx : matrix N q (evolve (A := A) (firstn k (props_of s a)) (s_initial s))) by (apply evolve_matrix; [apply Forall_firstn; auto|apply SP]).
  rewrite rot_evolve by (auto using Forall_firstn; apply SP). rewrite side_mul by auto.
  apply rot_evolve; [apply Forall_skipn; auto|]. destruct Hd, Hx. split; eauto with mat.
Qed.
End At.
(** Inner products do not change. *)
Lemma side_inner y x : sized q N y -> matrix N q x ->
  mtr (mmul (mmul (mmul (mdag U) y) (mdag V)) (side x)) = mtr (mmul y x).
Proof.
  intros Sy [Sx Px]. destruct HV as (SV & PV & V1 & V2), HU as (SU & PU & U1 & U2). unfold side.
  rewrite <- !mmul_assoc. rewrite (mmul_assoc (mdag V)), (mmul_assoc (mmul (mdag V) V)) || idtac.
  assert (E : mmul (mdag V) (mmul V (mmul x U)) = mmul x U) by (apply (V_cancel N V HV q); eauto with mat).
  rewrite ?mmul_assoc in *. rewrite <- !mmul_assoc in *. 
  replace (mmul (mdag V) (mmul V (mmul x U))) with (mmul x U) by auto.
  rewrite (mtr_mul q q) by eauto with mat. rewrite <- !mmul_assoc, U2. rewrite (mmul_1_r N q) by auto. auto.
Qed.
Lemma side_dag x : matrix N q x -> mdag (side x) = mmul (mmul (mdag U) (mdag x)) (mdag V).
Proof.
  intros [Sx Px]. destruct HV as (SV & PV & V1 & V2), HU as (SU & PU & U1 & U2). unfold side.
  rewrite (mdag_mul N q q), (mdag_mul N N q) by eauto with mat. apply mmul_assoc.
Qed.
Lemma side_sub x y : matrix N q x -> matrix N q y -> msub (side x) (side y) = side (msub x y).
Proof.
  intros [Sx Px] [Sy Py]. destruct HV as (SV & PV & V1 & V2), HU as (SU & PU & U1 & U2). unfold side.
  rewrite (mmul_sub_r N N q), (mmul_sub_l N q q); eauto with mat.
Qed.
Lemma rot_norm : target_norm s' = target_norm s.
Proof.
  unfold target_norm. change (s_target s') with (side (s_target s)). cbn [otr omul odag MatAlg]. pose proof (sp_target _ _ _ _ SP) as H.
  rewrite side_dag by auto. apply side_inner; auto. destruct H. auto with mat.
Qed.
Lemma rot_undo : s_class s = Unitary \/ q <> N \/ (exact_inv N rt /\ isometry N q (s_target s)) ->
  undo_target s' = mmul (mmul (mdag U) (undo_target s)) (mdag V).
Proof.
  pose proof (sp_target _ _ _ _ SP) as H. intros [E|[E|[HI HT]]].
  - unfold undo_target. change (s_class s') with (s_class s). rewrite E. apply side_dag; auto.
  - destruct H as [S P]. pose proof S as [S1 S2]. pose proof (proj1 (side_matrix _ (conj S P))) as [S3 S4].
    unfold undo_target. change (s_class s') with (s_class s). change (s_target s') with (side (s_target s)). cbn [osquare MatAlg].
    rewrite S1, S2, S3, S4. destruct (Nat.eqb_spec N q); [congruence|]. destruct (s_class s); apply side_dag; split; auto.
  - rewrite (undo_is N rt q s SP) by auto. rewrite (undo_is N rt q s' rot_sized); auto. { apply side_dag; auto. }
    change (s_target s') with (side (s_target s)). split; [apply side_matrix; auto|]. destruct HT as [_ HT].
    destruct H as [S P]. destruct HV as (SV & PV & V1 & V2), HU as (SU & PU & U1 & U2).
    rewrite side_dag by (split; auto). unfold side. rewrite <- !mmul_assoc.
    rewrite (V_cancel N V HV q) by eauto with mat. rewrite (mmul_assoc (mdag (s_target s))), HT, (mmul_1_l q q); auto.
Qed.
Section At2.
Context (a : amps).
Hypothesis Ha : shape n m a.
Hypothesis HC : s_fid s = FTrace \/ s_class s = Unitary \/ q <> N \/ (exact_inv N rt /\ isometry N q (s_target s)).
Lemma rot_overlap : s_fid s = FUnit -> overlap s' a = overlap s a.
Proof.
  intros HF. destruct HC as [|HC']; [congruence|]. unfold overlap. rewrite rot_final, rot_undo by auto. cbn [otr omul MatAlg].
  apply side_inner; [eapply undo_sized; eauto|eapply final_matrix; eauto].
Qed.
Lemma rot_fidelity : s_fid s = FUnit -> fidelity_of s' a = fidelity_of s a.
Proof. intros HF. unfold fidelity_of. change (s_phopt s') with (s_phopt s). rewrite rot_overlap, rot_norm; auto. Qed.
Lemma rot_diff : msub (s_target s') (final_of s' a) = side (msub (s_target s) (final_of s a)).
Proof.
  rewrite rot_final by auto. change (s_target s') with (side (s_target s)). apply side_sub; [apply SP|eapply final_matrix; eauto].
Qed.
Lemma diff_matrix : matrix N q (msub (s_target s) (final_of s a)).
Proof. destruct (sp_target _ _ _ _ SP). split; auto with mat. Qed.
Lemma rot_err : fid_err_of s' a = fid_err_of s a.
Proof.
  unfold fid_err_of. change (s_fid s') with (s_fid s). case_eq (s_fid s); intros HF; [rewrite rot_fidelity; auto|].
  unfold trace_dist. cbn [osub otr omul odag MatAlg]. rewrite rot_diff. pose proof diff_matrix as H. rewrite side_dag by auto.
  rewrite side_inner; auto. destruct H. auto with mat.
Qed.
Lemma rot_entry k j : grad_entry_of (dprop (A := A) mdexp s') s' a k j = grad_entry_of (dprop (A := A) mdexp s) s a k j.
Proof.
  rewrite !entry_as, rot_dslot. destruct (dslot (dprop (A := A) mdexp s) s a k j) as [dp|] eqn:E; auto. cbn [option_map]. f_equal.
  pose proof (dslot_matrix N rt q s n m a k j dp EX SP W E) as Hd. rewrite rot_dfin by auto.
  assert (HF : matrix N q (dfin N rt s a k dp)).
  { pose proof (props_matrix N rt EX q s n m SP W HD a Ha) as F. unfold dfin. apply evolve_matrix; [apply Forall_skipn; auto|].
    pose proof (evolve_matrix N rt q (firstn k (props_of s a)) (s_initial s) (Forall_firstn _ _ _ F) (sp_initial _ _ _ _ SP)) as [S P].
    destruct Hd. split; eauto with mat. }
  unfold gform. change (s_fid s') with (s_fid s). change (s_phopt s') with (s_phopt s). case_eq (s_fid s); intros HF'.
  - rewrite rot_fidelity, rot_overlap, rot_norm, rot_undo by (auto; destruct HC; congruence || auto).
    rewrite side_inner by (auto; eapply undo_sized; eauto). auto.
  - rewrite rot_diff. pose proof diff_matrix as H. rewrite side_dag by auto. rewrite side_inner; auto. destruct H. auto with mat.
Qed.
End At2.
End Rot.
