(** Problems that describe the same physics: facts for [Props/PropsPhysics.v]. *)
From Coq Require Import Reals Lra Permutation.
From Coquelicot Require Import Coquelicot.
From RecordUpdate Require Import RecordUpdate.
From Verif.Model Require Import Base Dyn.
From Verif.Lib Require Import Lists Csum Mat MExp MCalc MDiag MComm.
From Verif.Spec Require Import Evolution History MatAlg Physics.
From Verif.Proofs Require Import DynInv DynRun DynHist DynHistory DynProps DynMore MatFacts MatGrad MatProps.
Local Open Scope nat_scope.
Set Bullet Behavior "Strict Subproofs".

Lemma map_repeat {X Y} (f : X -> Y) x n : map f (repeat x n) = repeat (f x) n.
Proof. induction n; cbn; congruence. Qed.

(** ** Any algebra *)
Section Any.
Context {A : Alg}.
Implicit Types (s : settings A).

Lemma session_reports s n m st a ops : well_posed s n m -> routines_ok s n m -> shape n m a -> Forall (call_ok s n m) ops ->
  reports s st a ops (final_of s (latest a ops)) (fid_err_of s (latest a ops)).
Proof.
  intros W RO Ha F. destruct (session_evolution s n m W RO st a ops Ha F) as (d & d1 & b & E & E1 & _ & _ & _ & (d2 & E2) & _).
  destruct (session_values s n m W RO st a ops Ha F) as (d' & d3 & _ & E' & E3 & _).
  rewrite E in E'. injection E' as <-. exists d, d1, b, d2, d3. splits; auto.
Qed.
Lemma session_reports_gradient dexp s n m st a ops : well_posed s n m -> routines_ok s n m -> shape n m a -> Forall (call_ok s n m) ops ->
  s_prop s <> Approx -> grad_routines_at dexp s n m (latest a ops) ->
  exists g, reports_gradient s st a ops g /\ grad_is (dprop dexp s) s (latest a ops) g.
Proof.
  intros W RO Ha F HA HG. destruct (session_gradient s n m W RO st a ops Ha F HA) as (d & d1 & g & E & E1 & G & _).
  exists g. split; [exists d, d1; auto|]. apply (grad_at s n m); auto; [apply W|eapply latest_shape; eauto].
Qed.

Lemma grad_same dP dP' s s' a a' g g' : grad_is dP s a g -> grad_is dP' s' a' g' -> length a' = length a ->
  (forall k j, grad_entry_of dP' s' a' k j = grad_entry_of dP s a k j) -> g' = g.
Proof.
  intros [L1 H1] [L2 H2] L H. apply list_ext; [congruence|]. intros k Hk.
  destruct (nth_ex g' k Hk) as (r1 & E1). destruct (nth_ex g k) as (r2 & E2); [congruence|].
  rewrite E1, E2. f_equal.
  assert (Q : forall j, nth_error r1 j = nth_error r2 j).
  { intros j. specialize (H1 k j); specialize (H2 k j). rewrite E2 in H1; rewrite E1 in H2. rewrite H1, H2. auto. }
  apply list_ext; auto.
  destruct (Nat.lt_trichotomy (length r1) (length r2)) as [Hl|[Hl|Hl]]; auto; exfalso.
  - pose proof (Q (length r1)) as Z. rewrite (proj2 (nth_error_None r1 _)) in Z by lia. symmetry in Z. apply nth_error_None in Z. lia.
  - pose proof (Q (length r2)) as Z. rewrite (proj2 (nth_error_None r2 _)) in Z by lia. apply nth_error_None in Z. lia.
Qed.

(** Everything but the operators. *)
Record same_rest s s' : Prop := {
  sr_initial : s_initial s' = s_initial s;
  sr_target : s_target s' = s_target s;
  sr_fid : s_fid s' = s_fid s;
  sr_phopt : s_phopt s' = s_phopt s;
  sr_scale : trace_scale s' = trace_scale s;
  sr_undo : s_fid s = FUnit -> undo_target s' = undo_target s;
}.
Lemma final_same s s' a a' : s_initial s' = s_initial s -> props_of s' a' = props_of s a -> final_of s' a' = final_of s a.
Proof. intros H1 H2. unfold final_of. rewrite H1, H2. auto. Qed.
Lemma err_same s s' a a' : same_rest s s' -> final_of s' a' = final_of s a -> fid_err_of s' a' = fid_err_of s a.
Proof.
  intros [H1 H2 H3 H4 H5 H6] E. unfold fid_err_of, fidelity_of, trace_dist, overlap, target_norm. rewrite H2, H3, H4, H5, E.
  case_eq (s_fid s); intros HF; auto. rewrite (H6 HF). auto.
Qed.
Lemma entry_same dP dP' s s' a a' k k' j j' : same_rest s s' -> props_of s' a' = props_of s a -> k' = k ->
  dslot dP' s' a' k' j' = dslot dP s a k j -> grad_entry_of dP' s' a' k' j' = grad_entry_of dP s a k j.
Proof.
  intros R E -> D. pose proof (final_same s s' a a' (sr_initial _ _ R) E) as EF.
  destruct R as [H1 H2 H3 H4 H5 H6].
  unfold grad_entry_of, doverlap, dfinal, fidelity_of, overlap, target_norm. rewrite H1, H2, H3, H4, H5, EF, E, D.
  case_eq (s_fid s); intros HF; auto. rewrite (H6 HF). auto.
Qed.

(** *** The same problem given and computed in another way *)
Section Same.
Context (s s' : settings A).
Hypothesis E : same_problem s s'.
Lemma same_gens a : gens_of s' a = gens_of s a.
Proof.
  destruct E as [_ H1 H2 _ _ Ht _ _ _ _ _]. unfold gens_of, slot_drifts, slot_ctrls in *. rewrite Ht in *.
  destruct (eff_drift s'), (eff_drift s); cbn in *; try discriminate; auto.
  destruct (eff_ctrls s'), (eff_ctrls s); cbn in *; try discriminate; auto.
  unfold generators. injection H1 as ->. injection H2 as ->. auto.
Qed.
Lemma same_phased g : with_phase s' g = with_phase s g.
Proof. unfold with_phase. rewrite (same_phase _ _ E), (same_phapp _ _ E). auto. Qed.
Lemma map2_ext {X Y Z} (f g : X -> Y -> Z) l1 l2 : (forall x y, f x y = g x y) -> map2 f l1 l2 = map2 g l1 l2.
Proof. intros H. revert l2. induction l1; intros [|]; cbn; auto. rewrite H, IHl1. auto. Qed.
Lemma same_props a : props_of s' a = props_of s a.
Proof.
  unfold props_of, propagators. rewrite same_gens, (same_tau _ _ E). apply map2_ext.
  intros t g. unfold propagator. rewrite same_phased. auto.
Qed.
Lemma same_is_rest : same_rest s s'.
Proof. constructor; try apply E. intros _. unfold undo_target. rewrite (same_class _ _ E), (same_target _ _ E). auto. Qed.
Lemma same_dslot dexp a k j : dslot (dprop dexp s') s' a k j = dslot (dprop dexp s) s a k j.
Proof.
  pose proof (same_ctrls _ _ E) as H. pose proof (same_tau _ _ E) as Ht. unfold dslot, slot_ctrls in *. rewrite same_gens. rewrite Ht in *.
  destruct (eff_ctrls s'), (eff_ctrls s); cbn in H; try discriminate; auto. injection H as ->.
  destruct nth_error; auto. destruct nth_error; auto. destruct nth_error; auto. destruct nth_error; auto.
  unfold dprop. rewrite !same_phased. auto.
Qed.
End Same.

(** *** Other operators *)
Lemma with_ops_drift s fd fc : eff_drift (with_ops s fd fc) = option_map fd (eff_drift s).
Proof. unfold with_ops, eff_drift. cbn. destruct (s_class s), (s_drift s); cbn; auto. destruct (s_drift_ham s); auto. Qed.
Lemma with_ops_ctrls s fd fc : eff_ctrls (with_ops s fd fc) = option_map fc (eff_ctrls s).
Proof. unfold with_ops, eff_ctrls. cbn. destruct (s_class s), (s_ctrls s); cbn; auto. destruct (s_ctrl_ham s); auto. Qed.
Lemma each_drift_ops (f : Op A -> Op A) n (d : drift A) : drift_ops n (each_drift f d) = map f (drift_ops n d).
Proof. destruct d; cbn; [rewrite map_repeat; auto|apply firstn_map]. Qed.
Lemma each_ctrl_ops (f : Op A -> Op A) n (c : ctrls A) : ctrl_ops n (each_ctrl f c) = map (map f) (ctrl_ops n c).
Proof. destruct c; cbn; [rewrite map_repeat; auto|apply firstn_map]. Qed.
End Any.

Lemma map3_map {X Y Z W X' Z' W'} (f : X -> Y -> Z -> W) (f' : X' -> Y -> Z' -> W') (gx : X -> X') (gz : Z -> Z') (gw : W -> W')
  (P : X -> Prop) (Q : Z -> Prop) l1 l2 l3 : (forall x y z, P x -> Q z -> f' (gx x) y (gz z) = gw (f x y z)) ->
  Forall P l1 -> Forall Q l3 -> map3 f' (map gx l1) l2 (map gz l3) = map gw (map3 f l1 l2 l3).
Proof.
  intros H F. revert l2 l3. induction F; intros [|y l2] [|z l3] F3; cbn; auto. inversion F3; subst. rewrite H, IHF; auto.
Qed.
Lemma map2_map {X Y Z X' Y' Z'} (f : X -> Y -> Z) (f' : X' -> Y' -> Z') (gx : X -> X') (gy : Y -> Y') (gz : Z -> Z')
  (P : Y -> Prop) l1 l2 : (forall x y, P y -> f' (gx x) (gy y) = gz (f x y)) ->
  Forall P l2 -> map2 f' (map gx l1) (map gy l2) = map gz (map2 f l1 l2).
Proof.
  intros H F. revert l1. induction F; intros [|x1 l1]; cbn; auto. rewrite H, IHF; auto.
Qed.

Lemma nth3_map {X} (f F : X -> X) (h : R -> R) (P : X -> Prop) (D D' : R -> X -> X -> X) :
  (forall t g c, P g -> P c -> D' (h t) (f g) (f c) = F (D t g c)) ->
  forall tl gl csl k j, Forall P gl -> Forall (Forall P) csl ->
  match nth_error (map h tl) k, nth_error (map f gl) k, nth_error (map (map f) csl) k with
  | Some t, Some g, Some cs => match nth_error cs j with Some cj => Some (D' t g cj) | None => None end
  | _, _, _ => None
  end = option_map F
  match nth_error tl k, nth_error gl k, nth_error csl k with
  | Some t, Some g, Some cs => match nth_error cs j with Some cj => Some (D t g cj) | None => None end
  | _, _, _ => None
  end.
Proof.
  intros H tl gl csl k j F1 F2. rewrite !nth_error_map. rewrite Forall_forall in F1, F2.
  destruct (nth_error tl k) as [t|]; auto. destruct (nth_error gl k) as [g|] eqn:Eg; auto.
  destruct (nth_error csl k) as [cs|] eqn:Es; auto. cbn [option_map]. rewrite nth_error_map. destruct (nth_error cs j) as [cj|] eqn:Ej; auto.
  cbn [option_map]. rewrite H; auto; [apply F1; eapply nth_error_In; eauto|].
  pose proof (F2 _ (nth_error_In _ _ Es)) as Q. rewrite Forall_forall in Q. apply Q. eapply nth_error_In; eauto.
Qed.

(** ** Matrices *)
Section Mat.
Context (N : nat) (rt : routines) (EX : exact_routines N rt).
Notation A := (MatAlg N rt).
Implicit Types (s : settings A).

Definition additive (f : mat -> mat) : Prop := forall x y u, matrix N N x -> matrix N N y ->
  f (madd x (mscal (RtoC u) y)) = madd (f x) (mscal (RtoC u) (f y)).
Lemma lincomb_each f d row (cs : list mat) : additive f -> matrix N N d -> Forall (matrix N N) cs ->
  lincomb (A := A) (f d) row (map f cs) = f (lincomb (A := A) d row cs).
Proof.
  intros Hf Hd Hc. revert d row Hd. induction Hc as [|c cs H Hc IH]; intros d [|u row] Hd; cbn; auto.
  rewrite <- Hf by auto. apply IH. apply matrix_closed; auto.
Qed.
Lemma drifts_all P s n dr : generators_all N rt P s -> eff_drift s = Some dr -> Forall P (drift_ops (A := A) n dr).
Proof.
  intros [H _] E. specialize (H _ E). destruct dr as [o|l]; cbn in *.
  - apply Forall_forall; intros x Hx; apply repeat_spec in Hx; subst; auto.
  - apply Forall_firstn; auto.
Qed.
Lemma ctrls_all_ops P s n c : generators_all N rt P s -> eff_ctrls s = Some c -> Forall (Forall P) (ctrl_ops (A := A) n c).
Proof.
  intros [_ H] E. specialize (H _ E). destruct c as [o|l]; cbn in *.
  - apply Forall_forall; intros x Hx; apply repeat_spec in Hx; subst; auto.
  - apply Forall_firstn; auto.
Qed.
Lemma gens_all s a : generators_all N rt (matrix N N) s -> Forall (matrix N N) (gens_of s a).
Proof. intros H. eapply gens_closed; auto. apply matrix_closed. Qed.

Section Each.
Context (f F : mat -> mat) (h : R -> R) (s s' : settings A).
Hypothesis Hf : additive f.
Hypothesis G : generators_all N rt (matrix N N) s.
Hypothesis Ed : eff_drift s' = option_map (each_drift (A := A) f) (eff_drift s).
Hypothesis Ec : eff_ctrls s' = option_map (each_ctrl (A := A) f) (eff_ctrls s).
Hypothesis Et : s_tau s' = map h (s_tau s).

Lemma each_gens a : gens_of s' a = map f (gens_of s a).
Proof.
  unfold gens_of. rewrite Ed, Ec, Et, map_length. destruct (eff_drift s) as [dr|] eqn:E1; auto. destruct (eff_ctrls s) as [c|] eqn:E2; auto.
  cbn [option_map]. unfold generators. rewrite (each_drift_ops (A := A)), (each_ctrl_ops (A := A)).
  apply (map3_map (lincomb (A := A)) (lincomb (A := A)) f (map f) f (matrix N N) (Forall (matrix N N))).
  - intros. apply lincomb_each; auto.
  - eapply drifts_all; eauto.
  - eapply ctrls_all_ops; eauto.
Qed.
Hypothesis HP : forall t g, matrix N N g -> propagator s' (h t) (f g) = F (propagator s t g).
Lemma each_props a : props_of s' a = map F (props_of s a).
Proof.
  unfold props_of, propagators. rewrite each_gens, Et. apply (map2_map (propagator s) (propagator s') h f F (matrix N N)); auto.
  apply gens_all; auto.
Qed.
Hypothesis HG : forall t g c, matrix N N g -> matrix N N c ->
  dprop (A := A) mdexp s' (h t) (f g) (f c) = F (dprop (A := A) mdexp s t g c).
Lemma each_dslot a k j : dslot (dprop (A := A) mdexp s') s' a k j = option_map F (dslot (dprop (A := A) mdexp s) s a k j).
Proof.
  unfold dslot. rewrite each_gens, Ec, Et, map_length. destruct (eff_ctrls s) as [c|] eqn:E2; auto. cbn [option_map].
  rewrite (each_ctrl_ops (A := A)).
  apply (nth3_map f F h (matrix N N) (dprop (A := A) mdexp s) (dprop (A := A) mdexp s') HG).
  - apply gens_all; auto.
  - eapply ctrls_all_ops; eauto.
Qed.
End Each.
Lemma each_well f s s' n m : well_posed s n m -> eff_drift s' = option_map (each_drift (A := A) f) (eff_drift s) ->
  eff_ctrls s' = option_map (each_ctrl (A := A) f) (eff_ctrls s) -> length (s_tau s') = length (s_tau s) ->
  s_cache_pg s' = s_cache_pg s -> (s_prop s' = Diag -> s_class s' = Unitary) -> well_posed s' n m.
Proof.
  intros [H1 H2 (dr & H3 & H3') (c & H4 & H4') H5 H6] Ed Ec Et E1 E2. constructor; auto; try congruence.
  - exists (each_drift (A := A) f dr). rewrite Ed, H3. split; auto. destruct dr; cbn in *; auto. rewrite map_length. auto.
  - exists (each_ctrl (A := A) f c). rewrite Ec, H4. split; auto. destruct c; cbn in *; rewrite map_length; auto.
    destruct H4' as [L Q]. split; auto. apply Forall_map. eapply Forall_impl; [|exact Q]. cbn. intros x Hx. rewrite map_length. auto.
  - rewrite E1. auto.
Qed.
Lemma each_all (P Q : mat -> Prop) f s s' : (forall x, P x -> Q (f x)) -> generators_all N rt P s ->
  eff_drift s' = option_map (each_drift (A := A) f) (eff_drift s) ->
  eff_ctrls s' = option_map (each_ctrl (A := A) f) (eff_ctrls s) -> generators_all N rt Q s'.
Proof.
  intros H [H1 H2] Ed Ec. split.
  - intros d. rewrite Ed. destruct (eff_drift s) as [dr|]; try discriminate. cbn [option_map]. intros [= <-]. specialize (H1 _ eq_refl).
    destruct dr; cbn in *; auto. apply Forall_map. eapply Forall_impl; [|exact H1]. auto.
  - intros c'. rewrite Ec. destruct (eff_ctrls s) as [c|]; try discriminate. cbn [option_map]. intros [= <-]. specialize (H2 _ eq_refl).
    destruct c; cbn in *; apply Forall_map.
    + eapply Forall_impl; [|exact H2]. auto.
    + eapply Forall_impl; [|exact H2]. cbn. intros x Hx. apply Forall_map. eapply Forall_impl; [|exact Hx]. auto.
Qed.

(** *** The phase multiplied into the operators *)
Lemma with_phase_additive s : lin N rt s -> additive (with_phase s).
Proof. intros L x y u Hx Hy. apply with_phase_lin; auto. Qed.
Lemma undo_same q s s' : sized_problem N rt q s -> sized_problem N rt q s' -> s_target s' = s_target s ->
  s_class s' = s_class s \/ s_fid s = FTrace \/ (exact_inv N rt /\ isometry N q (s_target s)) ->
  s_fid s = FUnit -> undo_target s' = undo_target s.
Proof.
  intros SP SP' Et [E|[E|[HI HT]]] HF; [|congruence|].
  - unfold undo_target. rewrite E, Et. auto.
  - rewrite (undo_is N rt q s SP) by auto. rewrite (undo_is N rt q s' SP'), Et by (rewrite ?Et; auto). auto.
Qed.
Section Fold.
Context (q : nat) (s : settings A) (n m : nat) (k : dclass) (p : propkind).
Hypothesis SP : sized_problem N rt q s.
Hypothesis W : well_posed s n m.
Hypothesis Hp : p <> Diag.
Notation s' := (phase_folded k p s).
Lemma fold_drift : eff_drift s' = option_map (each_drift (A := A) (with_phase s)) (eff_drift s).
Proof. destruct (wp_drift _ _ _ W) as (dr & E & _). unfold phase_folded, eff_drift at 1. cbn. rewrite E. destruct k; auto. Qed.
Lemma fold_ctrls : eff_ctrls s' = option_map (each_ctrl (A := A) (with_phase s)) (eff_ctrls s).
Proof. destruct (wp_ctrls _ _ _ W) as (c & E & _). unfold phase_folded, eff_ctrls at 1. cbn. rewrite E. destruct k; auto. Qed.
Lemma fold_well : well_posed s' n m.
Proof. eapply each_well; [exact W|exact fold_drift|exact fold_ctrls|auto|auto|]. cbn. intros E. congruence. Qed.
Lemma fold_sized : sized_problem N rt q s'.
Proof.
  pose proof (is_lin N rt q s SP) as L. destruct SP as [H1 H2 H3 H4 H5]. constructor; cbn; auto.
  eapply each_all; [|exact H1|exact fold_drift|exact fold_ctrls]. intros x Hx. apply with_phase_matrix; auto.
Qed.
Lemma fold_suits : diag_suits N rt s'.
Proof. intros E. cbn in E. congruence. Qed.
Lemma fold_props a : props_of s' a = props_of s a.
Proof.
  rewrite (each_props (with_phase s) (fun x => x) (fun t => t) s s').
  - apply map_id.
  - apply with_phase_additive, (is_lin N rt q s SP).
  - apply SP.
  - apply fold_drift.
  - apply fold_ctrls.
  - symmetry. apply map_id.
  - reflexivity.
Qed.
Lemma fold_dslot a i j : dslot (dprop (A := A) mdexp s') s' a i j = dslot (dprop (A := A) mdexp s) s a i j.
Proof.
  rewrite (each_dslot (with_phase s) (fun x => x) (fun t => t) s s').
  - destruct dslot; auto.
  - apply with_phase_additive, (is_lin N rt q s SP).
  - apply SP.
  - apply fold_drift.
  - apply fold_ctrls.
  - symmetry. apply map_id.
  - reflexivity.
Qed.
Lemma fold_rest : k = s_class s \/ s_fid s = FTrace \/ (exact_inv N rt /\ isometry N q (s_target s)) -> same_rest s s'.
Proof. intros H. constructor; auto. apply (undo_same q); auto. apply fold_sized. Qed.
End Fold.

(** *** Other units of time *)
Lemma with_phase_scal s g z : lin N rt s -> matrix N N g -> with_phase s (mscal z g) = mscal z (with_phase s g).
Proof.
  intros [L1 L2] [Sg Pg]. unfold with_phase. destruct (s_phase s) as [[x|o]|]; [| |auto].
  - destruct (s_phapp s); [| |tauto]; cbn; apply (mscal_comm N N); auto.
  - destruct L1 as [So Po]. destruct (s_phapp s); [| |tauto]; cbn.
    + apply (mmul_scal_r N N N); auto.
    + apply (mmul_scal_l N N N); auto.
Qed.
Section Units.
Context (q : nat) (s : settings A) (n m : nat) (x : R).
Hypothesis SP : sized_problem N rt q s.
Hypothesis W : well_posed s n m.
Hypothesis Hx : x <> 0%R.
Notation s' := (rescaled x s).
Lemma unit_drift : eff_drift s' = option_map (each_drift (A := A) (mscal (RtoC (/ x)))) (eff_drift s).
Proof. apply (with_ops_drift s). Qed.
Lemma unit_ctrls : eff_ctrls s' = option_map (each_ctrl (A := A) (mscal (RtoC (/ x)))) (eff_ctrls s).
Proof. apply (with_ops_ctrls s). Qed.
Lemma unit_well : well_posed s' n m.
Proof. eapply each_well; [exact W|exact unit_drift|exact unit_ctrls|apply map_length|auto|]. apply W. Qed.
Lemma scal_matrix z y : matrix N N y -> matrix N N (mscal z y).
Proof. intros [S P]. split; auto with mat. Qed.
Lemma unit_sized : sized_problem N rt q s'.
Proof.
  destruct SP as [H1 H2 H3 H4 H5]. constructor; cbn; auto.
  eapply each_all; [|exact H1|exact unit_drift|exact unit_ctrls]. apply scal_matrix.
Qed.
Lemma unit_suits : diag_suits N rt s -> diag_suits N rt s'.
Proof.
  intros H E. destruct (H E) as [[H1 H2] H3]. split; auto. constructor; auto.
  destruct (generators_and N rt s _ _ (sp_gens _ _ _ _ SP) H1) as [G1 G2].
  eapply (each_all (fun y => matrix N N y /\ hermitian y)); [|split; [exact G1|exact G2]|exact unit_drift|exact unit_ctrls].
  intros y [[S P] Hy]. unfold hermitian in *. rewrite (mdag_scal N N), Hy, Cconj_R; auto.
Qed.
Lemma unit_additive z : additive (mscal z).
Proof. intros y w u [S1 P1] [S2 P2]. rewrite (mscal_add N N), (mscal_comm N N) by auto with mat. auto. Qed.
Lemma unit_phased t g : matrix N N g -> phased s' (x * t) (mscal (RtoC (/ x)) g) = phased s t g.
Proof.
  intros Hg. unfold phased. change (with_phase s' (mscal (RtoC (/ x)) g)) with (with_phase s (mscal (RtoC (/ x)) g)).
  pose proof (is_lin N rt q s SP) as L. rewrite with_phase_scal by auto. destruct (with_phase_matrix N rt s g L Hg) as [S P].
  cbn [oscale MatAlg]. rewrite (mscal_scal N N) by auto. f_equal. rewrite <- RtoC_mult. f_equal. field. auto.
Qed.
Lemma unit_props a : props_of s' a = props_of s a.
Proof.
  rewrite (each_props (mscal (RtoC (/ x))) (fun y => y) (Rmult x) s s').
  - apply map_id.
  - apply unit_additive.
  - apply SP.
  - apply unit_drift.
  - apply unit_ctrls.
  - reflexivity.
  - intros t g Hg. unfold propagator. f_equal. apply unit_phased; auto.
Qed.
Lemma unit_dslot a i j : dslot (dprop (A := A) mdexp s') s' a i j = dslot (dprop (A := A) mdexp s) s a i j.
Proof.
  rewrite (each_dslot (mscal (RtoC (/ x))) (fun y => y) (Rmult x) s s').
  - destruct dslot; auto.
  - apply unit_additive.
  - apply SP.
  - apply unit_drift.
  - apply unit_ctrls.
  - reflexivity.
  - intros t g c Hg Hc. change (mdexp (phased s' (x * t) (mscal (RtoC (/ x)) g)) (phased s' (x * t) (mscal (RtoC (/ x)) c)) = mdexp (phased s t g) (phased s t c)).
    rewrite !unit_phased by auto. auto.
Qed.
Lemma unit_rest : same_rest s s'.
Proof. constructor; auto. Qed.
End Units.
End Mat.
