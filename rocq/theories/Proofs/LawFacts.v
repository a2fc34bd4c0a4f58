(** Facts for [Props/PropsLaws.v]. *)
From Coq Require Import Reals Lra.
From Coquelicot Require Import Coquelicot.
From RecordUpdate Require Import RecordUpdate.
From Verif.Model Require Import Base Dyn.
From Verif.Lib Require Import Lists Csum Mat MExp MCalc MDiag MComm.
From Verif.Spec Require Import Evolution History MatAlg Physics Laws.
From Verif.Proofs Require Import DynInv DynRun DynHist DynHistory DynProps DynMore MatFacts MatGrad MatProps PhysFacts PhysRotate PhysCut PhysCutGrad PhysShift.
Local Open Scope nat_scope.
Set Bullet Behavior "Strict Subproofs".

(** ** Exponentials and intertwining maps *)
Lemma pow_intertwine N r X Y w n : sized N N X -> sized r r Y -> sized r N w -> proper w -> mmul w X = mmul Y w ->
  mmul w (mpow X n) = mmul (mpow Y n) w.
Proof.
  intros SX SY Sw Pw E. induction n as [|n IH]; cbn [mpow].
  - rewrite (proj1 SX), (proj1 SY). rewrite (mmul_1_r r N), (mmul_1_l r N); auto.
  - rewrite mmul_assoc, E, <- mmul_assoc, IH. apply mmul_assoc.
Qed.
Lemma mexp_intertwine N r X Y w : sized N N X -> sized r r Y -> sized r N w -> proper w -> mmul w X = mmul Y w ->
  mmul w (mexp X) = mmul (mexp Y) w.
Proof.
  intros SX SY Sw Pw E. pose proof (mexp_sized N X SX). pose proof (mexp_sized r Y SY).
  apply (mat_ext r N); eauto with mat. intros i j Hi Hj.
  rewrite (mexp_mul_l N r X w), (mexp_mul_r r N Y w) by auto. apply CSeries_ext. intros n. f_equal. rewrite (pow_intertwine N r X Y); auto.
Qed.

(** ** Lists of operators *)
Section Slots.
Context (N : nat) (rt : routines).
Notation A := (MatAlg N rt).
Lemma slots_known (s : settings A) n m : well_posed s n m -> exists ds cs, slot_drifts s = Some ds /\ slot_ctrls s = Some cs /\
  length ds = n /\ length cs = n /\ Forall (fun r => length r = m) cs /\
  (forall P, generators_all N rt P s -> Forall P ds /\ Forall (Forall P) cs) /\
  forall a, gens_of s a = map3 (lincomb (A := A)) ds a cs.
Proof.
  intros W. destruct (wp_drift _ _ _ W) as (dr & Ed & D). destruct (wp_ctrls _ _ _ W) as (c & Ec & K).
  exists (drift_ops (A := A) n dr), (ctrl_ops (A := A) n c). unfold slot_drifts, slot_ctrls, gens_of. rewrite Ed, Ec, (wp_tau _ _ _ W). splits; auto.
  - destruct dr; cbn in *; [apply repeat_length|]. rewrite firstn_length. lia.
  - destruct c; cbn in *; [apply repeat_length|]. rewrite firstn_length. lia.
  - destruct c; cbn in *; [|apply Forall_firstn; apply K]. apply Forall_forall. intros x Hx. apply repeat_spec in Hx. subst; auto.
  - intros P G. split; [eapply drifts_all; eauto|eapply ctrls_all_ops; eauto].
Qed.
Section With.
Context (s : settings A) (q : nat) (n m : nat) (ds : list (Op A)) (cs : list (list (Op A))) (ts : list R).
Notation s' := (with_slots (A := A) (Some ds) (Some cs) ts s).
Hypothesis Ld : length ds = n.
Hypothesis Lc : length cs = n.
Hypothesis Lr : Forall (fun r => length r = m) cs.
Hypothesis Lt : length ts = n.
Lemma ws_drift : eff_drift s' = Some (DList ds : drift A).
Proof. unfold eff_drift. cbn. destruct (s_class s); auto. Qed.
Lemma ws_ctrls : eff_ctrls s' = Some (CArr cs : ctrls A).
Proof. unfold eff_ctrls. cbn. destruct (s_class s); auto. Qed.
Lemma ws_well : 0 < n -> (s_cache_pg s = true -> 0 < m) -> (s_prop s = Diag -> s_class s = Unitary) -> well_posed s' n m.
Proof.
  intros H1 H2 H3. constructor; auto.
  - exists (DList ds : drift A). split; [apply ws_drift|auto].
  - exists (CArr cs : ctrls A). split; [apply ws_ctrls|cbn; auto].
Qed.
Lemma ws_all P : Forall P ds -> Forall (Forall P) cs -> generators_all N rt P s'.
Proof.
  intros H1 H2. split.
  - intros d. rewrite ws_drift. intros [= <-]. auto.
  - intros c. rewrite ws_ctrls. intros [= <-]. auto.
Qed.
Lemma ws_gens a : gens_of s' a = map3 (lincomb (A := A)) ds a cs.
Proof.
  unfold gens_of. rewrite ws_drift, ws_ctrls. unfold generators. cbn. rewrite Lt.
  rewrite (firstn_all2 ds) by (rewrite Ld; auto). rewrite (firstn_all2 cs) by (rewrite Lc; auto). auto.
Qed.
Lemma ws_sized : sized_problem N rt q s -> Forall (matrix N N) ds -> Forall (Forall (matrix N N)) cs -> sized_problem N rt q s'.
Proof. intros [H1 H2 H3 H4 H5] F1 F2. constructor; auto. apply ws_all; auto. Qed.
Lemma ws_suits : diag_suits N rt s -> (forall P, generators_all N rt P s -> Forall P ds /\ Forall (Forall P) cs) -> diag_suits N rt s'.
Proof. intros H HP E. destruct (H E) as [[H1 H2] H3]. split; auto. constructor; auto. destruct (HP _ H1). apply ws_all; auto. Qed.
End With.
Lemma starting_well (s : settings A) n m x : well_posed s n m -> well_posed (starting x s) n m.
Proof. intros []; constructor; auto. Qed.
Lemma starting_sized q (s : settings A) x : sized_problem N rt q s -> matrix N q x -> sized_problem N rt q (starting (A := A) x s).
Proof. intros [] Hx; constructor; auto. Qed.
Lemma starting_suits (s : settings A) x : diag_suits N rt s -> diag_suits N rt (starting (A := A) x s).
Proof. intros H E. destruct (H E) as [[H1 H2] H3]. split; auto. constructor; auto. Qed.
Lemma starting_props (s : settings A) x a : props_of (starting (A := A) x s) a = props_of s a.
Proof. reflexivity. Qed.
End Slots.

(** ** Intertwined problems *)
Section Carry.
Context (N M : nat) (rt rt' : routines) (EX : exact_routines N rt) (EX' : exact_routines M rt').
Notation A := (MatAlg N rt).
Notation B := (MatAlg M rt').
Context (q : nat) (s : settings A) (s' : settings B) (n m : nat) (w : mat).
Hypothesis SP : sized_problem N rt q s.
Hypothesis SP' : sized_problem M rt' q s'.
Hypothesis W : well_posed s n m.
Hypothesis W' : well_posed s' n m.
Hypothesis Hw : matrix M N w.
Definition twined (x x' : mat) : Prop := mmul w (with_phase (A := A) s x) = mmul (with_phase (A := B) s' x') w.
Lemma twined_lin d d' row cs cs' : matrix N N d -> matrix M M d' -> Forall (matrix N N) cs -> Forall (matrix M M) cs' ->
  twined d d' -> Forall2 twined cs cs' -> twined (lincomb (A := A) d row cs) (lincomb (A := B) d' row cs').
Proof.
  destruct Hw as [Sw Pw]. pose proof (is_lin N rt q s SP) as L. pose proof (is_lin M rt' q s' SP') as L'.
  revert d d' cs cs'. induction row as [|u row IH]; intros d d' cs cs' Hd Hd' F F' T T2; [auto|].
  destruct T2 as [|c c' cs cs' Tc T2]; [auto|]. cbn [lincomb]. inversion F; inversion F'; subst. apply IH; auto.
  - apply matrix_closed; auto.
  - apply (matrix_closed M); auto.
  - unfold twined in *. cbn [oadd oscale MatAlg].
    pose proof (with_phase_matrix N rt s d L Hd) as [S1 P1]. pose proof (with_phase_matrix N rt s c L ltac:(auto)) as [S2 P2].
    pose proof (with_phase_matrix M rt' s' d' L' Hd') as [S3 P3]. pose proof (with_phase_matrix M rt' s' c' L' ltac:(auto)) as [S4 P4].
    rewrite (with_phase_additive N rt s L d c u) by auto. rewrite (with_phase_additive M rt' s' L' d' c' u) by auto.
    rewrite (mmul_add_r M N N), (mmul_scal_r M N N) by auto with mat. rewrite (mmul_add_l M M N), (mmul_scal_l M M N) by auto with mat.
    congruence.
Qed.
Hypothesis HC : carries N M rt rt' w s s'.
Lemma twined_gens a : Forall2 twined (gens_of s a) (gens_of s' a).
Proof.
  destruct (slots_known N rt s n m W) as (ds & cs & E1 & E2 & _ & _ & _ & FA & G).
  destruct (slots_known M rt' s' n m W') as (ds' & cs' & E1' & E2' & _ & _ & _ & FA' & G'). rewrite G, G'.
  destruct (FA _ (sp_gens _ _ _ _ SP)) as [F1 F2]. destruct (FA' _ (sp_gens _ _ _ _ SP')) as [F1' F2']. clear FA FA' G G'.
  destruct (ca_drifts _ _ _ _ _ _ _ HC) as (l & l' & Q & Q' & T1). rewrite E1 in Q; injection Q as <-. rewrite E1' in Q'; injection Q' as <-.
  destruct (ca_ctrls _ _ _ _ _ _ _ HC) as (l & l' & Q & Q' & T2). rewrite E2 in Q; injection Q as <-. rewrite E2' in Q'; injection Q' as <-.
  clear E1 E2 E1' E2'. revert a cs cs' F2 F2' T2.
  induction T1 as [|d d' ds ds' T T1 IH]; intros a cs cs' F2 F2' T2; [constructor|].
  destruct a as [|row a]; [constructor|]. destruct T2 as [|c c' cs cs' Tc T2]; [constructor|]. cbn [map3].
  inversion F1; inversion F1'; inversion F2; inversion F2'; subst. constructor; auto. apply twined_lin; auto.
Qed.
Lemma twined_props a : Forall2 (fun p p' : mat => mmul w p = mmul p' w) (props_of s a) (props_of s' a).
Proof.
  unfold props_of, propagators. rewrite (ca_tau _ _ _ _ _ _ _ HC).
  pose proof (gens_all N rt s a (sp_gens _ _ _ _ SP)) as F. pose proof (gens_all M rt' s' a (sp_gens _ _ _ _ SP')) as F'.
  generalize (s_tau s). destruct Hw as [Sw Pw]. pose proof (is_lin N rt q s SP) as L. pose proof (is_lin M rt' q s' SP') as L'.
  induction (twined_gens a) as [|g g' gs gs' T T2 IH]; intros [|t ts]; cbn [map2]; try constructor; inversion F; inversion F'; subst; auto.
  rewrite (prop_is N rt EX q s SP t g) by auto. rewrite (prop_is M rt' EX' q s' SP' t g') by auto.
  pose proof (with_phase_matrix N rt s g L ltac:(auto)) as [S1 P1]. pose proof (with_phase_matrix M rt' s' g' L' ltac:(auto)) as [S2 P2].
  unfold phased. cbn [oscale MatAlg]. apply (mexp_intertwine N M); auto with mat.
  rewrite (mmul_scal_r M N N), (mmul_scal_l M M N) by auto with mat. f_equal. exact T.
Qed.
Lemma carried a : final_of s' a = mmul w (final_of s a).
Proof.
  unfold final_of. rewrite (ca_initial _ _ _ _ _ _ _ HC). generalize (s_initial s).
  induction (twined_props a) as [|p p' ps ps' T T2 IH]; intros x; [auto|].
  change (evolve (A := B) ps' (mmul p' (mmul w x)) = mmul w (evolve (A := A) ps (mmul p x))).
  rewrite <- IH. f_equal. rewrite mmul_assoc, <- T. symmetry. apply mmul_assoc.
Qed.
End Carry.

(** ** Conserved quantities and stationary states *)
Section Conserve.
Context (N : nat) (rt : routines) (EX : exact_routines N rt).
Notation A := (MatAlg N rt).
Context (q : nat) (s : settings A) (n m : nat).
Hypothesis SP : sized_problem N rt q s.
Hypothesis W : well_posed s n m.
Definition kept (P : mat -> Prop) : Prop := forall x y u, matrix N N x -> matrix N N y -> P x -> P y -> P (madd x (mscal (RtoC u) y)).
Lemma gens_kept P a : kept P -> generators_all N rt P s -> Forall P (gens_of s a).
Proof.
  intros K [G1 G2]. destruct (sp_gens _ _ _ _ SP) as [F1 F2].
  apply Forall_impl with (P := fun x => matrix N N x /\ P x); [intros x []; auto|]. eapply gens_closed.
  - intros x y u [] []. split; [apply matrix_closed|apply K]; auto.
  - split.
    + intros d Ed. specialize (F1 d Ed). specialize (G1 d Ed). destruct d; cbn in *; auto. apply Forall_and; auto.
    + intros c Ec. specialize (F2 c Ec). specialize (G2 c Ec). destruct c; cbn in *; [apply Forall_and; auto|].
      clear - F2 G2. induction F2; inversion G2; subst; constructor; auto. apply Forall_and; auto.
Qed.
Lemma conserved_final r w a : matrix r N w -> conserved N rt r w s -> mmul w (final_of s a) = mmul w (s_initial s).
Proof.
  intros [Sw Pw] C. pose proof (is_lin N rt q s SP) as L.
  assert (K : kept (fun x => mmul w (with_phase (A := A) s x) = mzero r N)).
  { intros x y u Hx Hy E1 E2. cbn beta. rewrite (with_phase_additive N rt s L x y u) by auto.
    pose proof (with_phase_matrix N rt s x L Hx) as [S1 P1]. pose proof (with_phase_matrix N rt s y L Hy) as [S2 P2].
    rewrite (mmul_add_r r N N), (mmul_scal_r r N N), E1, E2 by auto with mat. apply (mat_ext r N); auto with mat. intros i j Hi Hj.
    rewrite (madd_ent r N), (mscal_ent r N) by auto with mat. unfold mzero. rewrite !ent_tab by auto. ring. }
  pose proof (gens_kept _ a K C) as F. pose proof (gens_all N rt s a (sp_gens _ _ _ _ SP)) as FG.
  unfold final_of, props_of, propagators. generalize (s_tau s) (s_initial s). induction F as [|g gs Hg F IH]; intros [|t ts] x; auto.
  inversion FG; subst. cbn [map2]. change (mmul w (evolve (A := A) (map2 (propagator s) ts gs) (mmul (propagator s t g) x)) = mmul w x).
  rewrite IH by auto. rewrite mmul_assoc. f_equal. rewrite (prop_is N rt EX q s SP t g) by auto.
  pose proof (with_phase_matrix N rt s g L ltac:(auto)) as [S1 P1]. unfold phased. cbn [oscale MatAlg].
  assert (SZ : sized r r (mzero r r)) by auto with mat.
  rewrite (mexp_intertwine N r _ (mzero r r)); auto with mat.
  - rewrite mexp_zero. apply (mmul_1_l r N); auto.
  - rewrite (mmul_scal_r r N N), (mzero_mul_l r r N) by auto. rewrite Hg. apply (mat_ext r N); auto with mat. intros i j Hi Hj.
    rewrite (mscal_ent r N) by auto with mat. unfold mzero. rewrite !ent_tab by auto. ring.
Qed.
Lemma stationary_final a : stationary N rt q s -> final_of s a = s_initial s.
Proof.
  intros C. pose proof (is_lin N rt q s SP) as L. destruct (sp_initial _ _ _ _ SP) as [Si Pi].
  assert (K : kept (fun x => mmul (with_phase (A := A) s x) (s_initial s) = mzero N q)).
  { intros x y u Hx Hy E1 E2. cbn beta. rewrite (with_phase_additive N rt s L x y u) by auto.
    pose proof (with_phase_matrix N rt s x L Hx) as [S1 P1]. pose proof (with_phase_matrix N rt s y L Hy) as [S2 P2].
    rewrite (mmul_add_l N N q), (mmul_scal_l N N q), E1, E2 by auto with mat. apply (mat_ext N q); auto with mat. intros i j Hi Hj.
    rewrite (madd_ent N q), (mscal_ent N q) by auto with mat. unfold mzero. rewrite !ent_tab by auto. ring. }
  pose proof (gens_kept _ a K C) as F. pose proof (gens_all N rt s a (sp_gens _ _ _ _ SP)) as FG.
  unfold final_of, props_of, propagators. generalize (s_tau s). induction F as [|g gs Hg F IH]; intros [|t ts]; auto.
  inversion FG; subst. cbn [map2]. change (evolve (A := A) (map2 (propagator s) ts gs) (mmul (propagator s t g) (s_initial s)) = s_initial s).
  assert (E : mmul (propagator s t g) (s_initial s) = s_initial s).
  { rewrite (prop_is N rt EX q s SP t g) by auto.
    pose proof (with_phase_matrix N rt s g L ltac:(auto)) as [S1 P1]. unfold phased. cbn [oscale MatAlg].
    assert (SZ : sized q q (mzero q q)) by auto with mat.
    rewrite <- (mexp_intertwine q N (mzero q q)); auto with mat.
    - rewrite mexp_zero. apply (mmul_1_r N q); auto.
    - rewrite (mmul_scal_l N N q), (mzero_mul_r N q q) by auto. rewrite Hg. apply (mat_ext N q); auto with mat. intros i j Hi Hj.
      rewrite (mscal_ent N q) by auto with mat. unfold mzero. rewrite !ent_tab by auto. ring. }
  rewrite E. apply IH; auto.
Qed.
End Conserve.

(** ** Problems one after the other *)
Lemma map3_app {X Y Z W} (f : X -> Y -> Z -> W) l1 l1' l2 l2' l3 l3' : length l1 = length l2 -> length l2 = length l3 ->
  map3 f (l1 ++ l1') (l2 ++ l2') (l3 ++ l3') = map3 f l1 l2 l3 ++ map3 f l1' l2' l3'.
Proof. revert l2 l3. induction l1; intros [|] [|] H1 H2; cbn in *; try discriminate; auto. f_equal. apply IHl1; lia. Qed.
Lemma map3_length {X Y Z W} (f : X -> Y -> Z -> W) n l1 l2 l3 : length l1 = n -> length l2 = n -> length l3 = n -> length (map3 f l1 l2 l3) = n.
Proof. revert n l2 l3. induction l1; intros [|n] [|] [|] H1 H2 H3; cbn in *; try discriminate; auto. Qed.

Section Join.
Context (N : nat) (rt : routines) (EX : exact_routines N rt).
Notation A := (MatAlg N rt).
Context (q : nat) (s s' : settings A) (n n' m : nat).
Hypothesis SP : sized_problem N rt q s.
Hypothesis SP' : sized_problem N rt q s'.
Hypothesis W : well_posed s n m.
Hypothesis W' : well_posed s' n' m.
Hypothesis HD : diag_suits N rt s.
Hypothesis HD' : diag_suits N rt s'.
Hypothesis LK : like s s'.
Notation J := (joined s s').
Lemma joined_is : exists ds cs ds' cs', slot_drifts s = Some ds /\ slot_ctrls s = Some cs /\
  slot_drifts s' = Some ds' /\ slot_ctrls s' = Some cs' /\
  length ds = n /\ length cs = n /\ length ds' = n' /\ length cs' = n' /\
  Forall (fun r => length r = m) cs /\ Forall (fun r => length r = m) cs' /\
  (forall P, generators_all N rt P s -> generators_all N rt P s' -> Forall P (ds ++ ds') /\ Forall (Forall P) (cs ++ cs')) /\
  (forall a, gens_of s a = map3 (lincomb (A := A)) ds a cs) /\ (forall a, gens_of s' a = map3 (lincomb (A := A)) ds' a cs') /\
  J = with_slots (A := A) (Some (ds ++ ds')) (Some (cs ++ cs')) (s_tau s ++ s_tau s') s.
Proof.
  destruct (slots_known N rt s n m W) as (ds & cs & E1 & E2 & L1 & L2 & L3 & FA & G).
  destruct (slots_known N rt s' n' m W') as (ds' & cs' & E1' & E2' & L1' & L2' & L3' & FA' & G').
  exists ds, cs, ds', cs'. splits; auto.
  - intros P Q Q'. destruct (FA P Q), (FA' P Q'). split; apply Forall_app; auto.
  - unfold joined. rewrite E1, E2, E1', E2'. auto.
Qed.
Lemma tau_both : length (s_tau s ++ s_tau s') = n + n'.
Proof. rewrite app_length, (wp_tau _ _ _ W), (wp_tau _ _ _ W'). auto. Qed.
Lemma like_phased g : with_phase (A := A) s' g = with_phase (A := A) s g.
Proof. unfold with_phase. rewrite (like_phase _ _ LK), (like_phapp _ _ LK). auto. Qed.
Lemma like_propagator t g : propagator s' t g = propagator s t g.
Proof. unfold propagator. rewrite like_phased. auto. Qed.
Lemma joined_well : well_posed J (n + n') m.
Proof.
  destruct joined_is as (ds & cs & ds' & cs' & _ & _ & _ & _ & L1 & L2 & L1' & L2' & L3 & L3' & _ & _ & _ & ->).
  pose proof (wp_pos _ _ _ W). apply ws_well; try (rewrite app_length; congruence); try apply W; try lia.
  - apply Forall_app; auto.
  - apply tau_both.
Qed.
Lemma joined_sized : sized_problem N rt q J.
Proof.
  destruct joined_is as (ds & cs & ds' & cs' & _ & _ & _ & _ & L1 & L2 & L1' & L2' & L3 & L3' & FA & _ & _ & ->).
  destruct (FA _ (sp_gens _ _ _ _ SP) (sp_gens _ _ _ _ SP')). apply ws_sized; auto.
Qed.
Lemma joined_suits : diag_suits N rt J.
Proof.
  destruct joined_is as (ds & cs & ds' & cs' & _ & _ & _ & _ & L1 & L2 & L1' & L2' & L3 & L3' & FA & _ & _ & ->).
  intros E. change (s_prop s = Diag) in E. pose proof E as E2. rewrite <- (like_prop _ _ LK) in E2. destruct (HD E) as [[H1 H2] H3]. destruct (HD' E2) as [[H4 H5] H6].
  split; auto. constructor; auto. destruct (FA _ H1 H4). apply ws_all; auto.
Qed.
Section Amps.
Context (a a' : amps).
Hypothesis Ha : shape n m a.
Hypothesis Ha' : shape n' m a'.
Lemma joined_gens : gens_of J (a ++ a') = gens_of s a ++ gens_of s' a'.
Proof.
  destruct joined_is as (ds & cs & ds' & cs' & _ & _ & _ & _ & L1 & L2 & L1' & L2' & L3 & L3' & FA & G & G' & ->).
  destruct Ha, Ha'.
  rewrite (ws_gens N rt s (n + n')); [|rewrite app_length; congruence|rewrite app_length; congruence|apply tau_both].
  rewrite G, G'. apply map3_app; congruence.
Qed.
Lemma joined_props : props_of J (a ++ a') = props_of s a ++ props_of s' a'.
Proof.
  unfold props_of, propagators. rewrite joined_gens. change (s_tau J) with (s_tau s ++ s_tau s'). change (propagator J) with (propagator s).
  rewrite map2_app.
  - f_equal. apply map2_ext. intros. symmetry. apply like_propagator.
  - destruct (mlens N rt EX q s n m SP W HD a Ha) as [_ L]. rewrite (wp_tau _ _ _ W). symmetry. exact L.
Qed.
Notation s2 := (starting (A := A) (final_of s a) s').
Lemma joined_final : final_of J (a ++ a') = final_of s2 a'.
Proof. unfold final_of at 1. rewrite joined_props, evolve_app. auto. Qed.
Lemma joined_err : fid_err_of J (a ++ a') = fid_err_of s2 a'.
Proof.
  unfold fid_err_of, fidelity_of, trace_dist, overlap, target_norm, undo_target. rewrite joined_final.
  change (s_fid s2) with (s_fid s'). change (s_phopt s2) with (s_phopt s'). change (s_target s2) with (s_target s').
  change (s_class s2) with (s_class s'). change (trace_scale s2) with (trace_scale s').
  rewrite (like_fid _ _ LK), (like_phopt _ _ LK), (like_target _ _ LK), (like_class _ _ LK), (like_scale _ _ LK). auto.
Qed.
Lemma joined_entry k j : grad_entry_of (dprop (A := A) mdexp J) J (a ++ a') (n + k) j = grad_entry_of (dprop (A := A) mdexp s2) s2 a' k j.
Proof.
  rewrite !entry_as.
  assert (E : dslot (dprop (A := A) mdexp J) J (a ++ a') (n + k) j = dslot (dprop (A := A) mdexp s2) s2 a' k j).
  { destruct (mlens N rt EX q s n m SP W HD a Ha) as [_ Lg].
    destruct joined_is as (ds & cs & ds' & cs' & E1 & E2 & E1' & E2' & L1 & L2 & L1' & L2' & L3 & L3' & FA & G & G' & EJ).
    unfold dslot. rewrite joined_gens. change (s_tau J) with (s_tau s ++ s_tau s').
    assert (EC : eff_ctrls J = Some (CArr (cs ++ cs') : ctrls A)) by (rewrite EJ; apply ws_ctrls). rewrite EC.
    change (eff_ctrls s2) with (eff_ctrls s'). change (s_tau s2) with (s_tau s'). change (gens_of s2 a') with (gens_of s' a').
    unfold slot_ctrls in E2'. destruct (eff_ctrls s') as [c'|]; try discriminate. cbn [option_map] in E2'. injection E2' as E2'.
    change (dprop (A := A) mdexp s2) with (dprop (A := A) mdexp s'). change (dprop (A := A) mdexp J) with (dprop (A := A) mdexp s).
    rewrite (nth_error_app2 (s_tau s)) by (rewrite (wp_tau _ _ _ W); lia). rewrite (wp_tau _ _ _ W).
    rewrite (nth_error_app2 (gens_of s a)) by (rewrite Lg; lia). rewrite Lg. replace (n + k - n) with k by lia.
    cbn [ctrl_ops]. rewrite firstn_all2 by (rewrite tau_both; etransitivity; [apply Nat.eq_le_incl, app_length|]; apply Nat.eq_le_incl, f_equal2; [exact L2|exact L2']).
    rewrite (nth_error_app2 cs) by (rewrite L2; lia). rewrite L2. replace (n + k - n) with k by lia. rewrite E2'.
    destruct (nth_error (s_tau s') k); auto. destruct (nth_error (gens_of s' a') k); auto. destruct (nth_error cs' k); auto.
    destruct nth_error; auto. unfold dprop. rewrite !like_phased. auto. }
  rewrite E. destruct (dslot (dprop (A := A) mdexp s2) s2 a' k j) as [dp|]; auto. cbn [option_map]. f_equal.
  assert (ED : dfin N rt J (a ++ a') (n + k) dp = dfin N rt s2 a' k dp).
  { destruct (mlens N rt EX q s n m SP W HD a Ha) as [Lp _]. unfold dfin. rewrite joined_props. change (props_of s2 a') with (props_of s' a').
    assert (Z1 : firstn (n + k) (props_of s a ++ props_of s' a') = props_of s a ++ firstn k (props_of s' a')).
    { rewrite <- Lp at 1. apply firstn_app_2. }
    assert (Z2 : skipn (S (n + k)) (props_of s a ++ props_of s' a') = skipn (S k) (props_of s' a')).
    { rewrite skipn_app, skipn_all2 by (rewrite Lp; lia). rewrite Lp. cbn [app]. f_equal. lia. }
    rewrite Z1, Z2. rewrite evolve_app. auto. }
  rewrite ED. unfold gform, fidelity_of, overlap, target_norm, undo_target. rewrite joined_final.
  change (s_fid s2) with (s_fid s'). change (s_phopt s2) with (s_phopt s'). change (s_target s2) with (s_target s').
  change (s_class s2) with (s_class s'). change (trace_scale s2) with (trace_scale s').
  rewrite (like_fid _ _ LK), (like_phopt _ _ LK), (like_target _ _ LK), (like_class _ _ LK), (like_scale _ _ LK). auto.
Qed.
End Amps.
End Join.

(** ** Backwards *)
Lemma map3_rev {X Y Z W} (f : X -> Y -> Z -> W) l1 l2 l3 : length l1 = length l2 -> length l2 = length l3 ->
  map3 f (rev l1) (rev l2) (rev l3) = rev (map3 f l1 l2 l3).
Proof.
  revert l2 l3. induction l1; intros [|] [|] H1 H2; cbn in *; try discriminate; auto.
  rewrite map3_app by (rewrite !rev_length; lia). rewrite IHl1 by lia. auto.
Qed.
Lemma map2_rev {X Y Z} (f : X -> Y -> Z) l1 l2 : length l1 = length l2 -> map2 f (rev l1) (rev l2) = rev (map2 f l1 l2).
Proof.
  revert l2. induction l1; intros [|] H1; cbn in *; try discriminate; auto.
  rewrite map2_app by (rewrite !rev_length; lia). rewrite IHl1 by lia. auto.
Qed.
Section Back.
Context (N : nat) (rt : routines) (EX : exact_routines N rt).
Notation A := (MatAlg N rt).
Context (q : nat) (s : settings A) (n m : nat).
Hypothesis SP : sized_problem N rt q s.
Hypothesis W : well_posed s n m.
Hypothesis HD : diag_suits N rt s.
Notation B := (backwards s).
Notation neg := (negated (A := A)).
Lemma neg_matrix x : matrix N N x -> matrix N N (neg x).
Proof. intros []. split; cbn; auto with mat. Qed.
Lemma neg_herm x : matrix N N x -> hermitian x -> hermitian (neg x).
Proof. intros [S P] H. unfold hermitian in *. cbn. rewrite (mdag_scal N N) by auto. rewrite H. f_equal. apply injective_projections; cbn; ring. Qed.
Lemma back_is : exists ds cs, length ds = n /\ length cs = n /\ Forall (fun r => length r = m) cs /\
  (forall P, generators_all N rt P s -> Forall P ds /\ Forall (Forall P) cs) /\
  (forall a, gens_of s a = map3 (lincomb (A := A)) ds a cs) /\
  B = with_slots (A := A) (Some (rev (map neg ds))) (Some (rev (map (map neg) cs))) (rev (s_tau s)) s.
Proof.
  destruct (slots_known N rt s n m W) as (ds & cs & E1 & E2 & L1 & L2 & L3 & FA & G).
  exists ds, cs. splits; auto. unfold backwards. rewrite E1, E2. auto.
Qed.
Lemma back_all (P : mat -> Prop) ds cs : (forall x, P x -> P (neg x)) -> Forall P ds -> Forall (Forall P) cs ->
  Forall P (rev (map neg ds)) /\ Forall (Forall P) (rev (map (map neg) cs)).
Proof.
  intros H F1 F2. split; apply Forall_rev; apply Forall_map; [|].
  - eapply Forall_impl; [|exact F1]. auto.
  - eapply Forall_impl; [|exact F2]. intros l Fl. apply Forall_map. eapply Forall_impl; [|exact Fl]. auto.
Qed.
Lemma back_well : well_posed B n m.
Proof.
  destruct back_is as (ds & cs & L1 & L2 & L3 & FA & G & ->).
  apply ws_well; try (rewrite rev_length, map_length; auto); try apply W.
  - apply Forall_rev, Forall_map. eapply Forall_impl; [|exact L3]. intros r Hr. rewrite map_length. auto.
  - rewrite rev_length. apply W.
Qed.
Lemma back_sized : sized_problem N rt q B.
Proof.
  destruct back_is as (ds & cs & L1 & L2 & L3 & FA & G & ->). destruct (FA _ (sp_gens _ _ _ _ SP)) as [F1 F2].
  destruct (back_all _ ds cs neg_matrix F1 F2). apply ws_sized; auto.
Qed.
Lemma back_suits : diag_suits N rt B.
Proof.
  destruct back_is as (ds & cs & L1 & L2 & L3 & FA & G & ->). intros E. change (s_prop s = Diag) in E. destruct (HD E) as [[H1 H2] H3].
  split; auto. constructor; auto. destruct (FA _ H1) as [F1 F2].
  destruct (FA _ (sp_gens _ _ _ _ SP)) as [F3 F4].
  destruct (back_all (fun x => matrix N N x /\ hermitian x) ds cs) as [F5 F6].
  - intros x []. split; [apply neg_matrix|apply neg_herm]; auto.
  - apply Forall_and; auto.
  - rewrite Forall_forall in *. intros l Hl. apply Forall_and; auto.
  - apply ws_all; [eapply Forall_impl; [|exact F5]; intros x []; auto|].
    eapply Forall_impl; [|exact F6]. intros l Fl. eapply Forall_impl; [|exact Fl]. intros x []; auto.
Qed.
Lemma neg_lincomb d row cs : matrix N N d -> Forall (matrix N N) cs ->
  lincomb (A := A) (neg d) row (map neg cs) = neg (lincomb (A := A) d row cs).
Proof.
  intros. apply (lincomb_each N rt neg); auto. intros x y u [Sx Px] [Sy Py]. cbn.
  rewrite (mscal_add N N), (mscal_comm N N) by auto with mat. auto.
Qed.
Lemma back_gens a : shape n m a -> gens_of B (rev a) = rev (map neg (gens_of s a)).
Proof.
  intros [La _]. destruct back_is as (ds & cs & L1 & L2 & L3 & FA & G & ->). destruct (FA _ (sp_gens _ _ _ _ SP)) as [F1 F2].
  rewrite (ws_gens N rt s n); try (rewrite rev_length, ?map_length; auto; apply W).
  rewrite (map3_rev _ _ _ _ (eq_trans (eq_trans (map_length _ _) L1) (eq_sym La)) (eq_trans La (eq_sym (eq_trans (map_length _ _) L2)))). f_equal. rewrite G.
  eapply (map3_map _ _ _ _ _ (matrix N N) (Forall (matrix N N))); auto. intros x y z Hx Hz. apply neg_lincomb; auto.
Qed.
Definition unprop (t : R) (g : mat) : mat := propagator s t (neg g).
Lemma unprop_undoes t g x : matrix N N g -> matrix N q x -> mmul (unprop t g) (mmul (propagator s t g) x) = x.
Proof.
  intros Hg [Sx Px]. unfold unprop. pose proof (is_lin N rt q s SP) as L. rewrite !(prop_is N rt EX q s SP) by (auto; apply neg_matrix; auto).
  destruct (with_phase_matrix N rt s g L Hg) as [S P]. rewrite mmul_assoc. unfold phased. cbn [oscale MatAlg negated].
  rewrite (with_phase_scal N rt s g (RtoC (-1)) L Hg).
  rewrite (mscal_comm N N) by auto. replace (RtoC (-1)) with (-(RtoC 1))%C by (apply injective_projections; cbn; ring).
  rewrite (mneg_inv N) by auto with mat. apply (mmul_1_l N q); auto.
Qed.
Lemma back_props a : shape n m a -> props_of B (rev a) = rev (map2 unprop (s_tau s) (gens_of s a)).
Proof.
  intros Ha. unfold props_of, propagators. rewrite (back_gens a Ha). change (s_tau B) with (rev (s_tau s)). change (propagator B) with (propagator s).
  destruct (mlens N rt EX q s n m SP W HD a Ha) as [_ Lg].
  rewrite map2_rev by (rewrite map_length, (wp_tau _ _ _ W); symmetry; exact Lg). f_equal.
  clear Lg. generalize (s_tau s). induction (gens_of s a) as [|g gs IH]; intros [|t ts]; cbn; auto. rewrite IH. auto.
Qed.
Lemma back_final a : shape n m a -> final_of (starting (A := A) (final_of s a) B) (rev a) = s_initial s.
Proof.
  intros Ha. unfold final_of at 1. change (props_of (starting (final_of s a) B) (rev a)) with (props_of B (rev a)). rewrite (back_props a Ha).
  change (s_initial (starting (final_of s a) B)) with (final_of s a). unfold final_of, props_of, propagators.
  pose proof (gens_all N rt s a (sp_gens _ _ _ _ SP)) as F. pose proof (sp_initial _ _ _ _ SP) as Hx. revert Hx. generalize (s_initial s) (s_tau s).
  induction F as [|g gs Hg F IH]; intros x [|t ts] Hx; auto. cbn [map2 rev]. etransitivity; [apply (evolve_app (A := A))|].
  change (evolve (A := A) [unprop t g] (evolve (A := A) (rev (map2 unprop ts gs)) (evolve (A := A) (map2 (propagator s) ts gs) (mmul (propagator s t g) x))) = x).
  rewrite IH; [apply unprop_undoes; auto|]. destruct (prop_matrix N rt EX q s SP t g Hg), Hx. split; eauto with mat.
Qed.
End Back.

(** ** Linearity *)
Section Linear.
Context (N : nat) (rt : routines) (EX : exact_routines N rt).
Notation A := (MatAlg N rt).
Context (q : nat) (s : settings A) (n m : nat).
Hypothesis SP : sized_problem N rt q s.
Hypothesis W : well_posed s n m.
Hypothesis HD : diag_suits N rt s.
Lemma evolve_scal ps z x : Forall (matrix N N) ps -> matrix N q x -> evolve (A := A) ps (mscal z x) = mscal z (evolve (A := A) ps x).
Proof.
  intros F. revert x. induction F as [|p ps [Sp Pp] F IH]; intros x [Sx Px]; auto.
  change (evolve (A := A) ps (mmul p (mscal z x)) = mscal z (evolve (A := A) ps (mmul p x))).
  rewrite (mmul_scal_r N N q) by auto. apply IH. split; eauto with mat.
Qed.
Lemma superposed_final a al be x y : shape n m a -> matrix N q x -> matrix N q y ->
  final_of (starting (A := A) (madd (mscal al x) (mscal be y)) s) a =
  madd (mscal al (final_of (starting (A := A) x s) a)) (mscal be (final_of (starting (A := A) y s) a)).
Proof.
  intros Ha Hx Hy. pose proof (props_matrix N rt EX q s n m SP W HD a Ha) as F. unfold final_of. rewrite !starting_props.
  change (s_initial (starting (A := A) (madd (mscal al x) (mscal be y)) s)) with (madd (mscal al x) (mscal be y)).
  change (s_initial (starting (A := A) x s)) with x. change (s_initial (starting (A := A) y s)) with y.
  assert (M : forall z v, matrix N q v -> matrix N q (mscal z v)) by (intros z v []; split; auto with mat).
  rewrite (evolve_plus N rt q) by auto. rewrite !evolve_scal by auto. auto.
Qed.
Context (r : nat) (e : mat).
Hypothesis He : matrix q r e.
Notation K := (combined N rt e s).
Lemma comb_well : well_posed K n m.
Proof. destruct W; constructor; auto. Qed.
Lemma comb_sized : sized_problem N rt r K.
Proof. destruct SP as [H1 [S1 P1] [S2 P2] H4 H5], He. constructor; auto; split; cbn; eauto with mat. Qed.
Lemma comb_suits : diag_suits N rt K.
Proof. intros E. destruct (HD E) as [[H1 H2] H3]. split; auto. constructor; auto. Qed.
Lemma evolve_comb ps x : evolve (A := A) ps (mmul x e) = mmul (evolve (A := A) ps x) e.
Proof.
  revert x. induction ps as [|p ps IH]; intros x; auto.
  change (evolve (A := A) ps (mmul p (mmul x e)) = mmul (evolve (A := A) ps (mmul p x)) e). rewrite mmul_assoc. apply IH.
Qed.
Lemma comb_final a : final_of K a = mmul (final_of s a) e.
Proof. apply evolve_comb. Qed.
Lemma comb_gap a : shape n m a -> msub (s_target K) (final_of K a) = mmul (msub (s_target s) (final_of s a)) e.
Proof.
  intros Ha. rewrite comb_final. change (s_target K) with (mmul (s_target s) e).
  destruct (sp_target _ _ _ _ SP) as [S1 P1], (final_matrix N rt EX q s n m SP W HD a Ha) as [S2 P2], He as [S3 P3].
  symmetry. apply (mat_ext N r); eauto with mat. intros i j Hi Hj. rewrite (msub_ent N r) by eauto with mat.
  rewrite !(mmul_ent N q r) by eauto with mat. rewrite <- csum_minus. apply csum_ext. intros l Hl. rewrite (msub_ent N q) by auto. ring.
Qed.
End Linear.

(** ** Columns *)
Lemma total_app l l' : total (l ++ l') = (total l + total l')%R.
Proof. induction l as [|x l IH]; cbn [app total fold_right]; [unfold total; cbn; ring|]. fold (total l) (total (l ++ l')). rewrite IH. ring. Qed.
Lemma total_scal c l : total (map (Rmult c) l) = (c * total l)%R.
Proof. induction l as [|x l IH]; cbn [map total fold_right]; [unfold total; cbn; ring|]. fold (total l) (total (map (Rmult c) l)). rewrite IH. ring. Qed.
Lemma re_csum q f : Re (csum q f) = total (map (fun j => Re (f j)) (seq 0 q)).
Proof.
  induction q; auto. rewrite seq_S, map_app, total_app, <- IHq. cbn [csum]. rewrite re_plus. cbn. ring.
Qed.
Lemma unit_column_matrix q j : matrix q 1 (unit_column q j).
Proof. split; unfold unit_column; [split; auto|apply tab_proper]. Qed.
Lemma pick_column N q X j i : sized N q X -> i < N -> j < q -> ent (mmul X (unit_column q j)) i 0 = ent X i j.
Proof.
  intros S Hi Hj. rewrite (mmul_ent N q 1) by (auto; apply unit_column_matrix).
  rewrite (csum_ext q _ (fun l => if l =? j then ent X i l else RtoC 0)).
  - etransitivity; [apply (csum_single q j); auto|]; [|cbn beta; rewrite Nat.eqb_refl; auto].
    intros l _ Hl. apply Nat.eqb_neq in Hl. rewrite Hl. auto.
  - intros l Hl. unfold unit_column. rewrite ent_tab by auto. destruct (l =? j); ring.
Qed.
Lemma inner_columns N q X Y : sized N q X -> sized N q Y -> mtr (mmul (mdag X) Y) =
  csum q (fun j => mtr (mmul (mdag (mmul X (unit_column q j))) (mmul Y (unit_column q j)))).
Proof.
  intros SX SY. pose proof (mdag_sized N q X SX) as SD. pose proof (mmul_sized q N q (mdag X) Y SD SY) as SM.
  unfold mtr at 1. rewrite (proj1 SM). apply csum_ext. intros j Hj. rewrite (mmul_ent q N q) by auto.
  destruct (unit_column_matrix q j) as [SU _].
  pose proof (mmul_sized N q 1 X _ SX SU) as S1. pose proof (mmul_sized N q 1 Y _ SY SU) as S2. pose proof (mdag_sized N 1 _ S1) as S3.
  unfold mtr. rewrite (proj1 (mmul_sized 1 N 1 _ _ S3 S2)). cbn [csum]. rewrite Cplus_0_l.
  rewrite (mmul_ent 1 N 1) by auto. apply csum_ext. intros i Hi. rewrite (pick_column N q Y) by auto.
  rewrite (mdag_ent N q) by auto. rewrite (mdag_ent N 1) by auto. rewrite (pick_column N q X) by auto. auto.
Qed.

Section Columns.
Context (N : nat) (rt : routines) (EX : exact_routines N rt).
Notation A := (MatAlg N rt).
Context (q : nat) (s : settings A) (n m : nat).
Hypothesis SP : sized_problem N rt q s.
Hypothesis W : well_posed s n m.
Hypothesis HD : diag_suits N rt s.
Hypothesis HF : s_fid s = FTrace.
Context (a : amps).
Hypothesis Ha : shape n m a.
Notation col j := (combined N rt (unit_column q j) s).
Lemma col_gap j : msub (s_target (col j)) (final_of (col j) a) = mmul (msub (s_target s) (final_of s a)) (unit_column q j).
Proof. apply (comb_gap N rt EX q s n m SP W HD 1); auto. apply unit_column_matrix. Qed.
Lemma gap_size : sized N q (msub (s_target s) (final_of s a)).
Proof. destruct (sp_target _ _ _ _ SP), (final_matrix N rt EX q s n m SP W HD a Ha). auto with mat. Qed.
Lemma columns_err : fid_err_of s a = total (map (fun j => fid_err_of (col j) a) (seq 0 q)).
Proof.
  unfold fid_err_of. change (s_fid (col 0)) with (s_fid s). rewrite HF.
  transitivity (total (map (Rmult (trace_scale s)) (map (fun j => Re (mtr (mmul (mdag (mmul (msub (s_target s) (final_of s a)) (unit_column q j)))
    (mmul (msub (s_target s) (final_of s a)) (unit_column q j))))) (seq 0 q)))).
  - rewrite total_scal, <- re_csum. unfold trace_dist. cbn [osub otr odag omul MatAlg]. rewrite <- (inner_columns N q) by apply gap_size. auto.
  - rewrite map_map. f_equal. apply map_ext. intros j. change (s_fid (col j)) with (s_fid s). rewrite HF. unfold trace_dist. cbn [osub otr odag omul MatAlg].
    rewrite col_gap. auto.
Qed.
Lemma columns_entry k j y : grad_entry_of (dprop (A := A) mdexp s) s a k j = Some y ->
  exists ys, length ys = q /\ total ys = y /\
    forall i, i < q -> grad_entry_of (dprop (A := A) mdexp (col i)) (col i) a k j = nth_error ys i.
Proof.
  rewrite entry_as. destruct (dslot (dprop (A := A) mdexp s) s a k j) as [dp|] eqn:E; try discriminate. cbn [option_map]. intros [= <-].
  pose proof (dslot_matrix N rt q s n m a k j dp EX SP W E) as Hd. pose proof gap_size as SG.
  assert (HM : matrix N q (dfin N rt s a k dp)).
  { pose proof (props_matrix N rt EX q s n m SP W HD a Ha) as F. unfold dfin. apply evolve_matrix; [apply Forall_skipn; auto|].
    pose proof (evolve_matrix N rt q (firstn k (props_of s a)) (s_initial s) (Forall_firstn _ _ _ F) (sp_initial _ _ _ _ SP)) as [S P].
    destruct Hd. split; eauto with mat. }
  exists (map (Rmult (-2 * trace_scale s)) (map (fun i => Re (mtr (mmul (mdag (mmul (msub (s_target s) (final_of s a)) (unit_column q i)))
    (mmul (dfin N rt s a k dp) (unit_column q i))))) (seq 0 q))).
  splits.
  - rewrite !map_length. apply seq_length.
  - rewrite total_scal, <- re_csum, <- (inner_columns N q) by (auto; apply HM). unfold gform. rewrite HF. auto.
  - intros i Hi. rewrite entry_as. change (dslot (dprop (A := A) mdexp (col i)) (col i) a k j) with (dslot (dprop (A := A) mdexp s) s a k j).
    rewrite E. cbn [option_map]. rewrite map_map, nth_error_map.
    assert (EN : nth_error (seq 0 q) i = Some i).
    { rewrite (nth_error_nth' _ 0) by (rewrite seq_length; auto). rewrite seq_nth by auto. auto. }
    rewrite EN. cbn [option_map]. f_equal. unfold gform. change (s_fid (col i)) with (s_fid s). rewrite HF. rewrite col_gap.
    assert (ED : dfin N rt (col i) a k dp = mmul (dfin N rt s a k dp) (unit_column q i)).
    { unfold dfin. change (props_of (col i) a) with (props_of s a). change (s_initial (col i)) with (mmul (s_initial s) (unit_column q i)).
      rewrite (evolve_comb N rt (unit_column q i)). rewrite mmul_assoc. apply (evolve_comb N rt). }
    rewrite ED. auto.
Qed.
End Columns.
