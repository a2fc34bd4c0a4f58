(** Timeslots cut into pieces, controls reordered or added: facts for
    [Props/PropsPhysics.v]. *)
From Coq Require Import Reals Lra Permutation.
From Coquelicot Require Import Coquelicot.
From RecordUpdate Require Import RecordUpdate.
From Verif.Model Require Import Base Dyn.
From Verif.Lib Require Import Lists Csum Mat MExp MCalc MDiag MComm.
From Verif.Spec Require Import Evolution History MatAlg Physics.
From Verif.Proofs Require Import DynInv DynRun DynHist DynHistory DynProps DynMore MatFacts MatGrad MatProps PhysFacts.
Local Open Scope nat_scope.
Set Bullet Behavior "Strict Subproofs".

(** ** Repetition *)
Lemma repeated_nil {X} parts : repeated parts (@nil X) = [].
Proof. destruct parts; auto. Qed.
Lemma map3_app {X Y Z T} (f : X -> Y -> Z -> T) x1 y1 z1 x2 y2 z2 : length x1 = length y1 -> length y1 = length z1 ->
  map3 f (x1 ++ x2) (y1 ++ y2) (z1 ++ z2) = map3 f x1 y1 z1 ++ map3 f x2 y2 z2.
Proof.
  revert y1 z1. induction x1 as [|x x1 IH]; intros [|y y1] [|z z1] L1 L2; cbn in *; try discriminate; auto. rewrite IH; auto.
Qed.
Lemma map3_repeat {X Y Z T} (f : X -> Y -> Z -> T) x y z n : map3 f (repeat x n) (repeat y n) (repeat z n) = repeat (f x y z) n.
Proof. induction n; cbn; congruence. Qed.
Lemma repeated_map3 {X Y Z T} (f : X -> Y -> Z -> T) parts l1 l2 l3 :
  length l1 = length l2 -> length l2 = length l3 ->
  map3 f (repeated parts l1) (repeated parts l2) (repeated parts l3) = repeated parts (map3 f l1 l2 l3).
Proof.
  unfold repeated. revert l1 l2 l3. induction parts as [|p parts IH]; intros [|x l1] [|y l2] [|z l3] L1 L2; cbn in *; try discriminate; auto.
  rewrite map3_app by (rewrite !repeat_length; auto). rewrite map3_repeat, IH; auto.
Qed.
Lemma repeated_length {X} parts (l : list X) : length l = length parts -> length (repeated parts l) = length (concat parts).
Proof.
  unfold repeated. revert l. induction parts as [|p parts IH]; intros [|x l] L; cbn in *; try discriminate; auto.
  rewrite !app_length, repeat_length, IH; auto.
Qed.
Lemma repeated_const {X} parts (x : X) : repeated parts (repeat x (length parts)) = repeat x (length (concat parts)).
Proof. unfold repeated. induction parts as [|p parts IH]; cbn; auto. rewrite IH, app_length, repeat_app. auto. Qed.
Lemma repeated_all {X} (P : X -> Prop) parts l : Forall P l -> Forall P (repeated parts l).
Proof.
  intros F. revert parts. unfold repeated. induction F; intros [|p parts]; cbn; auto. apply Forall_app. split; auto.
  apply Forall_forall. intros y Hy. apply repeat_spec in Hy. subst. auto.
Qed.
Lemma map2_app {X Y Z} (f : X -> Y -> Z) x1 y1 x2 y2 : length x1 = length y1 -> map2 f (x1 ++ x2) (y1 ++ y2) = map2 f x1 y1 ++ map2 f x2 y2.
Proof. revert y1. induction x1 as [|x x1 IH]; intros [|y y1] L; cbn in *; try discriminate; auto. rewrite IH; auto. Qed.
Lemma shape_repeated n m parts a : shape n m a -> length parts = n -> shape (length (concat parts)) m (repeated parts a).
Proof. intros [L F] Hp. split; [apply repeated_length; congruence|apply repeated_all; auto]. Qed.

(** ** Cutting timeslots *)
Section Cut.
Context (N : nat) (rt : routines) (EX : exact_routines N rt).
Notation A := (MatAlg N rt).
Context (q : nat) (s : settings A) (n m : nat) (parts : list (list R)).
Hypothesis SP : sized_problem N rt q s.
Hypothesis W : well_posed s n m.
Hypothesis HP : map total parts = s_tau s.
Hypothesis HN : concat parts <> [].
Notation s' := (cut parts s).
Notation n' := (length (concat parts)).

Lemma cut_drift_is : eff_drift s' = option_map (cut_drift parts) (eff_drift s).
Proof. apply (with_ops_drift s). Qed.
Lemma cut_ctrls_is : eff_ctrls s' = option_map (cut_ctrls parts) (eff_ctrls s).
Proof. apply (with_ops_ctrls s). Qed.
Lemma parts_length : length parts = n.
Proof. rewrite <- (wp_tau _ _ _ W), <- HP, map_length. auto. Qed.
Lemma cut_well : well_posed s' n' m.
Proof.
  pose proof parts_length as PL. destruct W as [H1 H2 (dr & H3 & H3') (c & H4 & H4') H5 H6]. constructor; auto.
  - destruct (concat parts); [congruence|cbn; lia].
  - exists (cut_drift parts dr). rewrite cut_drift_is, H3. split; auto. destruct dr; cbn in *; auto. apply repeated_length. congruence.
  - exists (cut_ctrls parts c). rewrite cut_ctrls_is, H4. split; auto. destruct c; cbn in *; auto.
    destruct H4' as [L Q]. split; [apply repeated_length; congruence|apply repeated_all; auto].
Qed.
Lemma cut_all P : generators_all N rt P s -> generators_all N rt P s'.
Proof.
  intros [H1 H2]. split.
  - intros d. rewrite cut_drift_is. destruct (eff_drift s) as [dr|]; try discriminate. cbn [option_map]. intros [= <-]. specialize (H1 _ eq_refl).
    destruct dr; cbn in *; auto using repeated_all.
  - intros c'. rewrite cut_ctrls_is. destruct (eff_ctrls s) as [c|]; try discriminate. cbn [option_map]. intros [= <-]. specialize (H2 _ eq_refl).
    destruct c; cbn in *; auto using repeated_all.
Qed.
Lemma cut_sized : sized_problem N rt q s'.
Proof. destruct SP as [H1 H2 H3 H4 H5]. constructor; auto. apply cut_all; auto. Qed.
Lemma cut_suits : diag_suits N rt s -> diag_suits N rt s'.
Proof. intros H E. destruct (H E) as [[H1 H2] H3]. split; auto. constructor; auto. apply cut_all; auto. Qed.
Lemma cut_ctrl_ops c : ctrls_fit (A := A) n m c -> ctrl_ops (A := A) n' (cut_ctrls parts c) = repeated parts (ctrl_ops (A := A) n c).
Proof.
  pose proof parts_length as PL. intros K. destruct c; cbn in *; [rewrite <- PL; symmetry; apply repeated_const|]. destruct K as [K _].
  rewrite firstn_all2 by (rewrite repeated_length by congruence; lia). rewrite firstn_all2 by lia. auto.
Qed.
Lemma cut_gens a : shape n m a -> gens_of s' (repeated parts a) = repeated parts (gens_of s a).
Proof.
  intros [La Fa]. pose proof parts_length as PL. unfold gens_of. rewrite cut_drift_is, cut_ctrls_is, (wp_tau _ _ _ W). change (s_tau s') with (concat parts).
  destruct (wp_drift _ _ _ W) as (dr & -> & D). destruct (wp_ctrls _ _ _ W) as (c & -> & K). cbn [option_map]. unfold generators.
  assert (E1 : drift_ops (A := A) n' (cut_drift parts dr) = repeated parts (drift_ops (A := A) n dr)).
  { destruct dr; cbn in *; [rewrite <- PL; symmetry; apply repeated_const|].
    rewrite firstn_all2 by (rewrite repeated_length by congruence; lia). rewrite firstn_all2 by lia. auto. }
  pose proof (cut_ctrl_ops c K) as E2.
  rewrite E1, E2. apply repeated_map3.
  - rewrite La. destruct dr; cbn in *; [apply repeat_length|]. rewrite firstn_length. lia.
  - rewrite La. destruct c; cbn in *; [rewrite repeat_length; auto|]. destruct K as [K _]. rewrite firstn_length. lia.
Qed.
(** A slot in one go and in pieces. *)
Lemma pieces_evolve g p x : matrix N N g -> matrix N q x ->
  evolve (A := A) (map2 (propagator s) p (repeat g (length p))) x = mmul (propagator s (total p) g) x.
Proof.
  intros Hg. pose proof (phased_matrix N rt s) as PM. pose proof (is_lin N rt q s SP) as L. revert x.
  assert (ST : forall t, propagator s t g = mexp (mscal (RtoC t) (with_phase s g))) by (intros; apply (prop_is N rt EX q s SP); auto).
  pose proof (with_phase_matrix N rt s g L Hg) as [Sw Pw].
  induction p as [|t p IH]; intros x [Sx Px].
  - cbn [map2 length repeat evolve fold_left total fold_right]. rewrite ST. rewrite (mexp_mscal0 N) by auto. symmetry. apply (mmul_1_l N q); auto.
  - cbn [length repeat map2]. change (evolve (A := A) (propagator s t g :: map2 (propagator s) p (repeat g (length p))) x)
      with (evolve (A := A) (map2 (propagator s) p (repeat g (length p))) (mmul (propagator s t g) x)).
    assert (SE : forall u, sized N N (mexp (mscal (RtoC u) (with_phase s g)))) by (intros; apply mexp_sized; auto with mat).
    rewrite IH by (split; [rewrite ST; eauto with mat|auto with mat]). rewrite mmul_assoc. f_equal. rewrite !ST.
    rewrite <- (mexp_add N); auto with mat.
    + f_equal. cbn [total fold_right]. fold (total p). apply (mat_ext N N); auto with mat. intros i j Hi Hj.
      rewrite (madd_ent N N), !(mscal_ent N N) by auto with mat. rewrite RtoC_plus. ring.
    + rewrite !(mmul_scal_l N N N), !(mmul_scal_r N N N), !(mscal_scal N N) by eauto with mat. f_equal. ring.
Qed.
Lemma cut_evolve ps gs x : Forall (matrix N N) gs -> matrix N q x -> length gs = length ps ->
  evolve (A := A) (map2 (propagator s) (concat ps) (repeated ps gs)) x = evolve (A := A) (map2 (propagator s) (map total ps) gs) x.
Proof.
  intros F. revert ps x. induction F as [|g gs Hg F IH]; intros [|p ps] x Hx L; cbn in L; try discriminate; auto.
  unfold repeated. cbn [concat map2 map]. fold (repeated ps gs). rewrite map2_app by (rewrite repeat_length; auto).
  rewrite (evolve_app (A := A)). rewrite pieces_evolve by auto. change (evolve (A := A) (propagator s (total p) g :: map2 (propagator s) (map total ps) gs) x)
    with (evolve (A := A) (map2 (propagator s) (map total ps) gs) (mmul (propagator s (total p) g) x)).
  apply IH; auto. destruct (prop_matrix N rt EX q s SP (total p) g Hg) as [S P]. destruct Hx. split; eauto with mat.
Qed.
Lemma cut_final a : diag_suits N rt s -> shape n m a -> final_of s' (repeated parts a) = final_of s a.
Proof.
  intros HD Ha. unfold final_of, props_of, propagators. rewrite cut_gens by auto. change (s_tau s') with (concat parts).
  change (s_initial s') with (s_initial s). change (propagator s') with (propagator s). rewrite <- HP. apply cut_evolve.
  - apply gens_all, SP.
  - apply SP.
  - rewrite parts_length. eapply (mlens N rt EX); eauto.
Qed.
Lemma cut_rest : same_rest s s'.
Proof. constructor; auto. Qed.
End Cut.

(** ** Other lists of controls *)
Lemma lincomb_fold {A : Alg} (d : Op A) row cs :
  lincomb d row cs = fold_left (fun x uc => oadd A x (oscale A (RtoC (fst uc)) (snd uc))) (combine row cs) d.
Proof. revert d cs. induction row as [|u row IH]; intros d [|c cs]; cbn; auto. Qed.
Lemma pick_seq {X} (l : list X) : pick (seq 0 (length l)) l = l.
Proof.
  unfold pick. assert (H : forall l0, flat_map (fun i => match nth_error (l0 ++ l) i with Some x => [x] | None => [] end) (seq (length l0) (length l)) = l).
  { induction l as [|x l IH]; intros l0; cbn; auto. rewrite nth_error_app2, Nat.sub_diag by lia. cbn. f_equal.
    specialize (IH (l0 ++ [x])). rewrite app_length, Nat.add_comm in IH. cbn in IH. rewrite <- app_assoc in IH. exact IH. }
  apply (H []).
Qed.
Lemma pick_perm {X} p (l : list X) : Permutation p (seq 0 (length l)) -> Permutation (pick p l) l.
Proof. intros H. rewrite <- (pick_seq l) at 2. apply Permutation_flat_map. auto. Qed.
Lemma pick_combine {X Y} p (l : list X) (k : list Y) : length l = length k -> combine (pick p l) (pick p k) = pick p (combine l k).
Proof.
  intros L. unfold pick. induction p as [|i p IH]; cbn; auto.
  assert (E : nth_error (combine l k) i = match nth_error l i, nth_error k i with Some x, Some y => Some (x, y) | _, _ => None end).
  { clear IH. revert k i L. induction l as [|x l IHl]; intros [|y k] [|i] L; cbn in *; try discriminate; auto. }
  rewrite E. destruct (nth_error l i) eqn:E1, (nth_error k i) eqn:E2; cbn; try congruence.
  - apply nth_error_None in E2. assert (i < length l) by (apply nth_error_Some; congruence). lia.
  - apply nth_error_None in E1. assert (i < length k) by (apply nth_error_Some; congruence). lia.
Qed.
Lemma pick_nth {X} p (l : list X) j : Forall (fun i => i < length l) p ->
  nth_error (pick p l) j = match nth_error p j with Some i => nth_error l i | None => None end.
Proof.
  intros F. revert j. unfold pick. induction F as [|i p Hi F IH]; intros j; cbn; [destruct j; auto|].
  destruct (nth_error l i) as [x|] eqn:E; [|apply nth_error_None in E; lia]. destruct j; cbn; auto.
Qed.
Lemma pick_length {X} p (l : list X) : Permutation p (seq 0 (length l)) -> length (pick p l) = length l.
Proof. intros H. apply Permutation_length, pick_perm; auto. Qed.
Lemma perm_bound p m : Permutation p (seq 0 m) -> Forall (fun i => i < m) p.
Proof. intros H. apply Forall_forall. intros i Hi. apply (Permutation_in _ H) in Hi. apply in_seq in Hi. lia. Qed.

Lemma nth3_rows {X T} (f : list X -> list X) (D : R -> X -> X -> T) (t : option R) (g : option X) csl k j j' :
  (forall l, In l csl -> nth_error (f l) j' = nth_error l j) ->
  match t, g, nth_error (map f csl) k with
  | Some t, Some g, Some cs => match nth_error cs j' with Some c => Some (D t g c) | None => None end
  | _, _, _ => None
  end =
  match t, g, nth_error csl k with
  | Some t, Some g, Some cs => match nth_error cs j with Some c => Some (D t g c) | None => None end
  | _, _, _ => None
  end.
Proof.
  intros H. destruct t, g; auto. rewrite nth_error_map. destruct (nth_error csl k) as [cs|] eqn:E; auto. cbn [option_map].
  rewrite H; auto. eapply nth_error_In; eauto.
Qed.

Section Rows.
Context (N : nat) (rt : routines) (EX : exact_routines N rt).
Notation A := (MatAlg N rt).
Context (q : nat) (s : settings A) (n m : nat).
Hypothesis SP : sized_problem N rt q s.
Hypothesis W : well_posed s n m.
Hypothesis HD : diag_suits N rt s.
Context (m' : nat) (f : list mat -> list mat) (h : list R -> list R).
Hypothesis Fl : forall l, length l = m -> length (f l) = m'.
Hypothesis Fa : forall P l, P = matrix N N \/ P = (fun x => hermitian x) -> (s_prop s = Diag \/ P = matrix N N) -> length l = m -> Forall P l -> Forall P (f l).
Hypothesis Hm : s_cache_pg s = true -> 0 < m'.
Hypothesis FH : forall d row cs, matrix N N d -> Forall (matrix N N) cs -> length row = m -> length cs = m ->
  lincomb (A := A) d (h row) (f cs) = lincomb (A := A) d row cs.
Notation s' := (with_ops s (fun d => d) (on_rows (A := A) f)).
Lemma rows_drift : eff_drift s' = eff_drift s.
Proof. rewrite with_ops_drift. destruct (eff_drift s); auto. Qed.
Lemma rows_ctrls : eff_ctrls s' = option_map (on_rows (A := A) f) (eff_ctrls s).
Proof. apply with_ops_ctrls. Qed.
Lemma rows_well : well_posed s' n m'.
Proof.
  destruct W as [H1 H2 H3 (c & H4 & H4') H5 H6]. constructor; auto.
  - rewrite rows_drift. auto.
  - exists (on_rows (A := A) f c). rewrite rows_ctrls, H4. split; auto. destruct c; cbn in *; auto.
    destruct H4' as [L Q]. rewrite map_length. split; auto. apply Forall_map. eapply Forall_impl; [|exact Q]. auto.
Qed.
Lemma rows_all P : P = matrix N N \/ P = (fun x => hermitian x) -> (s_prop s = Diag \/ P = matrix N N) -> generators_all N rt P s -> generators_all N rt P s'.
Proof.
  intros HP HQ [H1 H2]. split; [rewrite rows_drift; auto|]. intros c'. rewrite rows_ctrls.
  destruct (wp_ctrls _ _ _ W) as (c & E & K). rewrite E. cbn [option_map]. intros [= <-]. specialize (H2 _ E).
  destruct c; cbn in *; auto. destruct K as [_ K]. apply Forall_map. rewrite Forall_forall in *. auto.
Qed.
Lemma rows_sized : sized_problem N rt q s'.
Proof. destruct SP as [H1 H2 H3 H4 H5]. constructor; auto. apply rows_all; auto. Qed.
Lemma rows_suits : diag_suits N rt s'.
Proof. intros E. destruct (HD E) as [[H1 H2] H3]. split; auto. constructor; auto. apply rows_all; auto. Qed.
Lemma map3_rows {X} (g g' : X -> list R -> list mat -> mat) l1 l2 l3 (P : X -> Prop) (Q : list mat -> Prop) :
  (forall x r z, P x -> Q z -> length r = m -> length z = m -> g' x (h r) (f z) = g x r z) ->
  Forall P l1 -> Forall Q l3 -> Forall (fun r => length r = m) l2 -> Forall (fun r => length r = m) l3 ->
  map3 g' l1 (map h l2) (map f l3) = map3 g l1 l2 l3.
Proof.
  intros H F1. revert l2 l3. induction F1 as [|x l1 Hx F1 IH]; intros [|r l2] [|z l3] F3 F2 F4; cbn; auto.
  inversion F3; inversion F2; inversion F4; subst. rewrite H, IH; auto.
Qed.
Lemma rows_ops c : ctrl_ops (A := A) n (on_rows (A := A) f c) = map f (ctrl_ops (A := A) n c).
Proof. destruct c; cbn; [rewrite map_repeat; auto|apply firstn_map]. Qed.
Lemma rows_lengths c : ctrls_fit (A := A) n m c -> Forall (fun l => length l = m) (ctrl_ops (A := A) n c).
Proof.
  destruct c; cbn; [|intros [_ H]; apply Forall_firstn; auto]. intros H. apply Forall_forall. intros x Hx. apply repeat_spec in Hx. subst. auto.
Qed.
Lemma rows_gens a : shape n m a -> gens_of s' (map h a) = gens_of s a.
Proof.
  intros [La Fa']. unfold gens_of. rewrite rows_drift, rows_ctrls. change (s_tau s') with (s_tau s). rewrite (wp_tau _ _ _ W).
  destruct (eff_drift s) as [dr|] eqn:E1; auto. destruct (wp_ctrls _ _ _ W) as (c & E2 & K). rewrite E2. cbn [option_map].
  unfold generators. rewrite rows_ops. pose proof (rows_lengths c K) as KL.
  apply (map3_rows (lincomb (A := A)) (lincomb (A := A)) _ _ _ (matrix N N) (Forall (matrix N N))); auto.
  - eapply drifts_all; eauto. apply SP.
  - eapply ctrls_all_ops; eauto. apply SP.
Qed.
Lemma rows_props a : shape n m a -> props_of s' (map h a) = props_of s a.
Proof. intros Ha. unfold props_of, propagators. rewrite rows_gens by auto. auto. Qed.
Lemma rows_rest : same_rest s s'.
Proof. constructor; auto. Qed.
Lemma rows_dslot a k j j' : shape n m a -> (forall l : list mat, length l = m -> nth_error (f l) j' = nth_error l j) ->
  dslot (dprop (A := A) mdexp s') s' (map h a) k j' = dslot (dprop (A := A) mdexp s) s a k j.
Proof.
  intros Ha Hj. unfold dslot. rewrite rows_ctrls, rows_gens by auto. destruct (wp_ctrls _ _ _ W) as (c & E2 & K). rewrite E2.
  cbn [option_map]. change (s_tau s') with (s_tau s). rewrite (wp_tau _ _ _ W). rewrite rows_ops.
  pose proof (rows_lengths c K) as KL. rewrite Forall_forall in KL.
  apply (nth3_rows f (dprop (A := A) mdexp s) (nth_error (s_tau s) k) (nth_error (gens_of s a) k) (ctrl_ops (A := A) n c)). auto.
Qed.
End Rows.

Section Lincomb.
Context (N : nat) (rt : routines).
Notation A := (MatAlg N rt).
Definition addto (x : mat) (uc : R * mat) : mat := madd x (mscal (RtoC (fst uc)) (snd uc)).
Lemma addto_matrix x uc : matrix N N x -> matrix N N (snd uc) -> matrix N N (addto x uc).
Proof. apply matrix_closed. Qed.
Lemma fold_perm l l' : Permutation l l' -> forall x, matrix N N x -> Forall (fun uc => matrix N N (snd uc)) l ->
  fold_left addto l x = fold_left addto l' x.
Proof.
  induction 1 as [|uc l l' H IH|u c l|l l' l'' H1 IH1 H2 IH2]; intros x Hx F; cbn; auto.
  - inversion F; subst. apply IH; auto. apply addto_matrix; auto.
  - inversion F as [|? ? Hc F']; subst. inversion F' as [|? ? Hu F'']; subst. f_equal. unfold addto.
    destruct Hx as [Sx Px], Hc as [Sc Pc], Hu as [Su Pu]. rewrite <- !(madd_assoc N N) by auto with mat. f_equal. apply (madd_comm N N); auto with mat.
  - rewrite IH1 by auto. apply IH2; auto. eapply Permutation_Forall; eauto.
Qed.
Lemma reorder_lincomb p d row (cs : list mat) m : Permutation p (seq 0 m) -> matrix N N d -> Forall (matrix N N) cs ->
  length row = m -> length cs = m -> lincomb (A := A) d (pick p row) (pick p cs) = lincomb (A := A) d row cs.
Proof.
  intros H Hd Hc Lr Lc. rewrite !lincomb_fold. change (fun x uc => oadd A x (oscale A (RtoC (fst uc)) (snd uc))) with addto.
  assert (E : combine (pick p row) (pick p cs) = pick p (combine row cs)) by (apply pick_combine; congruence).
  etransitivity; [apply f_equal2; [exact E|reflexivity]|].
  assert (Q : Permutation (pick p (combine row cs)) (combine row cs)).
  { apply pick_perm. rewrite combine_length, Lr, Lc, Nat.min_id. auto. }
  apply fold_perm; auto. eapply Permutation_Forall; [symmetry; exact Q|].
  apply Forall_forall. intros [u c] Hi. apply in_combine_r in Hi. rewrite Forall_forall in Hc. apply Hc; auto.
Qed.
Lemma extend_lincomb c d row (cs : list mat) m : matrix N N c -> matrix N N d -> Forall (matrix N N) cs ->
  length row = m -> length cs = m -> lincomb (A := A) d (row ++ [0%R]) (cs ++ [c]) = lincomb (A := A) d row cs.
Proof.
  intros Hk Hd Hc. revert d row m Hd. induction Hc as [|c' cs H Hc IH]; intros d [|u row] m Hd Lr Lc; cbn in *; try congruence.
  - destruct Hk as [S P], Hd as [Sd Pd]. apply (mat_ext N N); auto with mat. intros i j Hi Hj.
    rewrite (madd_ent N N), (mscal_ent N N) by auto. ring.
  - apply (IH _ _ (pred m)); try congruence; [apply matrix_closed; auto| |]; destruct m; try discriminate; cbn; congruence.
Qed.
End Lincomb.
