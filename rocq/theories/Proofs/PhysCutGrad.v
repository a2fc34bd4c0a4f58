(** Timeslots cut into pieces: the gradient.  Facts for
    [Props/PropsPhysics.v]. *)
From Coq Require Import Reals Lra.
From Coquelicot Require Import Coquelicot.
From RecordUpdate Require Import RecordUpdate.
From Verif.Model Require Import Base Dyn.
From Verif.Lib Require Import Lists Csum Mat MExp MCalc MDiag MComm.
From Verif.Spec Require Import Evolution History MatAlg Physics.
From Verif.Proofs Require Import DynInv DynRun DynHist DynHistory DynProps DynMore MatFacts MatGrad MatProps PhysFacts PhysRotate PhysCut PhysShift.
Local Open Scope nat_scope.
Set Bullet Behavior "Strict Subproofs".

Lemma repeated_app {X} p1 p2 (l1 l2 : list X) : length p1 = length l1 -> repeated (p1 ++ p2) (l1 ++ l2) = repeated p1 l1 ++ repeated p2 l2.
Proof. intros L. unfold repeated. rewrite map2_app by auto. apply concat_app. Qed.
Lemma nth_split_at {X} (l : list X) k x : nth_error l k = Some x -> l = firstn k l ++ x :: skipn (S k) l.
Proof. revert l. induction k; intros [|y l] E; cbn in *; try discriminate; [congruence|]. f_equal. auto. Qed.
Lemma nth_repeated {X} parts (l : list X) k p x r : nth_error parts k = Some p -> nth_error l k = Some x -> r < length p ->
  nth_error (repeated parts l) (length (concat (firstn k parts)) + r) = Some x.
Proof.
  revert parts l. induction k; intros [|p0 parts] [|x0 l] Ep Ex Hr; cbn in *; try discriminate.
  - injection Ep as ->. injection Ex as ->. unfold repeated. cbn. rewrite nth_error_app1 by (rewrite repeat_length; auto).
    rewrite nth_error_repeat; auto.
  - unfold repeated. cbn. rewrite app_length, nth_error_app2 by (rewrite repeat_length; lia). rewrite repeat_length.
    replace (length p0 + length (concat (firstn k parts)) + r - length p0) with (length (concat (firstn k parts)) + r) by lia. apply IHk; auto.
Qed.
Lemma nth_concat_at {X} (parts : list (list X)) k p r : nth_error parts k = Some p -> r < length p ->
  nth_error (concat parts) (length (concat (firstn k parts)) + r) = nth_error p r.
Proof.
  revert parts. induction k; intros [|p0 parts] Ep Hr; cbn in *; try discriminate.
  - injection Ep as ->. apply nth_error_app1; auto.
  - rewrite app_length, nth_error_app2 by lia.
    replace (length p0 + length (concat (firstn k parts)) + r - length p0) with (length (concat (firstn k parts)) + r) by lia. apply IHk; auto.
Qed.
Lemma map2_length_eq {X Y Z} (f : X -> Y -> Z) l1 l2 : length l1 = length l2 -> length (map2 f l1 l2) = length l1.
Proof. revert l2. induction l1; intros [|] L; cbn in *; try discriminate; auto. Qed.

Section Dexp.
Context (N : nat).
Lemma mdexp_split t1 t2 X E : matrix N N X -> matrix N N E ->
  mdexp (mscal (RtoC (t1 + t2)) X) (mscal (RtoC (t1 + t2)) E) =
  madd (mmul (mdexp (mscal (RtoC t2) X) (mscal (RtoC t2) E)) (mexp (mscal (RtoC t1) X)))
       (mmul (mexp (mscal (RtoC t2) X)) (mdexp (mscal (RtoC t1) X) (mscal (RtoC t1) E))).
Proof.
  intros [SX PX] [SE PE].
  assert (S1 : forall t, sized N N (mscal (RtoC t) X)) by auto with mat. assert (S2 : forall t, sized N N (mscal (RtoC t) E)) by auto with mat.
  assert (Z : forall t, madd (mscal (RtoC t) X) (mscal (RtoC (0 - 0)) (mscal (RtoC t) E)) = mscal (RtoC t) X).
  { intros t. rewrite Rminus_0_r. apply (mat_ext N N); auto with mat. intros i j Hi Hj.
    rewrite (madd_ent N N), !(mscal_ent N N) by auto with mat. ring. }
  apply (der_unique N N (fun u => mexp (madd (mscal (RtoC (t1 + t2)) X) (mscal (RtoC (u - 0)) (mscal (RtoC (t1 + t2)) E)))) 0%R).
  - apply der_mexp; auto.
  - pose proof (der_mul N N N _ _ _ _ _ (der_mexp N _ _ 0 (S1 t2) (S2 t2)) (der_mexp N _ _ 0 (S1 t1) (S2 t1))) as D. cbn beta in D.
    rewrite !Z in D. eapply der_ext; [|exact D]. intros t. cbn beta.
    assert (F : forall v, madd (mscal (RtoC v) X) (mscal (RtoC (t - 0)) (mscal (RtoC v) E)) = mscal (RtoC v) (madd X (mscal (RtoC (t - 0)) E))).
    { intros v. rewrite (mscal_add N N), (mscal_comm N N) by auto with mat. auto. }
    rewrite !F. set (Y := madd X (mscal (RtoC (t - 0)) E)). assert (SY : sized N N Y) by (unfold Y; auto with mat).
    rewrite <- (mexp_add N); auto with mat.
    + f_equal. apply (mat_ext N N); auto with mat. intros i j Hi Hj.
      rewrite (madd_ent N N), !(mscal_ent N N) by auto with mat. rewrite RtoC_plus. ring.
    + rewrite !(mmul_scal_l N N N), !(mmul_scal_r N N N), !(mscal_scal N N) by eauto with mat. f_equal. ring.
  - apply mdexp_proper.
  - auto with mat.
Qed.
Lemma mdexp_none X E : matrix N N X -> matrix N N E -> mdexp (mscal (RtoC 0) X) (mscal (RtoC 0) E) = mzero N N.
Proof.
  intros [SX PX] [SE PE]. apply (der_unique N N (fun u => mexp (madd (mscal (RtoC 0) X) (mscal (RtoC (u - 0)) (mscal (RtoC 0) E)))) 0%R).
  - apply der_mexp; auto with mat.
  - eapply der_ext; [|apply (der_const N N (mexp (mscal (RtoC 0) X)))].
    + intros t. cbn beta. f_equal. apply (mat_ext N N); auto with mat. intros i j Hi Hj.
      rewrite (madd_ent N N), !(mscal_ent N N) by auto with mat. ring.
    + apply mexp_sized. auto with mat.
  - apply mdexp_proper.
  - auto with mat.
Qed.
End Dexp.

Lemma mtr_add r X Y : sized r r X -> sized r r Y -> mtr (madd X Y) = (mtr X + mtr Y)%C.
Proof.
  intros SX SY. unfold mtr. rewrite (proj1 (madd_sized r r X Y SX)), (proj1 SX), (proj1 SY), <- csum_plus. apply csum_ext. intros i Hi.
  apply (madd_ent r r); auto.
Qed.
Lemma mtr_zero r c : r = c -> mtr (mzero r c) = RtoC 0.
Proof.
  intros <-. unfold mtr. apply csum_zero. intros i Hi. unfold mzero in *. rewrite nr_tab in Hi. rewrite ent_tab by auto. auto.
Qed.
Lemma re_plus x y : Re (x + y)%C = (Re x + Re y)%R.
Proof. destruct x, y. auto. Qed.

(** Sums of matrices. *)
Definition msum (r c : nat) (l : list mat) : mat := fold_right madd (mzero r c) l.
Lemma msum_matrix r c l : Forall (matrix r c) l -> matrix r c (msum r c l).
Proof. induction 1 as [|x l [S P] F [S' P']]; cbn; split; auto with mat. Qed.

Section CutGrad.
Context (N : nat) (rt : routines) (EX : exact_routines N rt).
Notation A := (MatAlg N rt).
Context (q : nat) (s : settings A) (n m : nat) (parts : list (list R)).
Hypothesis SP : sized_problem N rt q s.
Hypothesis W : well_posed s n m.
Hypothesis HD : diag_suits N rt s.
Hypothesis HP : map total parts = s_tau s.
Hypothesis HN : concat parts <> [].
Notation s' := (cut parts s).

Notation dP := (dprop (A := A) mdexp s).
Notation pr g p := (map2 (propagator s) p (repeat g (length p))).
Definition piece (g c : mat) (p : list R) (b : mat) (r : nat) : mat :=
  match nth_error p r with
  | Some t => evolve (A := A) (skipn (S r) (pr g p)) (mmul (dP t g c) (evolve (A := A) (firstn r (pr g p)) b))
  | None => mzero N q
  end.
Lemma dP_matrix t g c : matrix N N g -> matrix N N c -> matrix N N (dP t g c).
Proof.
  intros Hg Hc. pose proof (phased_matrix N rt s t g (is_lin N rt q s SP) Hg) as [S P].
  split; [apply mdexp_sized; auto|apply mdexp_proper].
Qed.
Lemma pieces_sum g c p b : matrix N N g -> matrix N N c -> matrix N q b ->
  Forall (matrix N q) (map (piece g c p b) (seq 0 (length p))) /\
  msum N q (map (piece g c p b) (seq 0 (length p))) = mmul (dP (total p) g c) b.
Proof.
  intros Hg Hc. pose proof (is_lin N rt q s SP) as L.
  pose proof (with_phase_matrix N rt s g L Hg) as Hw. pose proof (with_phase_matrix N rt s c L Hc) as Hv.
  revert b. induction p as [|t p IH]; intros b Hb.
  - cbn. split; auto. unfold dprop. cbn [oscale MatAlg]. rewrite (mdexp_none N) by auto. destruct Hb as [S P].
    rewrite (mzero_mul_l N N q); auto.
  - cbn [length seq map total fold_right]. fold (total p). rewrite <- seq_shift, map_map.
    assert (Hpb : matrix N q (mmul (propagator s t g) b)).
    { destruct (prop_matrix N rt EX q s SP t g Hg), Hb. split; eauto with mat. }
    assert (ES : forall r, piece g c (t :: p) b (S r) = piece g c p (mmul (propagator s t g) b) r).
    { intros r. unfold piece. cbn [nth_error]. destruct (nth_error p r); auto. }
    rewrite (map_ext _ _ ES). destruct (IH _ Hpb) as [F E].
    assert (E0 : piece g c (t :: p) b 0 = mmul (propagator s (total p) g) (mmul (dP t g c) b)).
    { unfold piece. cbn [nth_error]. cbn [length repeat map2 skipn firstn].
      change (evolve (A := A) [] b) with b. apply (pieces_evolve N rt EX q s SP); auto.
      destruct (dP_matrix t g c Hg Hc), Hb. split; eauto with mat. }
    rewrite E0. destruct (prop_matrix N rt EX q s SP (total p) g Hg) as [S1 P1]. destruct (dP_matrix t g c Hg Hc) as [S2 P2].
    destruct (dP_matrix (total p) g c Hg Hc) as [S3 P3]. destruct (prop_matrix N rt EX q s SP t g Hg) as [S4 P4]. destruct Hb as [Sb Pb].
    split; [constructor; [split; eauto with mat|auto]|].
    cbn [msum fold_right]. fold (msum N q (map (piece g c p (mmul (propagator s t g) b)) (seq 0 (length p)))). rewrite E.
    assert (ED : dP (t + total p)%R g c = madd (mmul (dP (total p) g c) (propagator s t g)) (mmul (propagator s (total p) g) (dP t g c))).
    { rewrite !(prop_is N rt EX q s SP) by auto. unfold dprop, phased. cbn [oscale MatAlg]. apply (mdexp_split N); auto. }
    rewrite ED. rewrite (mmul_add_l N N q) by eauto with mat. rewrite (madd_comm N q) by eauto with mat. f_equal; rewrite mmul_assoc; auto.
Qed.

Section At.
Context (a : amps) (k : nat) (p : list R) (g : mat).
Hypothesis Ha : shape n m a.
Hypothesis Ep : nth_error parts k = Some p.
Hypothesis Eg : nth_error (gens_of s a) k = Some g.
Notation off := (length (concat (firstn k parts))).

Lemma cut_props : exists P1 P2, props_of s' (repeated parts a) = P1 ++ pr g p ++ P2 /\ length P1 = off /\
  (forall x, matrix N q x -> evolve (A := A) P1 x = evolve (A := A) (firstn k (props_of s a)) x) /\
  (forall x, matrix N q x -> evolve (A := A) P2 x = evolve (A := A) (skipn (S k) (props_of s a)) x).
Proof.
  pose proof (parts_length N rt s n m parts W HP) as PL. destruct (mlens N rt EX q s n m SP W HD a Ha) as [_ Lg].
  pose proof (gens_all N rt s a (sp_gens _ _ _ _ SP)) as FG.
  pose proof (nth_split_at _ _ _ Ep) as E1. pose proof (nth_split_at _ _ _ Eg) as E2.
  set (p1 := firstn k parts) in *. set (p2 := skipn (S k) parts) in *.
  set (g1 := firstn k (gens_of s a)) in *. set (g2 := skipn (S k) (gens_of s a)) in *.
  assert (L1 : length g1 = length p1) by (unfold g1, p1; rewrite !firstn_length, PL; f_equal; exact Lg).
  assert (L2 : length g2 = length p2) by (unfold g2, p2; rewrite !skipn_length, PL; f_equal; exact Lg).
  assert (F1 : Forall (matrix N N) g1) by (apply Forall_firstn; auto). assert (F2 : Forall (matrix N N) g2) by (apply Forall_skipn; auto).
  exists (map2 (propagator s) (concat p1) (repeated p1 g1)), (map2 (propagator s) (concat p2) (repeated p2 g2)).
  assert (EP : props_of s a = map2 (propagator s) (map total p1) g1 ++ propagator s (total p) g :: map2 (propagator s) (map total p2) g2).
  { unfold props_of, propagators. rewrite <- HP. rewrite E1 at 1. rewrite E2 at 1. rewrite map_app. cbn [map].
    rewrite map2_app by (rewrite map_length; auto). auto. }
  assert (LP : length (map2 (propagator s) (map total p1) g1) = k).
  { rewrite map2_length_eq by (rewrite map_length; auto). rewrite map_length. unfold p1. rewrite firstn_length.
    assert (k < length parts) by (apply nth_error_Some; congruence). lia. }
  splits.
  - unfold props_of, propagators. rewrite (cut_gens N rt s n m parts W HP) by auto.
    change (s_tau s') with (concat parts). change (propagator s') with (propagator s).
    rewrite E1 at 1. rewrite E1 at 1. rewrite E2 at 1. rewrite concat_app. cbn [concat]. rewrite repeated_app by auto.
    rewrite map2_app by (symmetry; apply repeated_length; auto). f_equal. unfold repeated. cbn [map2 concat].
    rewrite map2_app by (rewrite repeat_length; auto). auto.
  - rewrite map2_length_eq; auto. symmetry. apply repeated_length. auto.
  - intros x Hx. rewrite EP. rewrite firstn_app, LP, Nat.sub_diag, firstn_O, app_nil_r, firstn_all2 by lia.
    apply (cut_evolve N rt EX q s SP); auto.
  - intros x Hx. rewrite EP. rewrite skipn_app, LP. rewrite skipn_all2 by lia. replace (S k - k) with 1 by lia. cbn [app skipn].
    apply (cut_evolve N rt EX q s SP); auto.
Qed.

Lemma evolve_mul_zero ps : Forall (matrix N N) ps -> evolve (A := A) ps (mzero N q) = mzero N q.
Proof.
  induction 1 as [|x ps [Sx Px] F IH]; auto. change (evolve (A := A) (x :: ps) (mzero N q)) with (evolve (A := A) ps (mmul x (mzero N q))).
  rewrite (mzero_mul_r N N q); auto.
Qed.
Lemma evolve_plus ps x y : Forall (matrix N N) ps -> matrix N q x -> matrix N q y ->
  evolve (A := A) ps (madd x y) = madd (evolve (A := A) ps x) (evolve (A := A) ps y).
Proof.
  intros F. revert x y. induction F as [|z ps [Sz Pz] F IH]; intros x y [Sx Px] [Sy Py]; auto.
  change (evolve (A := A) ps (mmul z (madd x y)) = madd (evolve (A := A) ps (mmul z x)) (evolve (A := A) ps (mmul z y))).
  rewrite (mmul_add_r N N q) by auto. apply IH; split; eauto with mat.
Qed.
Lemma inner_plus y x1 x2 : sized q N y -> matrix N q x1 -> matrix N q x2 ->
  mtr (mmul y (madd x1 x2)) = (mtr (mmul y x1) + mtr (mmul y x2))%C.
Proof.
  intros Sy [S1 P1] [S2 P2]. rewrite (mmul_add_r q N q) by auto. apply (mtr_add q); eauto with mat.
Qed.
Lemma inner_zero y : sized q N y -> mtr (mmul y (mzero N q)) = RtoC 0.
Proof. intros Sy. rewrite (mzero_mul_r q N q) by auto. apply mtr_zero. auto. Qed.
Lemma undo_is_sized : sized q N (undo_target s).
Proof. eapply undo_sized; eauto. Qed.
Lemma gap_sized : sized q N (mdag (msub (s_target s) (final_of s a))).
Proof.
  destruct (sp_target _ _ _ _ SP) as [S P]. destruct (final_matrix N rt EX q s n m SP W HD a Ha) as [S' P']. auto with mat.
Qed.
Lemma gform_plus x y : matrix N q x -> matrix N q y -> gform N rt s a (madd x y) = (gform N rt s a x + gform N rt s a y)%R.
Proof.
  intros Hx Hy. unfold gform. pose proof undo_is_sized as HU. pose proof gap_sized as HG. destruct (s_fid s).
  - rewrite inner_plus by auto. destruct (s_phopt s); rewrite ?Cmult_plus_distr_r, !re_plus; unfold Rdiv; ring.
  - rewrite inner_plus by auto. rewrite re_plus. ring.
Qed.
Lemma gform_zero : gform N rt s a (mzero N q) = 0%R.
Proof.
  unfold gform. pose proof undo_is_sized as HU. pose proof gap_sized as HG. destruct (s_fid s).
  - rewrite inner_zero by auto. destruct (s_phopt s); rewrite ?Cmult_0_l; cbn; unfold Rdiv; ring.
  - rewrite inner_zero by auto. cbn. ring.
Qed.
Lemma gform_sum ps l : Forall (matrix N N) ps -> Forall (matrix N q) l ->
  gform N rt s a (evolve (A := A) ps (msum N q l)) = total (map (fun x => gform N rt s a (evolve (A := A) ps x)) l).
Proof.
  intros F G. induction G as [|x l Hx G IH].
  - change (msum N q []) with (mzero N q). rewrite evolve_mul_zero by auto. apply gform_zero.
  - change (msum N q (x :: l)) with (madd x (msum N q l)). pose proof (msum_matrix N q l G) as Hl.
    rewrite evolve_plus, gform_plus by auto using evolve_matrix. rewrite IH. auto.
Qed.
End At.

(** The entries of the pieces of a slot add up to the entry of the slot. *)
Lemma cut_entry a k p j y : shape n m a -> nth_error parts k = Some p ->
  grad_entry_of (dprop (A := A) mdexp s) s a k j = Some y ->
  exists ys, (forall r, r < length p ->
    grad_entry_of (dprop (A := A) mdexp s') s' (repeated parts a) (length (concat (firstn k parts)) + r) j = nth_error ys r) /\
    length ys = length p /\ total ys = y.
Proof.
  intros Ha Ep. rewrite entry_as. destruct (dslot dP s a k j) as [dp|] eqn:Ed; try discriminate. cbn [option_map]. intros [= <-].
  pose proof Ed as Ed'. unfold dslot in Ed'. destruct (eff_ctrls s) as [c|] eqn:Ec; try discriminate.
  destruct (nth_error (s_tau s) k) as [t|] eqn:Et; try discriminate. destruct (nth_error (gens_of s a) k) as [g|] eqn:Eg; try discriminate.
  destruct (nth_error (ctrl_ops (A := A) (length (s_tau s)) c) k) as [cs|] eqn:Es; try discriminate.
  destruct (nth_error cs j) as [cj|] eqn:Ej; try discriminate. injection Ed' as <-.
  pose proof (parts_length N rt s n m parts W HP) as PL.
  pose proof (gens_all N rt s a (sp_gens _ _ _ _ SP)) as FG. rewrite Forall_forall in FG. pose proof (FG _ (nth_error_In _ _ Eg)) as Hg.
  assert (Hc : matrix N N cj).
  { pose proof (ctrls_all_ops N rt _ s (length (s_tau s)) c (sp_gens _ _ _ _ SP) Ec) as FC. rewrite Forall_forall in FC. specialize (FC _ (nth_error_In _ _ Es)).
    rewrite Forall_forall in FC. apply FC. eapply nth_error_In, Ej. }
  assert (Ht : t = total p).
  { rewrite <- HP, nth_error_map, Ep in Et. cbn in Et. congruence. }
  pose proof (props_matrix N rt EX q s n m SP W HD a Ha) as FP.
  destruct (cut_props a k p g Ha Ep Eg) as (P1 & P2 & E' & L1 & V1 & V2).
  set (b := evolve (A := A) (firstn k (props_of s a)) (s_initial s)).
  assert (Hb : matrix N q b) by (apply evolve_matrix; [apply Forall_firstn; auto|apply SP]).
  destruct (pieces_sum g cj p b Hg Hc Hb) as [FM EM].
  exists (map (fun x => gform N rt s a (evolve (A := A) (skipn (S k) (props_of s a)) x)) (map (piece g cj p b) (seq 0 (length p)))).
  splits.
  - intros r Hr. rewrite entry_as. set (i := length (concat (firstn k parts)) + r).
    destruct (nth_error p r) as [tr|] eqn:Er; [|apply nth_error_None in Er; lia].
    assert (ED : dslot (dprop (A := A) mdexp s') s' (repeated parts a) i j = Some (dP tr g cj)).
    { unfold dslot. rewrite (cut_ctrls_is N rt s parts), Ec. cbn [option_map]. change (s_tau s') with (concat parts). unfold i.
      rewrite (nth_concat_at parts k p r Ep Hr), Er. rewrite (cut_gens N rt s n m parts W HP) by auto.
      rewrite (nth_repeated parts _ k p g r Ep Eg Hr).
      assert (K : ctrls_fit (A := A) n m c) by (destruct (wp_ctrls _ _ _ W) as (c0 & E0 & K); congruence).
      rewrite (cut_ctrl_ops N rt s n m parts W HP c K). rewrite (wp_tau _ _ _ W) in Es.
      rewrite (nth_repeated parts _ k p cs r Ep Es Hr), Ej. auto. }
    rewrite ED. cbn [option_map]. rewrite map_map, nth_error_map.
    assert (EN : nth_error (seq 0 (length p)) r = Some r).
    { rewrite (nth_error_nth' _ 0) by (rewrite seq_length; auto). rewrite seq_nth by auto. auto. }
    rewrite EN. cbn [option_map]. f_equal.
    assert (EF : gform N rt s' (repeated parts a) = gform N rt s a).
    { unfold gform. pose proof (cut_final N rt EX q s n m parts SP W HP a HD Ha) as FE.
      unfold fidelity_of, overlap. rewrite FE. auto. }
    rewrite EF. f_equal. unfold dfin, piece. rewrite Er. rewrite E'. change (s_initial s') with (s_initial s).
    set (PK := pr g p). assert (LK : length PK = length p) by (unfold PK; apply map2_length_eq; rewrite repeat_length; auto).
    unfold i. rewrite <- L1.
    assert (Z1 : firstn (length P1 + r) (P1 ++ PK ++ P2) = P1 ++ firstn r PK).
    { rewrite firstn_app_2. f_equal. rewrite firstn_app. replace (r - length PK) with 0 by lia. rewrite firstn_O. apply app_nil_r. }
    assert (Z2 : skipn (S (length P1 + r)) (P1 ++ PK ++ P2) = skipn (S r) PK ++ P2).
    { rewrite skipn_app, skipn_all2 by lia. replace (S (length P1 + r) - length P1) with (S r) by lia. cbn [app].
      rewrite skipn_app. replace (S r - length PK) with 0 by lia. auto. }
    etransitivity; [apply f_equal2; [exact Z2|apply f_equal2; [reflexivity|apply f_equal2; [exact Z1|reflexivity]]]|].
    rewrite !(evolve_app (A := A)). rewrite V1 by apply SP. fold b. rewrite V2; auto.
    assert (FK : Forall (matrix N N) PK).
    { unfold PK. apply Forall_forall. intros x Hx. apply In_nth_error in Hx. destruct Hx as [u Hu].
      assert (forall l x u, nth_error (map2 (propagator s) l (repeat g (length l))) u = Some x -> matrix N N x) as HH.
      { clear - EX SP Hg. induction l; intros x [|u] Hu; cbn in Hu; try discriminate; eauto. injection Hu as <-.
        apply (prop_matrix N rt EX q s SP); auto. }
      eauto. }
    apply evolve_matrix; [apply Forall_skipn; auto|]. destruct (dP_matrix tr g cj Hg Hc).
    destruct (evolve_matrix N rt q (firstn r PK) b (Forall_firstn _ _ _ FK) Hb). split; eauto with mat.
  - rewrite !map_length, seq_length. auto.
  - rewrite <- (gform_sum a Ha) by (auto; apply Forall_skipn; auto). rewrite EM. rewrite Ht. auto.
Qed.
End CutGrad.
