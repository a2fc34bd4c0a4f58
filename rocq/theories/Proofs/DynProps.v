(** From the invariants to the statements about histories. *)
From Coq Require Import Reals Lra.
From Coquelicot Require Import Complex.
From RecordUpdate Require Import RecordUpdate.
From Verif.Model Require Import Base Dyn.
From Verif.Lib Require Import Lists.
From Verif.Spec Require Import Evolution History.
From Verif.Proofs Require Import DynInv DynRun DynHist DynHistory.
Local Open Scope nat_scope.

(** ** Composition at every slot *)
Section Compose.
Context {A : Alg}.
Hypothesis assoc : forall x y z : Op A, omul A x (omul A y z) = omul A (omul A x y) z.

Lemma evolve_app (p q : list (Op A)) x : evolve (p ++ q) x = evolve q (evolve p x).
Proof. unfold evolve; apply fold_left_app. Qed.

Lemma devolve_evolve (ps : list (Op A)) x y : omul A (devolve x ps) y = omul A x (evolve ps y).
Proof.
  revert y; induction ps as [|p ps IH]; intros y; auto. rewrite devolve_cons.
  rewrite <- assoc, IH. reflexivity.
Qed.

Lemma product_evolve (ps : list (Op A)) q y : product ps = Some q -> omul A q y = evolve ps y.
Proof.
  revert q y; induction ps as [|p ps IH]; intros q y; [discriminate|].
  destruct ps as [|p' ps].
  - intros [= <-]; reflexivity.
  - destruct (product (p' :: ps)) as [r|] eqn:E.
    + rewrite (product_cons p _ _ E). intros [= <-]. rewrite <- assoc. rewrite (IH _ _ eq_refl). reflexivity.
    + cbn in *. rewrite E. discriminate.
Qed.

Lemma onto_fwd (ps : list (Op A)) k u x :
  omul A (devolve u (skipn k ps)) (evolve (firstn k ps) x) = omul A u (evolve ps x).
Proof. rewrite devolve_evolve, <- evolve_app, firstn_skipn; reflexivity. Qed.

Lemma onwd_fwd (ps : list (Op A)) k q x : product (skipn k ps) = Some q ->
  omul A q (evolve (firstn k ps) x) = evolve ps x.
Proof. intros E. rewrite (product_evolve _ _ _ E), <- evolve_app, firstn_skipn; reflexivity. Qed.
End Compose.

(** ** Gradients are determined by their entries *)
Lemma grad_is_unique {A : Alg} dP (s : settings A) a g1 g2 :
  grad_is dP s a g1 -> grad_is dP s a g2 -> g1 = g2.
Proof.
  intros [L1 H1] [L2 H2]. apply list_ext; [congruence|]. intros k Hk.
  destruct (nth_ex g1 k Hk) as (r1 & E1). destruct (nth_ex g2 k) as (r2 & E2); [congruence|].
  rewrite E1, E2. f_equal.
  assert (Q : forall j, nth_error r1 j = nth_error r2 j).
  { intros j. specialize (H1 k j); specialize (H2 k j). rewrite E1 in H1; rewrite E2 in H2. congruence. }
  apply list_ext.
  - destruct (Nat.eq_dec (length r1) (length r2)) as [|N]; auto. exfalso.
    destruct (le_lt_dec (length r1) (length r2)).
    + assert (Hl : length r1 < length r2) by lia. apply nth_error_Some in Hl. rewrite <- Q in Hl.
      apply Hl, nth_error_None; lia.
    + assert (Hl : length r2 < length r1) by lia. apply nth_error_Some in Hl. rewrite Q in Hl.
      apply Hl, nth_error_None; lia.
  - auto.
Qed.

(** ** Change detection *)

Ltac eqdecs := repeat match goal with |- context [list_eq_dec ?d ?x ?y] => destruct (list_eq_dec d x y) end.

Lemma neq_row_count x y r : neq_row x y = Ok r ->
  count r = length (filter (differs Req_EM_T) (combine x y)) /\
  any r = (if list_eq_dec Req_EM_T x y then false else true).
Proof.
  revert y r; induction x as [|u x IH]; intros [|v y] r; cbn [neq_row]; try discriminate.
  - intros [= <-]; cbn. split; auto.
  - destruct (neq_row x y) as [r'|] eqn:E; cbn [bind]; [|discriminate]. intros [= <-].
    destruct (IH y r' E) as [H1 H2]. unfold count, any in *. cbn [filter existsb combine]. unfold differs at 1; cbn [fst snd].
    unfold neqR. destruct (Req_EM_T u v) as [->|N]; cbn [length orb].
    + rewrite H1, H2. split; auto.
      eqdecs; congruence.
    + rewrite H1. split; auto. eqdecs; congruence.
Qed.

Lemma combine_app {X Y} (a a' : list X) (b b' : list Y) : length a = length b ->
  combine (a ++ a') (b ++ b') = combine a b ++ combine a' b'.
Proof. revert b; induction a; intros [|y b]; cbn; intros; try discriminate; auto. f_equal; auto. Qed.

Lemma neq_row_length x y r : neq_row x y = Ok r -> length x = length y /\ length r = length x.
Proof.
  revert y r; induction x as [|u x IH]; intros [|v y] r; cbn; try discriminate.
  - intros [= <-]; auto.
  - destruct (neq_row x y) as [r'|] eqn:E; cbn; [|discriminate]. intros [= <-].
    destruct (IH _ _ E); cbn; auto.
Qed.

Lemma count_app l1 l2 : count (l1 ++ l2) = count l1 + count l2.
Proof. unfold count; rewrite filter_app, app_length; auto. Qed.

Lemma neq_amps_count x y ch : neq_amps x y = Ok ch ->
  count (concat ch) = diff_entries x y /\ count (map any ch) = diff_rows x y /\
  any (map any ch) = (if list_eq_dec (list_eq_dec Req_EM_T) x y then false else true).
Proof.
  unfold diff_entries, diff_rows.
  revert y ch; induction x as [|u x IH]; intros [|v y] ch; cbn [neq_amps]; try discriminate.
  - intros [= <-]; cbn. auto.
  - destruct (neq_row u v) as [r|] eqn:Er; cbn [bind]; [|discriminate].
    destruct (neq_amps x y) as [rs|] eqn:Ers; cbn [bind]; [|discriminate].
    intros [= <-]. destruct (IH y rs Ers) as (H1 & H2 & H3). destruct (neq_row_count _ _ _ Er) as [H4 H5].
    cbn [concat map combine]. rewrite count_app, H4, H1.
    rewrite combine_app by (apply (neq_row_length _ _ _ Er)). rewrite filter_app, app_length.
    split; auto. unfold count, any in *. cbn [filter existsb]. rewrite H5.
    unfold differs at 1; cbn [fst snd].
    destruct (list_eq_dec Req_EM_T u v) as [->|N].
    + rewrite H2, H3. cbn [orb]. split; auto.
      eqdecs; congruence.
    + cbn [length orb]. rewrite H2. split; auto.
      eqdecs; congruence.
Qed.

Lemma diff_entries_0 a b : length a = length b -> (forall k x y, nth_error a k = Some x -> nth_error b k = Some y -> length x = length y) ->
  (diff_entries a b = 0 <-> a = b).
Proof.
  unfold diff_entries. revert b; induction a as [|x a IH]; intros [|y b] L H; cbn; try discriminate; [tauto|].
  pose proof (H 0 x y eq_refl eq_refl) as Hxy.
  rewrite combine_app, filter_app, app_length by auto.
  assert (IH' := IH b ltac:(cbn in L; lia) (fun k => H (S k))).
  assert (R : forall (x y : list R), length x = length y ->
     (length (filter (differs Req_EM_T) (combine x y)) = 0 <-> x = y)).
  { clear. induction x as [|u x IH]; intros [|v y]; cbn; try discriminate; [tauto|]. intros L.
    unfold differs at 1; cbn. destruct (Req_EM_T u v) as [->|N]; cbn.
    - rewrite IH by lia. split; congruence.
    - split; [lia|congruence]. }
  specialize (R x y Hxy). rewrite Nat.eq_add_0, R, IH'. split; [intros [-> ->]; auto|intros [= -> ->]; auto].
Qed.

(** ** Sessions *)
Section Sessions.
Context {A : Alg} (s : settings A) (n m : nat).
Hypothesis W : well_posed s n m.
Hypothesis RO : routines_ok s n m.
Variables (st : bool) (a : amps) (ops : list op).
Hypothesis Ha : shape n m a.
Hypothesis Hops : Forall (call_ok s n m) ops.

Lemma session_evolution : exists d d' b,
  session s st a ops = Ok d /\ compute_evolution d = Ok (d', b) /\
  let ps := props_of s (latest a ops) in
  snd (get_dyn_gen d') = map Some (gens_of s (latest a ops)) /\
  snd (get_prop d') = map Some ps /\
  snd (get_fwd_evo d') = map (fun k => Some (evolve (firstn k ps) (s_initial s))) (seq 0 (S n)) /\
  (exists d'', full_evo d' = Ok (d'', evolve ps (s_initial s))) /\
  (s_fid s = FUnit -> snd (get_onto_evo d') =
     Some (map (fun k => Some (devolve (undo_target s) (skipn k ps))) (seq 0 (S n)))) /\
  (s_fid s = FTrace -> s_dtype s = DNdarray -> snd (get_onwd_evo d') =
     Some (map (fun k => product (skipn k ps)) (seq 0 n))).
Proof.
  destruct (session_ok s n m W RO st a ops Ha Hops) as (d & E & G & _).
  destruct (good_evo s n m W RO _ _ G) as (d' & b & E' & G' & C' & _ & Hsame).
  exists d, d', b. splits; auto.
  pose proof (good_fwd s n m _ _ G' C') as EF.
  cbv zeta; splits; auto.
  - eapply good_dyn_gen; eauto.
  - eapply good_prop; eauto.
  - unfold full_evo. destruct (get_fwd_evo d') as [d2 l] eqn:E2. cbn [snd] in EF. subst l.
    assert (N : n_ts d2 = n).
    { destruct G' as (dr & c & _ & _ & _ & _ & I).
      pose proof (fwd_acc_ok s n m dr c _ _ I) as I2. rewrite E2 in I2; cbn in I2.
      unfold n_ts. rewrite (st_set _ _ _ _ _ _ (inv_st _ _ _ _ _ _ _ I2)), settled_tau. apply W. }
    rewrite N. unfold getf, get. rewrite nth_seq_map by lia. cbn [bind filled Nat.add].
    rewrite firstn_all2; eauto. destruct (good_lens s n m W RO _ _ G') as [-> _]. lia.
  - intros HF. eapply good_onto; eauto.
  - intros HF HN. eapply good_onwd; eauto.
Qed.

Lemma session_values : exists d d1 d2,
  session s st a ops = Ok d /\
  get_fid_err d = Ok (d1, fid_err_of s (latest a ops)) /\
  (s_fid s = FUnit -> get_fidelity d = Ok (d2, fidelity_of s (latest a ops))).
Proof.
  destruct (session_ok s n m W RO st a ops Ha Hops) as (d & E & G & _).
  destruct (good_err s n m W RO _ _ G) as (d1 & E1 & _).
  case_eq (s_fid s); intros HF.
  - destruct (good_fidelity s n m W RO _ _ HF G) as (d2 & E2 & _). exists d, d1, d2; splits; auto.
  - exists d, d1, d1; splits; auto. congruence.
Qed.

Lemma session_gradient : s_prop s <> Approx -> exists d d1 g,
  session s st a ops = Ok d /\ get_fid_err_gradient d = Ok (d1, g) /\
  grad_is (xgrad s) s (latest a ops) g /\ Good s n m (latest a ops) d1 /\
  f_gradnorm (d_fidst d1) = norm2 g.
Proof.
  intros HA.
  destruct (session_ok s n m W RO st a ops Ha Hops) as (d & E & G & _).
  destruct (good_gradient s n m W RO _ _ HA G) as (d1 & g & E1 & G1 & Hg & Hn). exists d, d1, g; splits; auto.
Qed.
End Sessions.

Lemma dslot_at {A : Alg} (s : settings A) n m dexp a k j : length (s_tau s) = n -> shape n m a -> s_prop s <> Approx ->
  grad_routines_at dexp s n m a -> dslot (xgrad s) s a k j = dslot (dprop dexp s) s a k j.
Proof.
  intros Ht Ha HA H. unfold dslot.
  destruct (eff_ctrls s) as [c|] eqn:Ec; auto.
  destruct (nth_error (s_tau s) k) as [t|] eqn:Et; auto.
  destruct (nth_error (gens_of s a) k) as [g|] eqn:Eg; auto. rewrite Ht.
  destruct (nth_error (ctrl_ops n c) k) as [cs|] eqn:Ecs; auto.
  destruct (nth_error cs j) as [cj|] eqn:Ecj; auto. f_equal.
  destruct (H k j t g cj) as (H1 & H2 & H3); [repeat split; eauto; apply Ha|].
  unfold xgrad, dprop. case_eq (s_prop s); intros Ep; try congruence.
  - pose proof (H3 Ep) as H'. unfold diag_dexp in H'. destruct (oeigh A g). exact H'.
  - apply H2; auto.
  - apply H1; auto.
Qed.

Lemma grad_at {A : Alg} (s : settings A) n m dexp a g : length (s_tau s) = n -> shape n m a -> s_prop s <> Approx ->
  grad_routines_at dexp s n m a -> grad_is (xgrad s) s a g -> grad_is (dprop dexp s) s a g.
Proof.
  intros Ht Ha HA HG [L H]. split; auto. intros k j. rewrite H.
  unfold grad_entry_of, doverlap, dfinal. rewrite (dslot_at s n m dexp a k j Ht Ha HA HG). reflexivity.
Qed.
Lemma grad_ext {A : Alg} (s : settings A) n m dexp a g : length (s_tau s) = n -> shape n m a -> s_prop s <> Approx ->
  grad_routines_ok dexp s n m -> grad_is (xgrad s) s a g -> grad_is (dprop dexp s) s a g.
Proof. intros. eapply grad_at; eauto. Qed.

Lemma latest_shape {A : Alg} (s : settings A) n m a ops : shape n m a -> Forall (call_ok s n m) ops -> shape n m (latest a ops).
Proof.
  revert a; induction ops as [|o ops IH]; intros a Ha F; auto.
  inversion F; subst. destruct o; cbn; auto.
Qed.
