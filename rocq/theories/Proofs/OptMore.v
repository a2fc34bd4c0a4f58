(** Consequences of the stopping rules; amplitudes as vectors; bounds. *)
From Coq Require Import Reals Lra String.
From Coquelicot Require Import Complex.
From RecordUpdate Require Import RecordUpdate.
From Verif.Model Require Import Base Dyn OptRun.
From Verif.Lib Require Import Lists.
From Verif.Spec Require Import Evolution History Stopping Runs.
From Verif.Proofs Require Import DynInv DynRun DynHist DynHistory DynProps DynFrame OptFacts.
Local Open Scope nat_scope.
Set Bullet Behavior "Strict Subproofs".

Lemma total_app f l l' : total f (l ++ l') = total f l + total f l'.
Proof. induction l as [|e l IH]; unfold total in *; cbn; auto. rewrite IH; lia. Qed.

Section Played.
Context {A : Alg} (s : settings A) (dexp : Op A -> Op A -> Op A) (decode : list R -> amps).
Variables (targ : R) (tc : termcond) (start : R).
Notation stops := (stops s dexp decode targ tc start).
Notation played := (played s dexp decode targ tc start).

Lemma played_prefix c evs made t : played c evs made t ->
  exists rest, evs = made ++ rest /\ (t = None -> rest = []).
Proof.
  induction 1 as [c|c e evs t St|c e evs made t No P (rest & E & R)].
  - exists []; auto.
  - exists evs; split; auto; discriminate.
  - exists rest; split; auto. cbn; f_equal; auto.
Qed.

Lemma played_last c evs made t : played c evs made (Some t) ->
  exists pre e, made = pre ++ [e] /\ stops (c + total is_eval pre) e t.
Proof.
  intros P. remember (Some t) as ot eqn:Et. revert Et.
  induction P as [c|c e evs t' St|c e evs made t' No P IH]; intros Et; try discriminate.
  - injection Et as ->. exists [], e; split; auto. cbn. rewrite Nat.add_0_r; auto.
  - destruct (IH Et) as (pre & e' & -> & St). exists (e :: pre), e'; split; auto.
    unfold total in *; cbn. rewrite Nat.add_assoc; auto.
Qed.

Lemma played_no c evs made t : played c evs made t -> forall pre e post, made = pre ++ e :: post ->
  (t = None \/ post <> []) -> forall t', ~ stops (c + total is_eval pre) e t'.
Proof.
  induction 1 as [c|c e evs t St|c e evs made t No P IH]; intros pre e0 post E H.
  - destruct pre; discriminate.
  - destruct pre as [|e1 pre]; [|destruct pre; discriminate].
    injection E as -> <-. destruct H as [H|H]; [discriminate|congruence].
  - destruct pre as [|e1 pre].
    + injection E as -> ->. cbn. rewrite Nat.add_0_r; auto.
    + injection E as -> E. specialize (IH pre e0 post E H).
      intros t'. unfold total; cbn. rewrite Nat.add_assoc. apply IH.
Qed.

Lemma last_point_snoc a l e : last_point decode a (l ++ [e]) = last_point decode (last_point decode a l) [e].
Proof. revert a; induction l as [|e' l IH]; intros a; auto. destruct e'; cbn [app last_point]; apply IH. Qed.

Lemma played_goal c evs made a : played c evs made (Some GoalT) -> (fid_err_of s (last_point decode a made) <= targ)%R.
Proof.
  intros P. destruct (played_last _ _ _ _ P) as (pre & e & -> & St). rewrite last_point_snoc. inversion St; subst; auto.
Qed.

Lemma played_at_goal c evs made t x a : played c evs made t -> In (EvF x) made ->
  (fid_err_of s (decode x) <= targ)%R -> t = Some GoalT /\ last_point decode a made = decode x /\ exists pre, made = pre ++ [EvF x].
Proof.
  intros P H L. apply in_split in H. destruct H as (pre & post & E).
  assert (No := played_no _ _ _ _ P _ _ _ E).
  destruct t as [t|].
  2:{ exfalso. apply (No (or_introl eq_refl) GoalT). constructor; auto. }
  destruct post as [|e post].
  2:{ exfalso. assert (H : e :: post <> []) by congruence. apply (No (or_intror H) GoalT). constructor; auto. }
  destruct (played_last _ _ _ _ P) as (pre' & e & E' & St).
  rewrite E in E'. apply app_inj_tail in E'. destruct E' as [-> <-].
  splits; eauto.
  - inversion St; subst; auto. lra.
  - rewrite E, last_point_snoc. reflexivity.
Qed.

(** Number of evaluations: at most one more than the limit. *)
Lemma played_calls c evs made t : played c evs made t ->
  total is_eval made = 0 \/ (INR (c + total is_eval made) <= tc_calls tc + 1)%R \/ (total is_eval made = 1).
Proof.
  intros P.
  assert (Q : forall pre post, made = pre ++ post -> post <> [] \/ t = None -> 
              total is_eval pre = 0 \/ (INR (c + total is_eval pre) <= tc_calls tc)%R).
  { intros pre; induction pre as [|e pre IH] using rev_ind; intros post E H; auto.
    rewrite <- app_assoc in E. cbn in E.
    assert (H' : t = None \/ post <> []) by tauto. pose proof (played_no _ _ _ _ P _ _ _ E H') as No.
    rewrite total_app. destruct e as [x|x|tt]; cbn.
    - right. destruct (Rle_dec (fid_err_of s (decode x)) targ) as [L|L].
      { exfalso; apply (No GoalT); constructor; auto. }
      destruct (Rlt_dec (tc_calls tc) (INR (S (c + total is_eval pre)))) as [L'|L'].
      { exfalso; apply (No FidCallT); constructor; auto; lra. }
      replace (c + (total is_eval pre + 1)) with (S (c + total is_eval pre)) by lia. lra.
    - rewrite Nat.add_0_r. apply (IH (EvG x :: post)); auto. left; discriminate.
    - rewrite Nat.add_0_r. apply (IH (EvCb tt :: post)); auto. left; discriminate. }
  destruct t as [t|].
  - destruct (played_last _ _ _ _ P) as (pre & e & E & St).
    assert (Hne : [e] <> []) by congruence. destruct (Q pre [e] E (or_introl Hne)) as [Z|Z]; rewrite E, total_app; cbn.
    + destruct e; cbn; lia.
    + right; left. destruct e; cbn; rewrite ?Nat.add_0_r; try lra.
      rewrite Nat.add_assoc, plus_INR; cbn; lra.
  - destruct (Q made [] ltac:(rewrite app_nil_r; auto) (or_intror eq_refl)); auto. right; left; lra.
Qed.
End Played.

(** *** Amplitudes as vectors *)
Lemma rows_shape n m : forall x, length x = n * m -> shape n m (rows n m x).
Proof.
  induction n; intros x H; cbn in *; [split; auto|].
  destruct (IHn (skipn m x)) as [L F]; [rewrite skipn_length; lia|].
  split; cbn; [lia|]. constructor; auto. rewrite firstn_length; lia.
Qed.
Lemma flatten_rows n m : forall x, length x = n * m -> flatten (rows n m x) = x.
Proof.
  unfold flatten. induction n; intros x H; cbn in *; [destruct x; auto; discriminate|].
  rewrite IHn by (rewrite skipn_length; lia). apply firstn_skipn.
Qed.
Lemma rows_flatten n m : forall a, shape n m a -> rows n m (flatten a) = a /\ length (flatten a) = n * m.
Proof.
  unfold flatten. induction n; intros a [L F]; cbn in *; [destruct a; auto; discriminate|].
  destruct a as [|r a]; [discriminate|]. inversion F; subst. cbn in *.
  destruct (IHn a) as [E1 E2]; [split; auto|].
  rewrite firstn_app, Nat.sub_diag, firstn_all, firstn_O, app_nil_r.
  rewrite skipn_app, Nat.sub_diag, skipn_all, skipn_O. cbn. rewrite E1, app_length, E2; auto.
Qed.
Lemma flatten_nth {X} n m (a : list (list X)) : length a = n -> Forall (fun r => length r = m) a ->
  forall t c, t < n -> c < m ->
  nth_error (concat a) (t * m + c) = match nth_error a t with Some r => nth_error r c | None => None end.
Proof.
  revert n; induction a as [|r a IH]; intros n L F t c Ht Hc; cbn in *; [lia|].
  inversion F; subst. destruct t as [|t]; cbn.
  - rewrite nth_error_app1; auto.
  - rewrite nth_error_app2 by lia. rewrite <- (IH (length a)); auto; try lia. f_equal; lia.
Qed.

Lemma grape_coding {A : Alg} n m : 0 < n ->
  coding n m (grape_to_amps (A:=A)) grape_get_vars grape_gens_ok (fun x => length x = n * m) (rows n m) (fun _ => True).
Proof.
  intros Hn. constructor.
  - intros x d [] a E [L F] _ _ _ Hx. unfold grape_to_amps. rewrite E; cbn.
    destruct a as [|r a]; [cbn in L; lia|]. inversion F; subst. cbn [hd].
    unfold reshape. rewrite Hx, Nat.eqb_refl; cbn. eauto.
  - intros x Hx. apply rows_shape; auto.
  - intros d g a E _ _. unfold grape_get_vars. rewrite E; cbn; eauto.
  - reflexivity.
Qed.

(** *** Bounds *)
Lemma map_res_inv {X Y} (f : X -> Res Y) l ys : map_res f l = Ok ys ->
  length ys = length l /\ forall k x, nth_error l k = Some x -> exists y, nth_error ys k = Some y /\ f x = Ok y.
Proof.
  revert ys; induction l as [|x l IH]; intros ys H; cbn in H.
  - injection H as <-; split; auto. intros [|k] x; discriminate.
  - destruct (f x) as [y|] eqn:E; [|discriminate]. cbn in H. destruct (map_res f l) as [ys'|] eqn:E'; [|discriminate].
    cbn in H; injection H as <-. destruct (IH _ eq_refl) as [L N]. split; [cbn; auto|].
    intros [|k] x0 Hx; cbn in *; [injection Hx as <-; eauto|auto].
Qed.

Lemma bound_of_for b c x : bound_of b c = Ok x -> drop_inf x = bound_for b c.
Proof.
  destruct b; cbn; intros H; try (injection H as <-; auto).
  unfold get in H. destruct (nth_error l c); [injection H as <-; auto|discriminate].
Qed.
Lemma build_nth n m lb ub bs : build_bounds n m lb ub = Ok bs ->
  length bs = n * m /\ forall t c, t < n -> c < m -> nth_error bs (t * m + c) = Some (bound_for lb c, bound_for ub c).
Proof.
  unfold build_bounds. intros H. destruct (map_res _ (range n)) as [ll|] eqn:E; [|discriminate].
  cbn in H; injection H as <-. destruct (map_res_inv _ _ _ E) as [L N]. unfold range in L; rewrite seq_length in L.
  assert (F : Forall (fun r => length r = m) ll).
  { apply Forall_forall. intros r Hr. apply In_nth_error in Hr. destruct Hr as (k & Hk).
    assert (k < n) by (rewrite <- L; apply nth_error_Some; congruence).
    destruct (nth_ex (range n) k) as (y & Ey); [unfold range; rewrite seq_length; auto|].
    destruct (N k y Ey) as (r' & Hr' & Er). rewrite Hk in Hr'; injection Hr' as <-.
    apply map_res_inv in Er. destruct Er as [Lr _]. unfold range in Lr; rewrite seq_length in Lr; auto. }
  split.
  - rewrite <- L. clear -F. induction F as [|r l Er F IH]; cbn; auto. rewrite app_length, Er. f_equal. exact IH.
  - intros t c Ht Hc. etransitivity; [exact (flatten_nth n m ll L F t c Ht Hc)|].
    destruct (nth_ex (range n) t) as (y & Ey); [unfold range; rewrite seq_length; auto|].
    destruct (N t y Ey) as (r & Hr & Er). rewrite Hr.
    destruct (map_res_inv _ _ _ Er) as [Lr Nr].
    assert (Ec : nth_error (range m) c = Some c).
    { unfold range. rewrite nth_error_nth' with (d:=0) by (rewrite seq_length; auto). rewrite seq_nth; auto. }
    destruct (Nr c c Ec) as (p & -> & Ep).
    destruct (bound_of lb c) eqn:E1; [|discriminate]. cbn in Ep. destruct (bound_of ub c) eqn:E2; [|discriminate].
    cbn in Ep. injection Ep as <-. rewrite (bound_of_for _ _ _ E1), (bound_of_for _ _ _ E2); auto.
Qed.

(** *** What the minimiser is handed *)
Lemma prepare_args {A G} (s : settings A) n m (get_vars : dyn A -> G -> Res (list R)) gens_ok tcs t0 a (o : opt A G) o' r args :
  well_posed s n m -> Good s n m a (o_dyn o) ->
  prepare get_vars gens_ok tcs t0 o = Ok (o', r, args) ->
  get_vars (o_dyn o) (o_gens o) = Ok (ma_x0 args) /\
  match o_kind o with
  | OBase => exists b, ma_bounds args = Some b /\ o_bounds o' = Some b /\
               match o_bounds o with Some b' => b = b' | None => build_bounds n m (o_lb o) (o_ub o) = Ok b end
  | OLBFGSB => exists b, ma_bounds args = Some b /\ o_bounds o' = Some b /\ build_bounds n m (o_lb o) (o_ub o) = Ok b
  | OCrab => ma_bounds args = o_bounds o
  | OBFGS | OCrabFmin => ma_bounds args = None
  end.
Proof.
  intros W Gd. unfold prepare, init_optim. cbn zeta. intros H.
  set (o1 := match tcs with Some tc1 => _ | None => _ end) in H.
  assert (Q : o_dyn o1 = o_dyn o /\ o_gens o1 = o_gens o /\ o_kind o1 = o_kind o /\
              o_lb o1 = o_lb o /\ o_ub o1 = o_ub o /\ o_bounds o1 = o_bounds o).
  { unfold o1. destruct tcs; cbn; splits; auto. }
  clearbody o1. destruct Q as (Q2 & Q3 & Q4 & Q6 & Q7 & Q8).
  destruct (o_tc o1) as [tc0|] eqn:Etc; [|discriminate]. cbn [bind] in H.
  destruct (d_init (o_dyn o1)); [|discriminate]. cbn [bind] in H.
  destruct (settle_targets tc0) as [tc|] eqn:Et; [|discriminate]. cbn [bind] in H.
  set (o2 := if o_crab _ then _ else _) in H.
  assert (Z : o_dyn o2 = o_dyn o /\ o_gens o2 = o_gens o /\ o_kind o2 = o_kind o /\
              o_lb o2 = o_lb o /\ o_ub o2 = o_ub o /\ o_bounds o2 = o_bounds o).
  { unfold o2. cbn. destruct (o_crab o1); cbn; splits; auto. }
  clearbody o2. clear o1 Q2 Q3 Q4 Q6 Q7 Q8 Etc. destruct Z as (Q2 & Q3 & Q4 & Q6 & Q7 & Q8).
  set (o3 := match o_stats o2 with Some _ => _ | None => _ end) in H.
  assert (Z : o_dyn o3 = o_dyn o /\ o_gens o3 = o_gens o /\ o_kind o3 = o_kind o /\
              o_lb o3 = o_lb o /\ o_ub o3 = o_ub o /\ o_bounds o3 = o_bounds o).
  { unfold o3. destruct (o_stats o2) eqn:Es; cbn; splits; auto. }
  clearbody o3. clear o2 Q2 Q3 Q4 Q6 Q7 Q8. destruct Z as (Q2 & Q3 & Q4 & Q6 & Q7 & Q8).
  cbn in H. destruct (is_crab (o_kind o3) && _) eqn:Ec; [discriminate|]. cbn [bind] in H. cbn in H.
  rewrite Q2, Q3 in H. destruct (get_vars (o_dyn o) (o_gens o)) as [x0|] eqn:Ex; [|discriminate]. cbn [bind] in H.
  set (o4 := match o_stats o3 with Some st => _ | None => _ end) in H.
  assert (Z : o_dyn o4 = o_dyn o /\ o_kind o4 = o_kind o /\
              o_lb o4 = o_lb o /\ o_ub o4 = o_ub o /\ o_bounds o4 = o_bounds o).
  { unfold o4. destruct (o_stats o3) eqn:Es; cbn; splits; auto. }
  clearbody o4. clear o3 Q2 Q3 Q4 Q6 Q7 Q8 Ec. destruct Z as (Q2 & Q4 & Q6 & Q7 & Q8).
  destruct (settle_bounds o4) as [o5|] eqn:E5; [|discriminate]. cbn [bind] in H.
  unfold create_result in H.
  destruct (get_fid_err (o_dyn o5)) as [[d1 e]|]; [|discriminate]. cbn [bind] in H.
  destruct (d_amps d1) as [a1|]; [|discriminate]. cbn [some_or bind] in H.
  destruct (full_evo d1) as [[d2 u]|]; [|discriminate]. cbn [bind] in H.
  injection H as <- <- <-. cbn. split; auto.
  unfold passed_bounds; cbn. unfold settle_bounds in E5. rewrite Q2, Q4, Q6, Q7, Q8, (good_nts s n m W a _ Gd) in E5.
  destruct (good_nc s n m a _ Gd) as (dd & Enc). rewrite Enc in E5; cbn [bind] in E5.
  assert (K : o_kind o5 = o_kind o).
  { destruct (o_kind o); [destruct (o_bounds o)| | | | ]; try (injection E5 as <-; auto);
      destruct (build_bounds n m (o_lb o) (o_ub o)); try discriminate; cbn in E5; injection E5 as <-; auto. }
  rewrite K. destruct (o_kind o).
  - destruct (o_bounds o) as [b|] eqn:Eb.
    + injection E5 as <-. exists b; auto.
    + destruct (build_bounds n m (o_lb o) (o_ub o)) as [b|]; [|discriminate]. cbn in E5. injection E5 as <-. exists b; auto.
  - auto.
  - destruct (build_bounds n m (o_lb o) (o_ub o)) as [b|]; [|discriminate]. cbn in E5. injection E5 as <-. exists b; auto.
  - injection E5 as <-; auto.
  - auto.
Qed.
