(** Properties C20-C23, C26, C53: where the runs do not do what one would
    expect ([_refuted]), and concrete cases for the theorems of
    [PropsOptimise.v].  The system: one slot, one control, amplitude u gives
    e^u, target 1, error (1 - e^u)^2 / 2 (Proofs/OptCases.v). *)
From Coq Require Import Reals Lra String.
From Coquelicot Require Import Complex.
From RecordUpdate Require Import RecordUpdate.
From Verif.Model Require Import Base Dyn OptRun.
From Verif.Lib Require Import Lists.
From Verif.Spec Require Import Evolution History Stopping Runs Scalar.
From Verif.Proofs Require Import DynInv DynRun DynHist DynHistory DynProps DynFrame ScalarFacts DynAgain OptFacts OptMore OptCases.
Local Open Scope R_scope.
Set Bullet Behavior "Strict Subproofs".

Notation used1 := (used s1 1 1 grape_to_amps grape_get_vars grape_gens_ok okx1 (fun _ => True)).
Notation run1 := (run_optimization grape_to_amps grape_get_vars grape_gens_ok (A:=ScalarAlg)).
Notation played1 := (played s1 dexp1 (rows 1 1)).
Definition tc1 : termcond := mkTC (Some (1 / 10)) None 10 0 10.

Lemma err_1 : 1 / 10 < fid_err_of s1 [[1]].
Proof. rewrite s1_err. pose proof exp1_ge. nra. Qed.
Lemma err_0 : fid_err_of s1 [[0]] = 0.
Proof. rewrite s1_err, exp_0. lra. Qed.
Lemma grad_1 g : grad_is (dprop dexp1 s1) s1 [[1]] g -> 2 <= euclid g.
Proof.
  intros H. rewrite (s1_grad _ _ H), euclid_one. pose proof exp1_ge.
  rewrite Rabs_right by nra. nra.
Qed.
Lemma grad_0 g : grad_is (dprop dexp1 s1) s1 [[0]] g -> euclid g = 0.
Proof. intros H. rewrite (s1_grad _ _ H), euclid_one, exp_0. replace (- (1 - 1) * 1) with 0 by ring. apply Rabs_R0. Qed.

(** The calls of a run that finds the target after one gradient. *)
Lemma play_goal : played1 (1 / 10) tc1 0 0 [EvF [1]; EvG [1]; EvF [0]] [EvF [1]; EvG [1]; EvF [0]] (Some GoalT).
Proof.
  pose proof err_1. constructor; [|constructor; [|constructor]].
  - intros t' St; inversion St; subst; cbn in *; lra.
  - intros t' St; inversion St; subst. apply grad_1 in H1. cbn in *; lra.
  - constructor. change (rows 1 1 [0]) with [[0]]. rewrite err_0. lra.
Qed.
Lemma play_one tc : tc_targ tc = Some (1 / 10) -> tc_gradmin tc <= 2 -> 1 <= tc_calls tc ->
  played1 (1 / 10) tc 0 0 [EvF [1]; EvG [1]] [EvF [1]; EvG [1]] None.
Proof.
  intros _ Hg Hc. pose proof err_1. constructor; [|constructor; [|constructor]].
  - intros t' St; inversion St; subst; cbn in *; lra.
  - intros t' St; inversion St; subst. apply grad_1 in H1. cbn in *; lra.
Qed.
Lemma calls_ok x : okx1 x -> Forall (good_call s1 okx1) [EvF [1]; EvG [1]; EvF x].
Proof. intros H. repeat constructor; cbn; auto; discriminate. Qed.
Lemma calls_ok2 : Forall (good_call s1 okx1) [EvF [1]; EvG [1]].
Proof. repeat constructor; cbn; auto; discriminate. Qed.

Lemma calls_F x : okx1 x -> Forall (good_call s1 okx1) [EvF x].
Proof. repeat constructor; auto. Qed.
Lemma calls_F2 x y : okx1 x -> okx1 y -> Forall (good_call s1 okx1) [EvF x; EvF y].
Proof. repeat constructor; auto. Qed.
Lemma calls_C x y : Forall (good_call s1 okx1) [EvCb x; EvCb y].
Proof. repeat constructor. Qed.

(** The hypotheses of the theorems of [PropsOptimise.v] are met: a run that
    reaches the goal. *)
Example run_case :
  well_posed s1 1 1 /\ routines_ok s1 1 1 /\ grad_routines_ok dexp1 s1 1 1 /\
  coding 1 1 (grape_to_amps (A:=ScalarAlg)) grape_get_vars grape_gens_ok okx1 (rows 1 1) (fun _ => True) /\
  exists o o' r, used1 o [[1]] /\ runnable 1 (fun _ => True) None tc1 (1 / 10) o /\
    Forall (good_call s1 okx1) [EvF [1]; EvG [1]; EvF [0]] /\
    run1 None 0 1 [EvF [1]; EvG [1]; EvF [0]] (Returns [1] 0 0 "") o = Ok (o', r) /\
    r_goal r = true /\ r_final_amps r = Some [[0]] /\ r_calls r = 2%nat /\ used1 o' [[0]].
Proof.
  destruct s1_ok as (W & RO & GR). splits; auto; [apply grape_coding; lia|].
  destruct (case_run OLBFGSB tc1 (1 / 10) 1 _ _ _ [1] 0 0 "" eq_refl (calls_ok [0] eq_refl) eq_refl play_goal)
    as (o & o' & r & g & K & _ & _ & U & HR & E & _ & Er).
  assert (F : r_final_amps r = Some [[0]]) by (rewrite Er; reflexivity).
  exists o, o', r. splits; auto; try (rewrite Er; reflexivity).
  - apply calls_ok; reflexivity.
  - refine (used_run s1 1 1 _ _ _ _ _ o [[1]] None tc1 (1 / 10) 0 1 _ (Returns [1] 0 0 "") o' r [[0]] U HR (calls_ok [0] eq_refl) (eq_refl : okx1 [1]) E F).
Qed.

(** ** C20 *)
(** Bounds assigned by the user before the run are handed to the minimiser by
    the base class and by the CRAB class.  (Full statement: by every class.) *)
Theorem C20_bounds_honoured_partial {A G} (s : settings A) n m dexp to_amps (get_vars : dyn A -> G -> Res (list R)) gens_ok
  okx decode okg tcs t0 a
  (o : opt A G) o' r args b :
  well_posed s n m -> routines_ok s n m -> grad_routines_ok dexp s n m ->
  coding n m to_amps get_vars gens_ok okx decode okg -> used s n m to_amps get_vars gens_ok okx okg o a -> o_bounds o = Some b ->
  o_kind o = OBase \/ o_kind o = OCrab ->
  prepare get_vars gens_ok tcs t0 o = Ok (o', r, args) -> ma_bounds args = Some b.
Proof.
  intros W RO GR CD U Eb Hk E. destruct (used_good s n m W RO dexp GR _ _ _ _ _ _ CD o a U) as [Gd _].
  destruct (prepare_args s n m get_vars gens_ok tcs t0 a o o' r args W Gd E) as [_ Q].
  destruct Hk as [Hk|Hk]; rewrite Hk in Q; [|congruence].
  destruct Q as (b' & -> & _ & Q). rewrite Eb in Q. congruence.
Qed.

Lemma good_start k tc d : session s1 true [[1]] [] = Ok d -> Good s1 1 1 [[1]] (o_dyn (start1 k tc d)) /\ linked (d : dyn ScalarAlg).
Proof.
  intros E. destruct s1_ok as (W & RO & GR).
  apply (used_good s1 1 1 W RO dexp1 GR _ _ _ _ _ _ (grape_coding (A:=ScalarAlg) 1 1 ltac:(lia)) (start1 k tc d)).
  apply start_used; auto.
Qed.
(** Preparing a run of a started optimiser, whatever its bounds. *)
Lemma prep k d lb ub b : session s1 true [[1]] [] = Ok d -> fits 1 lb -> fits 1 ub ->
  let o := start1 k tc1 d <| o_bounds := b |> <| o_lb := lb |> <| o_ub := ub |> in
  exists o' r args, prepare grape_get_vars grape_gens_ok None 0 o = Ok (o', r, args).
Proof.
  intros E Hl Hu o. destruct (good_start k tc1 d E) as [Hg Hk]. destruct s1_ok as (W & RO & GR).
  assert (ST : Startable s1 1 1 grape_get_vars grape_gens_ok (fun _ => True) None [[1]] (tc1 <| tc_goal := Some (1 - 1 / 10) |>) (1/10) o).
  { constructor; cbn; auto.
    - exists tc1; split; reflexivity.
    - destruct (good_amps _ _ _ _ _ Hg) as [Ea _]. cbn in Ea. unfold grape_get_vars. rewrite Ea. cbn; eauto. }
  destruct (prepare_ok s1 1 1 W RO grape_get_vars grape_gens_ok (fun _ => True) None 0 _ _ _ _ ST) as (o' & r & args & Ep & _).
  eauto.
Qed.

(** OptimizerLBFGSB recomputes them from amp_lbound / amp_ubound and so drops
    what the user assigned; OptimizerBFGS hands over none. *)
Theorem C20_lbfgsb_refuted :
  exists (o : opt ScalarAlg unit) b o' r args, used1 o [[1]] /\ o_kind o = OLBFGSB /\ o_bounds o = Some b /\
    prepare grape_get_vars grape_gens_ok None 0 o = Ok (o', r, args) /\ ma_bounds args <> Some b.
Proof.
  destruct have1 as (d & Ed). destruct s1_ok as (W & RO & GR). destruct (good_start OLBFGSB tc1 d Ed) as [Hg _].
  set (b := [(Some 0, Some 1)] : list bpair).
  destruct (prep OLBFGSB d BNone BNone (Some b) Ed I I) as (o' & r & args & E).
  set (o := start1 OLBFGSB tc1 d <| o_bounds := Some b |> <| o_lb := BNone |> <| o_ub := BNone |>) in *.
  exists o, b, o', r, args. splits; auto.
  - apply (used_new s1 1 1 _ _ _ _ _ true [[1]] [] d); auto. split; auto.
  - destruct (prepare_args s1 1 1 _ _ _ _ [[1]] o o' r args W Hg E) as [_ (b' & Q & _ & B)]. rewrite Q.
    cbn in B. injection B as <-. unfold b. discriminate.
Qed.

Theorem C20_bfgs_refuted :
  exists (o : opt ScalarAlg unit) b o' r args, used1 o [[1]] /\ o_kind o = OBFGS /\ o_bounds o = Some b /\
    prepare grape_get_vars grape_gens_ok None 0 o = Ok (o', r, args) /\ ma_bounds args = None.
Proof.
  destruct have1 as (d & Ed). destruct s1_ok as (W & RO & GR). destruct (good_start OBFGS tc1 d Ed) as [Hg _].
  set (b := [(Some 0, Some 1)] : list bpair).
  destruct (prep OBFGS d BNone BNone (Some b) Ed I I) as (o' & r & args & E).
  set (o := start1 OBFGS tc1 d <| o_bounds := Some b |> <| o_lb := BNone |> <| o_ub := BNone |>) in *.
  exists o, b, o', r, args. splits; auto.
  - apply (used_new s1 1 1 _ _ _ _ _ true [[1]] [] d); auto. split; auto.
  - apply (prepare_args s1 1 1 _ _ _ _ [[1]] o o' r args W Hg E).
Qed.

(** ** C53 *)
(** amp_lbound / amp_ubound as they are when the run starts are what the
    minimiser is given: by OptimizerLBFGSB always, by the base class only when
    no bounds are stored. *)
Theorem C53_bounds_current_partial {A G} (s : settings A) n m dexp to_amps (get_vars : dyn A -> G -> Res (list R)) gens_ok
  okx decode okg tcs t0 a
  (o : opt A G) o' r args :
  well_posed s n m -> routines_ok s n m -> grad_routines_ok dexp s n m ->
  coding n m to_amps get_vars gens_ok okx decode okg -> used s n m to_amps get_vars gens_ok okx okg o a ->
  o_kind o = OLBFGSB \/ (o_kind o = OBase /\ o_bounds o = None) ->
  prepare get_vars gens_ok tcs t0 o = Ok (o', r, args) ->
  exists b, ma_bounds args = Some b /\ length b = (n * m)%nat /\
    forall t c, (t < n)%nat -> (c < m)%nat ->
      nth_error b (t * m + c) = Some (bound_for (o_lb o) c, bound_for (o_ub o) c).
Proof.
  intros W RO GR CD U Hk E. destruct (used_good s n m W RO dexp GR _ _ _ _ _ _ CD o a U) as [Gd _].
  destruct (prepare_args s n m get_vars gens_ok tcs t0 a o o' r args W Gd E) as [_ Q].
  destruct Hk as [Hk|[Hk Hb]]; rewrite Hk in Q.
  - destruct Q as (b & Eb & _ & B). exists b. split; auto. apply build_nth; auto.
  - destruct Q as (b & Eb & _ & B). rewrite Hb in B. exists b. split; auto. apply build_nth; auto.
Qed.

(** The base class keeps the list of the first run: bounds assigned between
    two runs are ignored by the second. *)
Theorem C53_second_run_refuted :
  exists (o o1 o2 : opt ScalarAlg unit) r1 r2 args1 args2, used1 o [[1]] /\ o_kind o = OBase /\ o_bounds o = None /\
    prepare grape_get_vars grape_gens_ok None 0 o = Ok (o1, r1, args1) /\
    prepare grape_get_vars grape_gens_ok None 0 (o1 <| o_ub := BNum (Fin 2) |>) = Ok (o2, r2, args2) /\
    bound_for (o_ub o1) 0 = Some 1 /\
    ma_bounds args2 = Some [(None, Some 1)].
Proof.
  destruct have1 as (d & Ed). destruct s1_ok as (W & RO & GR). destruct (good_start OBase tc1 d Ed) as [Hg Hk].
  set (o := start1 OBase tc1 d <| o_bounds := None |> <| o_lb := BNone |> <| o_ub := BNum (Fin 1) |>).
  set (tc := tc1 <| tc_goal := Some (1 - 1 / 10) |>).
  assert (ST : Startable s1 1 1 grape_get_vars grape_gens_ok (fun _ => True) None [[1]] tc (1/10) o).
  { constructor; cbn; auto.
    - exists tc1; split; reflexivity.
    - destruct (good_amps _ _ _ _ _ Hg) as [Ea _]. cbn in Ea. unfold grape_get_vars. rewrite Ea. cbn; eauto. }
  destruct (prepare_ok s1 1 1 W RO grape_get_vars grape_gens_ok (fun _ => True) None 0 _ _ _ _ ST)
    as (o1 & r1 & args1 & E1 & AT & _ & _ & _ & _ & _ & Ek & _ & El & Eu & _).
  destruct (prepare_args s1 1 1 _ _ _ _ [[1]] o o1 r1 args1 W Hg E1) as [_ (b & Eb & Eb' & B)]. cbn in B. injection B as <-.
  set (o1' := o1 <| o_ub := BNum (Fin 2) |>).
  assert (ST2 : Startable s1 1 1 grape_get_vars grape_gens_ok (fun _ => True) None [[1]] tc (1/10) o1').
  { destruct AT. constructor; cbn; auto.
    - exists tc; split; [exact at_tc|reflexivity].
    - destruct (good_amps _ _ _ _ _ at_good) as [Ea _]. unfold grape_get_vars. rewrite Ea. cbn; eauto.
    - rewrite El. exact I. }
  destruct (prepare_ok s1 1 1 W RO grape_get_vars grape_gens_ok (fun _ => True) None 0 _ _ _ _ ST2)
    as (o2 & r2 & args2 & E2 & _).
  destruct (prepare_args s1 1 1 _ _ _ _ [[1]] o1' o2 r2 args2 W (at_good _ _ _ _ _ _ _ _ _ AT) E2) as [_ Q].
  cbn in Q. rewrite Ek in Q. cbn in Q. destruct Q as (b2 & Q & _ & B2). rewrite Eb' in B2. subst b2.
  exists o, o1, o2, r1, r2, args1, args2. splits; auto.
  - apply (used_new s1 1 1 _ _ _ _ _ true [[1]] [] d); auto. split; auto.
  - rewrite Eu. reflexivity.
Qed.

(** ** C21 *)
(** grad_norm_final is not the gradient norm at the reported final point. *)
Theorem C21_grad_norm_refuted :
  exists o o' r b g, used1 o [[1]] /\ runnable 1 (fun _ => True) None tc1 (1 / 10) o /\
    run1 None 0 1 [EvF [1]; EvG [1]; EvF [0]] (Returns [1] 0 0 "") o = Ok (o', r) /\
    r_final_amps r = Some b /\ grad_is (dprop dexp1 s1) s1 b g /\ r_gradnorm r <> euclid g.
Proof.
  destruct (case_run OLBFGSB tc1 (1 / 10) 1 _ _ _ [1] 0 0 "" eq_refl (calls_ok [0] eq_refl) eq_refl play_goal)
    as (o & o' & r & g & K & _ & _ & U & HR & E & Qg & Er).
  destruct Qg as (g1 & Hg1 & Eg). cbn in Hg1. apply grad_1 in Hg1.
  destruct s1_ok as (W & RO & GR).
  destruct (session_gradient s1 1 1 W RO false [[0]] []) as (_ & _ & g0 & _ & _ & G0 & _ & _).
  { split; auto. } { constructor. } { discriminate. }
  assert (NA : s_prop s1 <> Approx) by discriminate. assert (Sh : shape 1 1 [[0]]) by (split; auto).
  apply (grad_ext s1 1 1 dexp1 [[0]] g0 eq_refl Sh NA GR) in G0.
  exists o, o', r, [[0]], g0. splits; auto.
  - rewrite Er; reflexivity.
  - rewrite Er. cbn. rewrite (grad_0 _ G0). lra.
Qed.

(** ** C22 *)
(** OptimizerBFGS: the minimiser converges (warnflag 0) and the result still
    says that the run was not started. *)
Theorem C22_reason_refuted :
  exists o o' r, o_kind o = OBFGS /\ used1 o [[1]] /\ runnable 1 (fun _ => True) None tc1 (1 / 10) o /\
    run1 None 0 1 [EvF [1]; EvG [1]] (Returns [1] 0 0 "") o = Ok (o', r) /\
    r_reason r = "not started yet"%string.
Proof.
  destruct (case_run OBFGS tc1 (1 / 10) 1 _ _ _ [1] 0 0 "" eq_refl calls_ok2 eq_refl (play_one tc1 eq_refl ltac:(cbn; lra) ltac:(cbn; lra)))
    as (o & o' & r & g & K & _ & _ & U & HR & E & _ & Er).
  exists o, o', r. splits; auto. rewrite Er; reflexivity.
Qed.

(** OptimizerLBFGSB (warnflag 0) and OptimizerBFGS (warnflag 2) set
    grad_norm_min_reached although the gradient is above the limit. *)
Theorem C22_grad_flag_refuted : forall k w, (k = OLBFGSB /\ w = 0%nat) \/ (k = OBFGS /\ w = 2%nat) ->
  exists o o' r, o_kind o = k /\ used1 o [[1]] /\ runnable 1 (fun _ => True) None tc1 (1 / 10) o /\
    run1 None 0 1 [EvF [1]; EvG [1]] (Returns [1] 0 w "") o = Ok (o', r) /\
    r_gradmin r = true /\ tc_gradmin tc1 < r_gradnorm r.
Proof.
  intros k w Hk.
  destruct (case_run k tc1 (1 / 10) 1 _ _ _ [1] 0 w "" eq_refl calls_ok2 eq_refl (play_one tc1 eq_refl ltac:(cbn; lra) ltac:(cbn; lra)))
    as (o & o' & r & g & K & _ & _ & U & HR & E & Qg & Er).
  destruct Qg as (g1 & Hg1 & Eg). cbn in Hg1. apply grad_1 in Hg1.
  exists o, o', r. splits; auto.
  - rewrite Er; destruct Hk as [[-> ->]|[-> ->]]; reflexivity.
  - rewrite Er. cbn. rewrite Eg. lra.
Qed.

(** ** C23 *)
(** The limit is exceeded by one evaluation. *)
Definition tc_limit : termcond := mkTC (Some (1 / 10)) None 10 0 1.
Theorem C23_limit_refuted :
  exists o o' r, used1 o [[1]] /\ runnable 1 (fun _ => True) None tc_limit (1 / 10) o /\
    run1 None 0 1 [EvF [1]; EvF [1]] (Returns [1] 0 0 "") o = Ok (o', r) /\
    tc_calls tc_limit < INR (r_calls r).
Proof.
  assert (P : played1 (1 / 10) tc_limit 0 0 [EvF [1]; EvF [1]] [EvF [1]; EvF [1]] (Some FidCallT)).
  { pose proof err_1. constructor; [|constructor].
    - intros t' St; inversion St; subst; cbn in *; lra.
    - apply stops_calls; [exact H|cbn; lra]. }
  destruct (case_run OBase tc_limit (1 / 10) 1 _ _ _ [1] 0 0 "" eq_refl (calls_F2 [1] [1] eq_refl eq_refl) eq_refl P)
    as (o & o' & r & g & K & _ & _ & U & HR & E & _ & Er).
  exists o, o', r. splits; auto. rewrite Er; cbn; lra.
Qed.

(** Statistics and result disagree on the number of iterations: one iteration
    too many when there was none, and the iteration at which the time limit is
    noticed is missing. *)
Theorem C23_stats_refuted :
  (exists o o' r st, o_kind o = OBFGS /\ used1 o [[1]] /\ runnable 1 (fun _ => True) None tc1 (1 / 10) o /\
    run1 None 0 1 [EvF [1]; EvG [1]] (Returns [1] 0 0 "") o = Ok (o', r) /\
    r_stats r = Some st /\ r_iter r = 0%nat /\ os_iter st = 1%nat) /\
  (exists o o' r st, o_kind o = OLBFGSB /\ used1 o [[1]] /\ runnable 1 (fun _ => True) None tc1 (1 / 10) o /\
    run1 None 0 12 [EvCb 5; EvCb 11] (Returns [1] 0 0 "") o = Ok (o', r) /\
    r_stats r = Some st /\ r_iter r = 2%nat /\ os_iter st = 1%nat).
Proof.
  split.
  - destruct (case_run OBFGS tc1 (1 / 10) 1 _ _ _ [1] 0 0 "" eq_refl calls_ok2 eq_refl (play_one tc1 eq_refl ltac:(cbn; lra) ltac:(cbn; lra)))
      as (o & o' & r & g & K & _ & _ & U & HR & E & _ & Er).
    exists o, o', r. eexists. splits; auto; rewrite Er; reflexivity.
  - assert (P : played1 (1 / 10) tc1 0 0 [EvCb 5; EvCb 11] [EvCb 5; EvCb 11] (Some WallT)).
    { constructor; [|constructor].
      - intros t' St; inversion St; subst; cbn in *; lra.
      - constructor; cbn; lra. }
    destruct (case_run OLBFGSB tc1 (1 / 10) 12 _ _ _ [1] 0 0 "" eq_refl (calls_C 5 11) eq_refl P)
      as (o & o' & r & g & K & _ & _ & U & HR & E & _ & Er).
    exists o, o', r. eexists. splits; auto; rewrite Er; reflexivity.
Qed.

(** ** C26 *)
(** fid_goal = 1/2 set on otherwise default conditions: a point with error
    below 1/2 is evaluated and the run goes on. *)
Definition tc_goal_half : termcond := default_tc <| tc_goal := Some (1 / 2) |>.
Theorem C26_goal_ignored_refuted :
  exists o o' r e, used1 o [[1]] /\ o_tc o = Some tc_goal_half /\
    run1 None 0 1 [EvF [-1]] (Returns [-1] 0 0 "") o = Ok (o', r) /\
    r_fid_err r = Some e /\ e <= 1 - 1 / 2 /\ r_goal r = false.
Proof.
  assert (B : 1 / 8 <= fid_err_of s1 [[-1]] <= 1 / 2).
  { rewrite s1_err. pose proof exp1_ge. pose proof (exp_pos (-1)).
    assert (exp 1 * exp (-1) = 1) by (rewrite <- exp_plus; replace (1 + -1) with 0 by ring; apply exp_0).
    assert (exp (-1) <= 1 / 2) by nra. nra. }
  assert (P : played1 (/ 100000) tc_goal_half 0 0 [EvF [-1]] [EvF [-1]] None).
  { constructor; [|constructor].
    intros t' St; inversion St; subst; cbn in *; lra. }
  destruct (case_run OBase tc_goal_half (/ 100000) 1 _ _ _ [-1] 0 0 "" eq_refl (calls_F [-1] eq_refl) eq_refl P)
    as (o & o' & r & g & K & Tc & _ & U & HR & E & _ & Er).
  exists o, o', r, (fid_err_of s1 [[-1]]). splits; auto; try (rewrite Er; reflexivity). lra.
Qed.

(** Assumptions of all theorems of this file together (listed one by one in
    ASSUMPTIONS.txt). *)
Definition propsOptCases :=
  (@C20_bounds_honoured_partial,
   @C20_lbfgsb_refuted,
   @C20_bfgs_refuted,
   @C53_bounds_current_partial,
   @C53_second_run_refuted,
   @C21_grad_norm_refuted,
   @C22_reason_refuted,
   @C22_grad_flag_refuted,
   @C23_limit_refuted,
   @C23_stats_refuted,
   @C26_goal_ignored_refuted).
Print Assumptions propsOptCases.
