(** Properties C19-C23 and C26: what an optimisation run does and reports.

    The minimiser is arbitrary: [evs] are the calls it would make of the
    function, gradient and callback wrappers, [fin] is how it ends when none of
    them stops it.  [played ... evs made t] (Spec/Stopping.v) says which of
    them are made, and which stopping rule, if any, ended the run.
    [used o a] (Spec/Runs.v): the optimiser [o] has any history whatever of
    calls and earlier runs, and the amplitudes now are [a].
    The theorems are about any [coding] of amplitudes as variables; GRAPE's is
    one ([grape_coding], 0 < n) and so is CRAB's ([Props/PropsCrab.v]). *)
From Coq Require Import Reals Lra String.
From Coquelicot Require Import Complex.
From RecordUpdate Require Import RecordUpdate.
From Verif.Model Require Import Base Dyn OptRun.
From Verif.Lib Require Import Lists.
From Verif.Spec Require Import Evolution History Stopping Runs Scalar.
From Verif.Proofs Require Import DynInv DynRun DynHist DynHistory DynProps DynFrame ScalarFacts OptFacts OptMore.
Local Open Scope nat_scope.
Set Bullet Behavior "Strict Subproofs".

(** ** C19 *)
Theorem C19_round_trip n m a x : shape n m a -> length x = n * m ->
  reshape n m (flatten a) = Ok a /\ length (flatten a) = n * m /\
  exists b, reshape n m x = Ok b /\ shape n m b /\ flatten b = x.
Proof.
  intros Ha Hx. destruct (rows_flatten n m a Ha) as [E L]. unfold reshape.
  rewrite L, Hx, Nat.eqb_refl, E. splits; auto. eexists; splits; eauto using rows_shape, flatten_rows.
Qed.

(** Position t * m + c holds the amplitude of control c in slot t. *)
Theorem C19_position n m a t c : shape n m a -> t < n -> c < m ->
  exists row u, nth_error a t = Some row /\ nth_error row c = Some u /\
                nth_error (flatten a) (t * m + c) = Some u.
Proof.
  intros [L F] Ht Hc. destruct (nth_ex a t) as (row & Er); [lia|].
  destruct (nth_ex row c) as (u & Eu); [rewrite (Forall_forall _ _) in F; rewrite (F row); eauto using nth_error_In|].
  exists row, u; splits; auto. unfold flatten. rewrite (flatten_nth n m a L F t c Ht Hc), Er; auto.
Qed.

(** ... and the same position of the bounds list the bounds of control c. *)
Theorem C19_bounds n m lb ub bs : build_bounds n m lb ub = Ok bs ->
  length bs = n * m /\
  forall t c, t < n -> c < m -> nth_error bs (t * m + c) = Some (bound_for lb c, bound_for ub c).
Proof. apply build_nth. Qed.

Theorem C19_bounds_built n m lb ub : fits m lb -> fits m ub -> exists bs, build_bounds n m lb ub = Ok bs.
Proof. apply build_ok. Qed.

Example C19_case : exists bs,
  build_bounds 2 2 (BList [Some (Fin 1); Some NInf]) (BNum (Fin 3)) = Ok bs /\
  bs = [(Some 1, Some 3); (None, Some 3); (Some 1, Some 3); (None, Some 3)]%R /\
  reshape 2 2 [1;2;3;4]%R = Ok [[1;2];[3;4]]%R.
Proof. eexists; splits; reflexivity. Qed.

(** ** Runs *)
Section Runs.
Context {A : Alg} (s : settings A) (n m : nat).
Variable dexp : Op A -> Op A -> Op A.
Hypothesis W : well_posed s n m.
Hypothesis RO : routines_ok s n m.
Hypothesis GR : grad_routines_ok dexp s n m.
Context {G : Type}.
Variable to_amps : list R -> dyn A -> G -> Res (G * amps).
Variable get_vars : dyn A -> G -> Res (list R).
Variable gens_ok : dyn A -> G -> bool.
Variable okx : list R -> Prop.
Variable decode : list R -> amps.
Variable okg : G -> Prop.
Hypothesis CD : coding n m to_amps get_vars gens_ok okx decode okg.
Notation used := (used s n m to_amps get_vars gens_ok okx okg).
Notation runs := (run_optimization to_amps get_vars gens_ok).
Notation played := (played s dexp decode).

Lemma explain o a tcs tc targ t0 t1 evs fin o' r :
  used o a -> runnable m okg tcs tc targ o -> Forall (good_call s okx) evs -> good_end okx fin ->
  runs tcs t0 t1 evs fin o = Ok (o', r) ->
  exists made t g, played targ tc t0 0 evs made t /\ (t = None -> exists x nit w msg, fin = Returns x nit w msg) /\
      let b := end_point decode a made t fin in
      Good s n m b (o_dyn o') /\ linked (o_dyn o') /\
      (match last_grad decode None made with
       | None => g = gnorm (o_dyn o)
       | Some x => exists G, grad_is (dprop dexp s) s x G /\ g = euclid G
       end) /\
      r = match t, fin with
          | Some t, _ => interpret t
          | None, Returns _ nit warn msg => interpret_return (o_kind o) nit warn msg
          | None, Crashes _ => fun r => r
          end (new_result <| r_initial_fid_err := Some (fid_err_of s a) |> <| r_initial_amps := Some a |>
                          <| r_evo_initial := Some (final_of s a) |>)
          <| r_iter := total is_iter made |> <| r_calls := total is_eval made |> <| r_time := (t1 - t0)%R |>
          <| r_fid_err := Some (fid_err_of s b) |> <| r_gradnorm := g |>
          <| r_final_amps := Some b |> <| r_evo_final := Some (final_of s b) |>
          <| r_stats := match o_stats o with
                        | None => None
                        | Some _ => Some (mkOS (match survived made t with 0 => first_iter (o_kind o) | k => k end)
                                               (total is_eval made) (total is_grad made))
                        end |>.
Proof.
  intros U HR HE HF E. destruct (used_good s n m W RO dexp GR _ _ _ _ _ _ CD o a U) as [Hg Hl].
  destruct (run_full s n m W RO dexp GR _ _ _ _ _ _ CD o a tcs tc targ t0 t1 evs fin Hg Hl HR HE HF) as (made & t & P & Q).
  destruct t as [t|]; [|destruct fin as [x nit w msg|e]; [|congruence]];
    destruct Q as (o2 & r2 & g & E2 & Q1 & Q2 & _ & _ & _ & _ & Q3 & Q4); rewrite E in E2; injection E2 as <- <-.
  - exists made, (Some t), g; splits; auto. discriminate.
  - exists made, None, g; splits; auto. intros _. eauto 6.
Qed.

(** *** C21 *)
(** A run always comes to an end with a result, unless the minimiser itself
    raises something; the calls made are a prefix of those it would make. *)
Theorem C21_run_ends o a tcs tc targ t0 t1 evs fin :
  used o a -> runnable m okg tcs tc targ o -> Forall (good_call s okx) evs -> good_end okx fin ->
  exists made rest t, evs = made ++ rest /\ played targ tc t0 0 evs made t /\
    ((exists o' r, runs tcs t0 t1 evs fin o = Ok (o', r)) \/
     (exists e, rest = [] /\ t = None /\ fin = Crashes e /\ runs tcs t0 t1 evs fin o = Raise e)).
Proof.
  intros U HR HE HF. destruct (used_good s n m W RO dexp GR _ _ _ _ _ _ CD o a U) as [Hg Hl].
  destruct (run_full s n m W RO dexp GR _ _ _ _ _ _ CD o a tcs tc targ t0 t1 evs fin Hg Hl HR HE HF) as (made & t & P & Q).
  destruct (played_prefix _ _ _ _ _ _ _ _ _ _ P) as (rest & E & R).
  exists made, rest, t; splits; auto.
  destruct t as [t|]; [|destruct fin as [x nit w msg|e]; [|right; eauto 6]];
    destruct Q as (o2 & r2 & g & E2 & _); left; eauto.
Qed.

(** final_amps, fid_err and evo_full_final belong to one and the same point,
    which is the last one evaluated, or the one the minimiser returned; the
    initial values belong to the amplitudes before the run; and the object
    itself is left at the final point. *)
Theorem C21_coherent_result o a tcs tc targ t0 t1 evs fin o' r :
  used o a -> runnable m okg tcs tc targ o -> Forall (good_call s okx) evs -> good_end okx fin ->
  runs tcs t0 t1 evs fin o = Ok (o', r) ->
  exists b, r_final_amps r = Some b /\ shape n m b /\
    r_fid_err r = Some (fid_err_of s b) /\ r_evo_final r = Some (final_of s b) /\
    d_amps (o_dyn o') = Some b /\
    (exists d, get_fid_err (o_dyn o') = Ok (d, fid_err_of s b)) /\
    r_initial_amps r = Some a /\ r_initial_fid_err r = Some (fid_err_of s a) /\
    r_evo_initial r = Some (final_of s a) /\
    exists made t, played targ tc t0 0 evs made t /\
      match t, fin with
      | Some _, _ => b = last_point decode a made
      | None, Returns x _ _ _ => b = decode x
      | None, Crashes _ => False
      end.
Proof.
  intros U HR HE HF E. destruct (explain _ _ _ _ _ _ _ _ _ _ _ U HR HE HF E) as (made & t & g & P & T & Q1 & Q2 & _ & ->).
  destruct (good_amps s n m _ _ Q1) as [Ea Sa]. destruct (good_err s n m W RO _ _ Q1) as (d & Ed & _).
  exists (end_point decode a made t fin).
  assert (IN : forall r0 : result A, let r1 := match t, fin with
          | Some t, _ => interpret t
          | None, Returns _ nit warn msg => interpret_return (o_kind o) nit warn msg
          | None, Crashes _ => fun r => r
          end r0 in r_initial_amps r1 = r_initial_amps r0 /\ r_initial_fid_err r1 = r_initial_fid_err r0 /\
                    r_evo_initial r1 = r_evo_initial r0).
  { intros r0. destruct t as [[]|]; [..|destruct fin; [destruct (o_kind o)|]]; cbn; auto;
    repeat match goal with |- context [if ?b then _ else _] => destruct b end; auto. }
  cbv zeta in IN. splits; try reflexivity; auto.
  - exists d; auto.
  - etransitivity; [apply IN|reflexivity].
  - etransitivity; [apply IN|reflexivity].
  - etransitivity; [apply IN|reflexivity].
  - exists made, t; split; auto. destruct t, fin; try reflexivity. destruct (T eq_refl) as (? & ? & ? & ? & ?); discriminate.
Qed.

(** grad_norm_final: the norm of the gradient at the last point where the
    minimiser asked for a gradient, which may not be the final point (see
    [C21_grad_norm_refuted]); equal to it if no other point was evaluated
    afterwards. *)
Theorem C21_grad_norm_partial o a tcs tc targ t0 t1 evs fin o' r :
  used o a -> runnable m okg tcs tc targ o -> Forall (good_call s okx) evs -> good_end okx fin ->
  runs tcs t0 t1 evs fin o = Ok (o', r) ->
  exists made t, played targ tc t0 0 evs made t /\
    (forall b, last_grad decode None made = Some b ->
       exists g, grad_is (dprop dexp s) s b g /\ r_gradnorm r = euclid g) /\
    (forall b g, last_grad decode None made = Some b -> r_final_amps r = Some b ->
       grad_is (dprop dexp s) s b g -> r_gradnorm r = euclid g).
Proof.
  intros U HR HE HF E. destruct (explain _ _ _ _ _ _ _ _ _ _ _ U HR HE HF E) as (made & t & g & P & T & Q1 & Q2 & Q3 & ->).
  exists made, t; splits; auto.
  - intros b Eb. rewrite Eb in Q3. auto.
  - intros b g' Eb _ Gg. rewrite Eb in Q3. destruct Q3 as (g2 & G2 & ->). cbn.
    rewrite (grad_is_unique _ _ _ _ _ G2 Gg). auto.
Qed.

(** *** C22 *)
(** goal_achieved is set exactly when an evaluated point met the target, and
    then that point is the one reported. *)
Theorem C22_goal_flag o a tcs tc targ t0 t1 evs fin o' r :
  used o a -> runnable m okg tcs tc targ o -> Forall (good_call s okx) evs -> good_end okx fin ->
  runs tcs t0 t1 evs fin o = Ok (o', r) ->
  (r_goal r = true -> exists e, r_fid_err r = Some e /\ (e <= targ)%R /\ r_reason r = "Goal achieved"%string) /\
  exists made t, played targ tc t0 0 evs made t /\
    forall x, In (EvF x) made -> (fid_err_of s (decode x) <= targ)%R ->
      r_goal r = true /\ r_final_amps r = Some (decode x) /\ exists pre, made = pre ++ [EvF x].
Proof.
  intros U HR HE HF E. destruct (explain _ _ _ _ _ _ _ _ _ _ _ U HR HE HF E) as (made & t & g & P & T & Q1 & Q2 & Q3 & ->).
  split.
  - intros Hgoal. exists (fid_err_of s (end_point decode a made t fin)). cbn.
    destruct t as [[]|]; [..|destruct fin; [destruct (o_kind o)|]]; cbn in Hgoal; try discriminate;
      repeat match type of Hgoal with context [if ?b then _ else _] => destruct b end; try discriminate.
    cbn. splits; auto. eapply played_goal; eauto.
  - exists made, t; split; auto. intros x Hx Hle.
    destruct (played_at_goal _ _ _ _ _ _ _ _ _ _ _ a P Hx Hle) as (-> & L & pre & Em). splits; eauto.
    cbn. rewrite L; auto.
Qed.

(** Runs stopped by a wrapper: exactly one flag, for a limit that was crossed
    by the last call made. *)
Theorem C22_stopped_flags o a tcs tc targ t0 t1 evs fin o' r :
  used o a -> runnable m okg tcs tc targ o -> Forall (good_call s okx) evs -> good_end okx fin ->
  runs tcs t0 t1 evs fin o = Ok (o', r) ->
  exists made t, played targ tc t0 0 evs made t /\
  forall t', t = Some t' -> exists pre e, made = pre ++ [e] /\
    match t' with
    | GoalT => exists x, e = EvF x /\ (fid_err_of s (decode x) <= targ)%R
    | FidCallT => exists x, e = EvF x /\ (tc_calls tc < INR (total is_eval made))%R
    | GradT => exists x g, e = EvG x /\ grad_is (dprop dexp s) s (decode x) g /\ (euclid g < tc_gradmin tc)%R
    | WallT => exists tm, e = EvCb tm /\ (tc_wall tc < tm - t0)%R
    end /\
    (r_goal r, r_maxcalls r, r_gradmin r, r_wall r, r_maxiter r) =
    match t' with
    | GoalT => (true, false, false, false, false)
    | FidCallT => (false, true, false, false, false)
    | GradT => (false, false, true, false, false)
    | WallT => (false, false, false, true, false)
    end /\
    r_reason r = match t' with
                 | GoalT => "Goal achieved"
                 | FidCallT => "Number of fidelity error calls has exceeded the maximum"
                 | GradT => "Gradient normal minimum reached"
                 | WallT => "Max wall time exceeded"
                 end%string.
Proof.
  intros U HR HE HF E. destruct (explain _ _ _ _ _ _ _ _ _ _ _ U HR HE HF E) as (made & t & g & P & T & Q1 & Q2 & Q3 & ->).
  exists made, t; split; auto. intros t' ->. destruct (played_last _ _ _ _ _ _ _ _ _ _ P) as (pre & e & Em & St).
  exists pre, e. split; auto. cbn [Nat.add] in St.
  destruct St as [x Hx|x Hx Hc|x g' Hg Hm|tm Hw]; cbn; splits; eauto.
  exists x; split; auto. rewrite Em, total_app. cbn. rewrite Nat.add_1_r; auto.
Qed.

(** Any run: the goal, wall-time and (except for CRAB's own minimiser)
    function-call flags are only set by the stopping rules; at most one flag
    is ever set. *)
Theorem C22_flags_partial o a tcs tc targ t0 t1 evs fin o' r :
  used o a -> runnable m okg tcs tc targ o -> Forall (good_call s okx) evs -> good_end okx fin ->
  runs tcs t0 t1 evs fin o = Ok (o', r) ->
  (* missing: gradient-norm flag and reason after a normal return, see the
     refutations below *)
  exists made t, played targ tc t0 0 evs made t /\
    (r_goal r = true <-> t = Some GoalT) /\ (r_wall r = true <-> t = Some WallT) /\
    (r_maxcalls r = true <-> t = Some FidCallT \/
       (o_kind o = OCrabFmin /\ t = None /\ exists x nit msg, fin = Returns x nit 1 msg)) /\
    (r_maxiter r = true <-> t = None /\ exists x nit msg w, fin = Returns x nit w msg /\
       ((o_kind o = OBFGS \/ o_kind o = OLBFGSB) /\ w = 1 \/ o_kind o = OCrabFmin /\ w = 2)) /\
    length (filter (fun b => b) [r_goal r; r_maxcalls r; r_gradmin r; r_wall r; r_maxiter r]) <= 1 /\
    (t <> None -> r_reason r <> ""%string /\ r_reason r <> "not started yet"%string) /\
    (o_kind o = OLBFGSB -> t = None -> (exists x nit msg w, fin = Returns x nit w msg /\ w <= 1) ->
       r_reason r <> ""%string /\ r_reason r <> "not started yet"%string) /\
    (o_kind o = OCrabFmin -> r_reason r <> ""%string /\ r_reason r <> "not started yet"%string).
Proof.
  intros U HR HE HF E. destruct (explain _ _ _ _ _ _ _ _ _ _ _ U HR HE HF E) as (made & t & g & P & T & Q1 & Q2 & Q3 & ->).
  exists made, t; split; auto. destruct t as [t|].
  - destruct t; cbn; splits; try (match goal with |- _ <-> _ => split end); intros;
      repeat match goal with H : _ \/ _ |- _ => destruct H | H : _ /\ _ |- _ => destruct H | H : ex _ |- _ => destruct H end;
      auto; try discriminate; try congruence; try lia; try (split; congruence).
  - destruct (T eq_refl) as (x & nit & w & msg & ->). clear T.
    destruct (o_kind o); cbn; try (destruct w as [|[|[|w]]]; cbn); splits; try (match goal with |- _ <-> _ => split end); intros;
      repeat match goal with H : _ \/ _ |- _ => destruct H | H : _ /\ _ |- _ => destruct H | H : ex _ |- _ => destruct H end;
      auto; try discriminate; try congruence; try lia; try (split; congruence);
      try (match goal with H : Returns _ _ _ _ = Returns _ _ _ _ |- _ => injection H as ? ? ? ?; lia end);
      try (right; splits; eauto; fail); (split; [reflexivity|]; do 4 eexists; split; [reflexivity|]; auto).
Qed.

(** *** C23 *)
Theorem C23_counts_exact o a tcs tc targ t0 t1 evs fin o' r :
  used o a -> runnable m okg tcs tc targ o -> Forall (good_call s okx) evs -> good_end okx fin ->
  runs tcs t0 t1 evs fin o = Ok (o', r) ->
  exists made t, played targ tc t0 0 evs made t /\
    r_calls r = total is_eval made /\ r_iter r = total is_iter made /\
    (forall st, r_stats r = Some st -> os_fid st = total is_eval made /\ os_grad st = total is_grad made) /\
    (o_stats o <> None -> r_stats r <> None) /\
    (* never more than one beyond the limit (or a single call) *)
    (r_calls r <= 1 \/ (INR (r_calls r) <= tc_calls tc + 1)%R).
Proof.
  intros U HR HE HF E. destruct (explain _ _ _ _ _ _ _ _ _ _ _ U HR HE HF E) as (made & t & g & P & T & Q1 & Q2 & Q3 & ->).
  exists made, t; splits; auto.
  - intros st. cbn. destruct (o_stats o); [|discriminate]. intros [= <-]; auto.
  - cbn. destruct (o_stats o); congruence.
  - destruct (played_calls _ _ _ _ _ _ _ _ _ _ P) as [H|[H|H]]; cbn in *; auto; left; lia.
Qed.

(** Iterations in the statistics: exact when at least one iteration was
    completed; the others count none (base and CRAB) or one. *)
Theorem C23_stats_iterations_partial o a tcs tc targ t0 t1 evs fin o' r :
  used o a -> runnable m okg tcs tc targ o -> Forall (good_call s okx) evs -> good_end okx fin ->
  runs tcs t0 t1 evs fin o = Ok (o', r) ->
  forall st, r_stats r = Some st -> r_wall r = false -> r_iter r <> 0 -> os_iter st = r_iter r.
Proof.
  intros U HR HE HF E. destruct (explain _ _ _ _ _ _ _ _ _ _ _ U HR HE HF E) as (made & t & g & P & T & Q1 & Q2 & Q3 & ->).
  intros st. cbn. destruct (o_stats o); [|discriminate]. intros [= <-] Hw Hi. cbn.
  assert (S : survived made t = total is_iter made).
  { unfold survived. destruct t as [[]|]; cbn in Hw; try discriminate; lia. }
  rewrite S. destruct (total is_iter made); congruence.
Qed.

(** *** C26 *)
(** The target: fid_err_targ when it is set, else |1 - fid_goal|; with neither
    the run is refused.  [C22_goal_flag] says the run stops at this target. *)
Theorem C26_target o a tcs tc t0 t1 evs fin :
  used o a -> conditions tcs o = Some tc -> okg (o_gens o) -> fits m (o_lb o) -> fits m (o_ub o) ->
  Forall (good_call s okx) evs -> good_end okx fin ->
  match tc_targ tc, tc_goal tc with
  | None, None => runs tcs t0 t1 evs fin o = Raise UsageError
  | given, goal =>
    let targ := match given, goal with Some t, _ => t | _, Some g => Rabs (1 - g) | _, _ => 0 end%R in
    forall o' r, runs tcs t0 t1 evs fin o = Ok (o', r) ->
      (r_goal r = true -> exists e, r_fid_err r = Some e /\ (e <= targ)%R) /\
      (exists made t, played targ tc t0 0 evs made t /\
         forall x, In (EvF x) made -> (fid_err_of s (decode x) <= targ)%R -> r_goal r = true /\ exists pre, made = pre ++ [EvF x]) /\
      exists tc', o_tc o' = Some tc' /\ tc_targ tc' = Some targ /\
        tc_goal tc' = Some (match goal with Some g => g | None => 1 - targ end)%R
  end.
Proof.
  intros U Ec Hg Hlb Hub HE HF. destruct (used_good s n m W RO dexp GR _ _ _ _ _ _ CD o a U) as [Gd L].
  assert (Y : forall targ, target_of tc = Some targ -> forall o' r, runs tcs t0 t1 evs fin o = Ok (o', r) ->
      (r_goal r = true -> exists e, r_fid_err r = Some e /\ (e <= targ)%R) /\
      (exists made t, played targ tc t0 0 evs made t /\
         forall x, In (EvF x) made -> (fid_err_of s (decode x) <= targ)%R -> r_goal r = true /\ exists pre, made = pre ++ [EvF x]) /\
      exists tc', o_tc o' = Some tc' /\ tc_targ tc' = Some targ /\
        tc_goal tc' = Some (match tc_goal tc with Some g => g | None => 1 - targ end)%R).
  { intros targ Et o' r E. assert (HR : runnable m okg tcs tc targ o) by (constructor; auto).
    destruct (C22_goal_flag o a tcs tc targ t0 t1 evs fin o' r U HR HE HF E) as [K1 (made & t & P & K2)]. splits.
    - intros Hr. destruct (K1 Hr) as (e & K3 & K4 & _). eauto.
    - exists made, t; split; auto. intros x Hx Hl. destruct (K2 x Hx Hl) as (K3 & _ & K4). auto.
    - destruct (run_conditions s n m W RO dexp GR _ _ _ _ _ _ CD o a tcs tc targ t0 t1 evs fin o' r Gd L HR HE HF E) as (tc' & T1 & T2 & T3 & _). eauto. }
  unfold target_of in Y. destruct (tc_targ tc) as [t|] eqn:E1; [|destruct (tc_goal tc) as [g|] eqn:E2].
  - intros targ. apply Y. reflexivity.
  - intros targ. apply Y. reflexivity.
  - clear Y. unfold run_optimization, prepare, init_optim. cbn zeta.
  set (o1 := match tcs with Some tc1 => _ | None => _ end).
  assert (Q : o_tc o1 = Some tc /\ o_dyn o1 = o_dyn o).
  { unfold o1, conditions in *. destruct tcs; cbn; split; auto. }
  destruct Q as [-> ->]. cbn [bind]. rewrite (proj1 L); cbn [bind]. unfold settle_targets. rewrite E1, E2. reflexivity.
Qed.

(** With the conditions as they are created, nothing set by the user, the
    target is 1e-5, and the goal becomes 1 - 1e-5. *)
Theorem C26_default o a tcs t0 t1 evs fin o' r :
  used o a -> conditions tcs o = Some default_tc -> okg (o_gens o) -> fits m (o_lb o) -> fits m (o_ub o) ->
  Forall (good_call s okx) evs -> good_end okx fin -> runs tcs t0 t1 evs fin o = Ok (o', r) ->
  (r_goal r = true -> exists e, r_fid_err r = Some e /\ (e <= / 10 ^ 5)%R) /\
  exists tc', o_tc o' = Some tc' /\ tc_targ tc' = Some (/ 10 ^ 5)%R /\ tc_goal tc' = Some (1 - / 10 ^ 5)%R.
Proof.
  intros U Ec Hg Hl Hu HE HF E. pose proof (C26_target o a tcs default_tc t0 t1 evs fin U Ec Hg Hl Hu HE HF) as H. cbn in H.
  destruct (H o' r E) as (K1 & _ & K2). replace (/ 10 ^ 5)%R with (/ 100000)%R by (f_equal; lra). auto.
Qed.
End Runs.

(** Assumptions of all theorems of this file together (listed one by one in
    ASSUMPTIONS.txt). *)
Definition propsOptimise :=
  (@C19_round_trip,
   @C19_position,
   @C19_bounds,
   @C19_bounds_built,
   @C21_run_ends,
   @C21_coherent_result,
   @C21_grad_norm_partial,
   @C22_goal_flag,
   @C22_stopped_flags,
   @C22_flags_partial,
   @C23_counts_exact,
   @C23_stats_iterations_partial,
   @C26_target,
   @C26_default).
Print Assumptions propsOptimise.
