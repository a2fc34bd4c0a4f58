(** What the function and gradient wrappers hand to the minimiser, whatever
    was done before.  As [Proofs/OptFacts.v], but with no assumption on the
    routines that differentiate the exponential. *)
From Coq Require Import Reals Lra.
From RecordUpdate Require Import RecordUpdate.
From Verif.Model Require Import Base Dyn OptRun.
From Verif.Lib Require Import Lists.
From Verif.Spec Require Import Evolution History Stopping Runs.
From Verif.Proofs Require Import DynInv DynRun DynHist DynHistory DynProps DynFrame OptFacts OptMore.
Local Open Scope nat_scope.
Set Bullet Behavior "Strict Subproofs".

Section Wrappers.
Context {A : Alg} (s : settings A) (n m : nat).
Hypothesis W : well_posed s n m.
Hypothesis RO : routines_ok s n m.
Context {G : Type}.
Variable to_amps : list R -> dyn A -> G -> Res (G * amps).
Variable get_vars : dyn A -> G -> Res (list R).
Variable gens_ok : dyn A -> G -> bool.
Variable okx : list R -> Prop.
Variable decode : list R -> amps.
Variable okg : G -> Prop.
Hypothesis CD : coding n m to_amps get_vars gens_ok okx decode okg.
Notation Good := (Good s n m).
Notation At := (At s n m okg).
Notation used := (used s n m to_amps get_vars gens_ok okx okg).

Lemma wrap_fid x o a tc targ start : okx x -> At a tc targ start o ->
  exists o', At (decode x) tc targ start o' /\ o_fid o' = S (o_fid o) /\
    fid_wrapper to_amps x o = Ok (o', if leR (fid_err_of s (decode x)) targ then inr GoalT
                                      else if ltR (tc_calls tc) (INR (S (o_fid o))) then inr FidCallT
                                      else inl (fid_err_of s (decode x))).
Proof.
  intros He [Hg Hl Hgens Htc Htarg Hstart]. unfold fid_wrapper. remember (INR (S (o_fid o))) as lim eqn:Elim.
  destruct (Hto s n m W to_amps get_vars gens_ok okx decode okg CD x _ _ a Hg Hgens He) as (g' & Et & Hg').
  destruct (good_update s n m W RO a (decode x) _ (cd_shape _ _ _ _ _ _ _ _ CD x He) Hg) as (d1 & E1 & G1).
  destruct (good_err s n m W RO _ _ G1) as (d2 & E2 & G2).
  pose proof (update_linked _ _ _ Hl E1) as L1. destruct (fid_err_linked _ _ _ L1 E2) as [L2 _].
  set (o1 := match _ with Some st => _ | None => _ end).
  assert (Q : o_dyn o1 = o_dyn o /\ o_gens o1 = o_gens o /\ o_tc o1 = o_tc o /\ o_start o1 = o_start o /\ o_fid o1 = S (o_fid o))
    by (unfold o1; cbn; destruct (o_stats o); cbn; splits; auto).
  clearbody o1. destruct Q as (Q1 & Q2 & Q3 & Q4 & Q5).
  rewrite Q1, Q2, Et; cbn [bind]. cbn. rewrite Q1, E1; cbn [bind]. unfold the_tc. cbn. rewrite Q3, Htc; cbn [bind some_or].
  rewrite E2; cbn [bind]. unfold the_targ. rewrite Htarg; cbn [bind some_or]. rewrite Q5, <- Elim.
  exists (o1 <| o_gens := g' |> <| o_dyn := d2 |>). splits.
  - constructor; cbn; auto; congruence.
  - cbn; auto.
  - destruct (leR _ _); [reflexivity|]. destruct (ltR _ _); reflexivity.
Qed.

Lemma wrap_grad x o a tc targ start : okx x -> s_prop s <> Approx -> At a tc targ start o ->
  exists o' g, At (decode x) tc targ start o' /\ o_fid o' = o_fid o /\ grad_is (xgrad s) s (decode x) g /\
    grad_wrapper to_amps x o = Ok (o', if ltR (euclid g) (tc_gradmin tc) then inr GradT else inl (concat g)).
Proof.
  intros He HA [Hg Hl Hgens Htc Htarg Hstart]. unfold grad_wrapper.
  destruct (Hto s n m W to_amps get_vars gens_ok okx decode okg CD x _ _ a Hg Hgens He) as (g' & Et & Hg').
  destruct (good_update s n m W RO a (decode x) _ (cd_shape _ _ _ _ _ _ _ _ CD x He) Hg) as (d1 & E1 & G1).
  destruct (good_gradient s n m W RO _ _ HA G1) as (d2 & g & E2 & G2 & Gr & N2).
  pose proof (update_linked _ _ _ Hl E1) as L1. pose proof (gradient_linked _ _ _ L1 E2) as L2.
  set (o1 := match _ with Some st => _ | None => _ end).
  assert (Q : o_dyn o1 = o_dyn o /\ o_gens o1 = o_gens o /\ o_tc o1 = o_tc o /\ o_start o1 = o_start o /\ o_fid o1 = o_fid o)
    by (unfold o1; cbn; destruct (o_stats o); cbn; splits; auto).
  clearbody o1. destruct Q as (Q1 & Q2 & Q3 & Q4 & Q5).
  rewrite Q1, Q2, Et; cbn [bind]. cbn. rewrite Q1, E1; cbn [bind]. rewrite E2; cbn [bind]. unfold the_tc. cbn. rewrite Q3, Htc; cbn [bind some_or].
  rewrite N2.
  exists (o1 <| o_gens := g' |> <| o_dyn := d2 |>), g. splits; auto.
  - constructor; cbn; auto; congruence.
  - change (euclid g) with (norm2 g). destruct (ltR _ _); reflexivity.
Qed.

Lemma event_at e o a tc targ start o' t : good_call s okx e -> At a tc targ start o ->
  do_event to_amps e o = Ok (o', t) -> exists b, At b tc targ start o' /\ o_fid o' = o_fid o + is_eval e.
Proof.
  intros He AT E. destruct e as [x|x|u]; cbn [do_event good_call is_eval] in *.
  - destruct (wrap_fid x o a tc targ start He AT) as (o1 & A1 & C1 & E1). rewrite E1 in E; cbn [bind] in E.
    injection E as <- _. exists (decode x); split; auto. lia.
  - destruct He as [He HA]. destruct (wrap_grad x o a tc targ start He HA AT) as (o1 & g & A1 & C1 & _ & E1). rewrite E1 in E; cbn [bind] in E.
    injection E as <- _. exists (decode x); split; auto. lia.
  - exists a. revert E. unfold callback, the_tc. destruct AT as [Hg Hl Hgens Htc Htarg Hstart]. cbn. rewrite Htc; cbn [bind some_or].
    destruct (ltR _ _); cbn [bind]; [|destruct (o_stats o); cbn [bind]]; intros [= <- <-]; cbn; (split; [constructor; cbn; auto|lia]).
Qed.

Lemma events_at evs : forall o a tc targ start o' t, Forall (good_call s okx) evs -> At a tc targ start o ->
  do_events to_amps evs o = Ok (o', t) -> exists b, At b tc targ start o' /\
   (t = None -> o_fid o' = o_fid o + total is_eval evs).
Proof.
  induction evs as [|e evs IH]; intros o a tc targ start o' t F AT E; cbn [do_events] in E.
  - injection E as <- <-. exists a; split; auto. cbn; lia.
  - inversion F as [|? ? F1 F2]; subst. destruct (do_event to_amps e o) as [[o1 t1]|] eqn:E1; [|discriminate]. cbn [bind] in E.
    destruct (event_at _ _ _ _ _ _ _ _ F1 AT E1) as (b & A1 & C1). destruct t1 as [t1|].
    + injection E as <- <-. exists b; split; auto. discriminate.
    + destruct (IH _ _ _ _ _ _ _ F2 A1 E) as (b' & A2 & C2). exists b'; split; auto. intros ->.
      rewrite C2, C1 by auto. unfold total; cbn. lia.
Qed.

(** A call always yields a value or a stopping rule, never an error. *)
Lemma event_runs e o a tc targ start : good_call s okx e -> At a tc targ start o ->
  exists o' t, do_event to_amps e o = Ok (o', t).
Proof.
  intros He AT. destruct e as [x|x|u]; cbn [do_event good_call] in *.
  - destruct (wrap_fid x o a tc targ start He AT) as (o1 & A1 & C1 & E1). rewrite E1; cbn [bind]; eauto.
  - destruct He as [He HA]. destruct (wrap_grad x o a tc targ start He HA AT) as (o1 & g & A1 & C1 & _ & E1). rewrite E1; cbn [bind]; eauto.
  - unfold callback, the_tc. destruct AT as [Hg Hl Hgens Htc Htarg Hstart]. cbn. rewrite Htc; cbn [bind some_or].
    destruct (ltR _ _); cbn [bind]; eauto.
Qed.

Lemma common_at a tc targ start t0 t1 o r o' r' : At a tc targ start o -> add_common t0 t1 o r = Ok (o', r') ->
  At a tc targ start o' /\ r_final_amps r' = Some a.
Proof.
  intros AT E. destruct AT as [Hg Hl Hgens Htc Htarg Hstart]. revert E.
  unfold add_common.
  destruct (good_err s n m W RO _ _ Hg) as (d1 & E1 & G1). rewrite E1; cbn [bind].
  destruct (fid_err_linked _ _ _ Hl E1) as [L1 C1]. destruct (good_amps s n m _ _ G1) as [Ea _].
  destruct (good_full s n m W RO _ _ G1 C1) as (d2 & E2 & G2 & Ed2). rewrite E2; cbn [bind].
  intros [= <- <-]. split; [|cbn; auto]. constructor; cbn; auto. rewrite Ed2; apply fwd_linked; auto.
Qed.

Lemma used_at o a : used o a -> Good a (o_dyn o) /\ linked (o_dyn o).
Proof.
  intros U. induction U as [st a ops d o Ha F E Ed|o a ops d o' U [IH1 IH2] F E Ed|o a tcs tc targ t0 t1 evs fin o' r b U [IH1 IH2] HR HE HF E Eb].
  - destruct (session_ok s n m W RO st a ops Ha F) as (d' & E' & Gd & _). rewrite E in E'. injection E' as <-. subst d.
    split; auto. unfold session in E. destruct (initialize_controls a (new_dyn s st)) as [d0|] eqn:E0; [|discriminate].
    cbn [bind] in E. eapply run_linked; [|exact E]. eapply initialize_linked; eauto.
  - subst d. eapply run_good_linked; eauto.
  - destruct (startable s n m to_amps get_vars gens_ok okx decode okg CD _ _ _ _ _ IH1 IH2 HR) as (tc' & ST & _).
    destruct (prepare_ok s n m W RO get_vars gens_ok okg tcs t0 a tc' targ o ST) as (o1 & r1 & args & P & AT1 & _).
    unfold run_optimization in E. rewrite P in E; cbn [bind] in E.
    destruct (do_events to_amps evs o1) as [[o2 t]|] eqn:E2; [|discriminate]. cbn [bind] in E.
    destruct (events_at _ _ _ _ _ _ _ _ HE AT1 E2) as (c & AT2 & _). unfold after_events in E. destruct t as [t|].
    + destruct (common_at _ _ _ _ _ _ _ _ _ _ AT2 E) as [AT3 Ef]. rewrite Ef in Eb. injection Eb as <-. destruct AT3; auto.
    + destruct fin as [x nit warn msg|e]; [|discriminate].
      destruct (Hto s n m W to_amps get_vars gens_ok okx decode okg CD x _ _ _ (at_good _ _ _ _ _ _ _ _ _ AT2) (at_gens _ _ _ _ _ _ _ _ _ AT2) HF) as (g' & Et & Hg').
      rewrite Et in E; cbn [bind] in E.
      destruct (good_update s n m W RO _ (decode x) _ (cd_shape _ _ _ _ _ _ _ _ CD x HF) (at_good _ _ _ _ _ _ _ _ _ AT2)) as (d3 & E3 & G3).
      cbn in E. rewrite E3 in E; cbn [bind] in E. pose proof (update_linked _ _ _ (at_link _ _ _ _ _ _ _ _ _ AT2) E3) as L3.
      eapply (common_at (decode x) tc' targ t0) in E; [|destruct AT2; constructor; cbn; auto].
      destruct E as [AT3 Ef]. rewrite Ef in Eb. injection Eb as <-. destruct AT3; auto.
Qed.

(** The state in which the minimiser makes its next call. *)
Lemma calling o a tcs tc targ t0 o1 r args evs o2 : used o a -> runnable m okg tcs tc targ o ->
  prepare get_vars gens_ok tcs t0 o = Ok (o1, r, args) -> Forall (good_call s okx) evs ->
  do_events to_amps evs o1 = Ok (o2, None) ->
  exists b tc', At b tc' targ t0 o2 /\ o_fid o2 = total is_eval evs /\ tc_calls tc' = tc_calls tc /\ tc_gradmin tc' = tc_gradmin tc.
Proof.
  intros U HR P F E. destruct (used_at o a U) as [Hg Hl].
  destruct (startable s n m to_amps get_vars gens_ok okx decode okg CD _ _ _ _ _ Hg Hl HR) as (tc' & ST & C1 & C2 & C3 & _).
  destruct (prepare_ok s n m W RO get_vars gens_ok okg tcs t0 a tc' targ o ST) as (o1' & r1 & args' & P' & AT1 & _ & _ & K1 & _).
  rewrite P in P'. injection P' as <- <- <-.
  destruct (events_at _ _ _ _ _ _ _ _ F AT1 E) as (b & AT2 & C). exists b, tc'. splits; auto.
  rewrite C, K1 by auto. lia.
Qed.
End Wrappers.

(** What the minimiser is called with. *)
Lemma start_args {A G} (get_vars : dyn A -> G -> Res (list R)) gens_ok o tcs t0 o1 r args :
  prepare get_vars gens_ok tcs t0 o = Ok (o1, r, args) ->
  get_vars (o_dyn o) (o_gens o) = Ok (ma_x0 args) /\
  (ma_jac args = true <-> o_kind o <> OCrabFmin /\ o_approx o = false /\ o_crab o = false).
Proof.
  unfold prepare. destruct (init_optim _ _ _) as [o2|] eqn:E1; [|discriminate]. cbn [bind].
  assert (Q : o_dyn o2 = o_dyn o /\ o_gens o2 = o_gens o /\ o_kind o2 = o_kind o /\ o_approx o2 = o_approx o || o_crab o).
  { unfold init_optim in E1. cbn zeta in E1. destruct tcs as [tc0|]; cbn in E1.
    1: rename tc0 into tc1.
    2: destruct (o_tc o) as [tc1|]; [|discriminate]; cbn in E1.
    all: destruct (d_init _); [|discriminate]; cbn in E1; destruct (settle_targets _); [|discriminate]; cbn in E1;
      destruct (o_crab o) eqn:Ec; cbn in E1; destruct (o_stats o); cbn in E1; destruct (_ && _); try discriminate;
      injection E1 as <-; cbn; rewrite ?Ec, ?Bool.orb_false_r, ?Bool.orb_true_r; auto. }
  destruct Q as (Q1 & Q2 & Q3 & Q4). rewrite Q1, Q2. destruct (get_vars _ _) as [x0|] eqn:E2; [|discriminate]. cbn [bind].
  set (o3 := match o_stats _ with Some _ => _ | None => _ end).
  assert (R1 : o_kind o3 = o_kind o /\ o_approx o3 = o_approx o || o_crab o).
  { unfold o3. cbn. destruct (o_stats o2); cbn; auto. }
  clearbody o3. destruct (settle_bounds o3) as [o4|] eqn:E3; [|discriminate]. cbn [bind].
  assert (R2 : o_kind o4 = o_kind o /\ o_approx o4 = o_approx o || o_crab o).
  { unfold settle_bounds in E3. destruct (o_kind o3) eqn:Ek.
    1: destruct (o_bounds o3).
    all: try (injection E3 as <-; rewrite Ek; auto; fail).
    all: destruct (get_num_ctrls _) as [[? ?]|]; [|discriminate]; cbn in E3; destruct (build_bounds _ _ _ _); [|discriminate];
      cbn in E3; injection E3 as <-; cbn; rewrite Ek; auto. }
  unfold create_result. destruct (get_fid_err _) as [[d e]|]; [|discriminate]. cbn [bind].
  destruct (d_amps d); [|discriminate]. cbn [bind some_or]. destruct (full_evo d) as [[d' u]|]; [|discriminate]. cbn [bind].
  intros [= _ _ <-]. cbn. destruct R2 as [-> ->]. split; auto.
  destruct (o_kind o), (o_approx o), (o_crab o); cbn; intuition congruence.
Qed.
