(** C50, C51: callers' dictionaries and the selection of classes. *)
From Verif.Model Require Import Build.
From Verif.Spec Require Import OptionRules Constructed Builds.
From Verif.Proofs Require Import OptionFacts ConstructFacts BuildFacts BuildParts BuildCalls BuildSelect BuildTotal.
From Verif.Props Require Import PropsBuild.
Local Open Scope string_scope.
Local Open Scope list_scope.
Set Bullet Behavior "Strict Subproofs".

Section Select.
Variable make : klass -> list obj -> dict -> val -> Res dict.
Variable setter : klass -> string -> option (val -> dict -> Res dict).
Variable named : klass -> string -> bool.
Variable gen : nat -> obj -> Res (obj * val).
Variable check_ctrls : val -> Res (val * nat).
Variable check_others : val -> val -> val -> Res unit.
Notation call := (call make setter named gen check_ctrls check_others).
Notation plain c := (plain (setter c)).

(** * C50 *)
(** Whatever the outcome, the callers' dictionaries lose nothing, and what
    they contain changes only by keys that keyword arguments stand for being
    added (or by scale_factor being replaced). *)
Theorem C50_partial e a h : well_formed h a -> dicts_grow h (fst (call e a h)).
Proof. intros W. destruct (call_reaches make setter named gen check_ctrls check_others e a h W) as (K & _). exact K. Qed.
(** Without such keyword arguments they are unchanged. *)
Theorem C50_same e a h : no_keywords a -> exists t, fst (call e a h) = h ++ t.
Proof.
  intros (K1 & K2 & K3 & K4 & K5 & K6 & K7 & K8 & K9).
  assert (P : forall x y p h0, put_missing x y VNone p h0 = (h0, p)) by reflexivity.
  assert (M : forall a h0, a_max_metric_corr a = VNone -> a_accuracy_factor a = VNone -> fst (old_method a h0) = h0).
  { intros a0 h0 E1 E2. rewrite old_method_pure, E1, E2. reflexivity. }
  assert (D : forall a h0, a_max_metric_corr a = VNone -> a_accuracy_factor a = VNone -> a_phase_option a = VNone -> a_fid_err_scale_factor a = VNone ->
      fst (deprecated a h0) = h0).
  { intros a0 h0 E1 E2 E3 E4. rewrite deprecated_pure. unfold fid_put. rewrite E3, E4. cbn [put_missing is_none fst snd]. now apply M. }
  assert (O : forall a h0, a_max_metric_corr a = VNone -> a_accuracy_factor a = VNone -> a_phase_option a = VNone -> a_fid_err_scale_factor a = VNone ->
      fst (optimize_pulse make setter named gen check_ctrls check_others a h0) = h0).
  { intros a0 h0 E1 E2 E3 E4. destruct (optimize_pulse make setter named gen check_ctrls check_others a0 h0) as [h1 r] eqn:E. apply optimize_inv in E.
    destruct E as [-> _]. now apply D. }
  assert (U : forall a h0, a_max_metric_corr a = VNone -> a_accuracy_factor a = VNone -> a_phase_option a = VNone ->
      fst (optimize_pulse_unitary make setter named gen check_ctrls check_others a h0) = h0).
  { intros a0 h0 E1 E2 E3. unfold optimize_pulse_unitary. pose proof (M a0 h0 E1 E2) as Mh.
    assert (Ph : a_phase_option (snd (old_method a0 h0)) = VNone) by (rewrite old_method_pure; exact E3).
    destruct (old_method a0 h0) as [h1 a1]. cbn [fst snd] in *. subst h1. destruct (mode_phase a1) as [-> _]. rewrite Ph. cbn [is_none].
    match goal with |- fst (optimize_pulse _ _ _ _ _ _ (forwarded ?x) ?y) = _ => destruct (optimize_pulse make setter named gen check_ctrls check_others (forwarded x) y) as [h2 r] eqn:E end.
    apply inner_call in E. now destruct E as [-> _]. }
  assert (G : exists t, fst (crab_alg_params a h) = h ++ t).
  { unfold crab_alg_params. rewrite K5, K6. destruct (a_alg_params a); cbn; [exists []; now rewrite app_nil_r|eauto]. }
  assert (Q : forall h1 h2 gp, crab_guess_params a h1 = Ok (h2, gp) -> exists t, h2 = h1 ++ t).
  { intros h1 h2 gp. unfold crab_guess_params. destruct (truthy (a_init_pulse_type a)) as [[|]|]; cbn [bind]; [|intros [= <- _]; exists []; now rewrite app_nil_r|discriminate].
    destruct (a_init_pulse_params a); rewrite K7, K8, K9; cbn [put_missing is_none]; intros [= <- _]; [exists []; now rewrite app_nil_r|eauto]. }
  destruct e; cbn [Build.call].
  - unfold create. destruct (check_ctrls _) as [[ctrls n]|]; [|exists []; now rewrite app_nil_r]. destruct (check_others _ _ _); [|exists []; now rewrite app_nil_r].
    pose proof (D a h K1 K2 K3 K4) as Dh. destruct (deprecated a h) as [h1 a1]. cbn [fst] in *. subst. exists []. now rewrite app_nil_r.
  - exists []. rewrite app_nil_r. now apply O.
  - exists []. rewrite app_nil_r. now apply U.
  - unfold opt_pulse_crab. destruct G as (t1 & G1). destruct (crab_alg_params a h) as [h1 ap]. cbn [fst] in G1. subst h1.
    destruct (crab_guess_params a (h ++ t1)) as [[h2 gp]|] eqn:E2; [|exists t1; reflexivity]. apply Q in E2. destruct E2 as (t2 & ->).
    exists (t1 ++ t2). rewrite app_assoc. apply O; destruct a; reflexivity.
  - unfold opt_pulse_crab_unitary. destruct G as (t1 & G1). destruct (crab_alg_params a h) as [h1 ap]. cbn [fst] in G1. subst h1.
    destruct (crab_guess_params a (h ++ t1)) as [[h2 gp]|] eqn:E2; [|exists t1; reflexivity]. apply Q in E2. destruct E2 as (t2 & ->).
    exists (t1 ++ t2). rewrite app_assoc. apply U; try (destruct a; reflexivity). rewrite <- K3. destruct a; reflexivity.
Qed.
(** Two calls with the same fid_params dictionary: the second call's
    phase_option is ignored in favour of the first call's. *)
Theorem C50_refuted e1 e2 a1 a2 h h1 h2 b1 b2 r v :
  e1 = Create \/ e1 = Optimize ->
  call e1 a1 h = (h1, Ok b1) -> call e2 a2 h1 = (h2, Ok b2) -> well_formed h a1 -> well_formed h1 a2 ->
  a_fid_params a1 = Dict r -> a_fid_params a2 = Dict r -> dget (at_ h r) "phase_option" = None ->
  a_phase_option a1 = v -> v <> VNone -> plain (o_class (b_fid b2)) "phase_option" ->
  dget (at_ h1 r) "phase_option" = Some v /\ dget (o_attrs (b_fid b2)) "phase_option" = Some v.
Proof.
  intros Ee E1 E2 W1 W2 F1 F2 N <- Nv P.
  assert (Hh : h1 = fst (deprecated a1 h)).
  { destruct Ee as [-> | ->]; cbn [Build.call] in E1.
    - unfold create in E1. destruct (check_ctrls _) as [[ctrls n]|]; [|discriminate]. destruct (check_others _ _ _); [|discriminate].
      destruct (deprecated a1 h) as [h3 a3]. injection E1 as <- _. reflexivity.
    - apply optimize_inv in E1. now destruct E1. }
  assert (G : dget (at_ h1 r) "phase_option" = Some (a_phase_option a1)).
  { destruct (deprecated_ok a1 h (wf_method _ _ W1) (wf_fid _ _ W1) (wf_keys _ _ W1)) as (h' & p & q & E & _ & _ & _ & _ & _ & Gq & _).
    assert (Hq : q = Dict r).
    { assert (X : a_fid_params (snd (deprecated a1 h)) = q) by (rewrite E; reflexivity). rewrite <- X, deprecated_pure. cbv zeta. cbn [snd].
      unfold fid_put, put_missing. rewrite F1. destruct (is_none (a_phase_option a1)), (is_none (a_fid_err_scale_factor a1)); reflexivity. }
    subst q. rewrite E in Hh. cbn [fst] in Hh. subst h'. specialize (Gq "phase_option"). cbn [given] in Gq. rewrite Gq.
    - unfold fid_setting. rewrite F1. cbn [given]. rewrite N. cbn. unfold not_none. destruct (a_phase_option a1); congruence || reflexivity.
    - cbn. intuition discriminate.
    - discriminate. }
  split; [exact G|]. apply (C49_fid _ _ _ _ _ _ e2 a2 h1 h2 b2 _ _ E2 W2 P).
  - cbn. intuition discriminate.
  - discriminate.
  - unfold fid_setting. rewrite F2. cbn [given]. now rewrite G.
Qed.

(** * C51 *)
(** What is selected: the documented classes, with the documented defaults. *)
Theorem C51_selected e a h h' b :
  call e a h = (h', Ok b) -> well_formed h a ->
  let crab := is_crab e || crab_chosen a in
  let method := if has_method_keywords e && negb (is_none (a_optim_alg a)) then a_optim_alg a else a_optim_method a in
  (crab = true \/ alg_is (a_alg a) "GRAPE") /\
  selects_dyn (if has_types e then a_dyn_type a else VStr "UNIT") (o_class (b_dyn b)) /\
  selects_prop crab (o_class (b_dyn b)) (if has_types e then a_prop_type a else VStr "DEF") (o_class (b_prop b)) /\
  selects_fid (o_class (b_dyn b)) (if has_types e then a_fid_type a else VStr "DEF") (o_class (b_fid b)) /\
  selects_opt crab method (o_class (b_opt b)) /\
  o_class (b_tslot b) = UpdateAll /\
  match b_pgen b with
  | One p => crab = false /\ selects_pulse (a_init_pulse_type a) (o_class p)
  | Many l => crab = true /\ guess_allowed (a_init_pulse_type a) /\ l <> [] /\ forall c, In c l -> o_class c = CrabFourier
  end.
Proof.
  intros E W crab method. destruct (call_inv _ _ _ _ _ _ e a h h' b E W) as (Kp & K & a' & ctrls & n & m & pt & it & d0 & d1 & C & S & Ad & D & Op & Cf & P).
  pose proof (sd_passes _ _ _ _ _ S) as Q.
  assert (Hc : is_text (upper_safe (a_alg a')) "CRAB" = crab).
  { rewrite (ps_alg _ _ _ Q). unfold crab, crab_chosen. destruct (is_crab e); reflexivity. }
  apply alg_defaults_inv in Ad. destruct Ad as (crab' & bm & bi & Hc' & Ha & Hm & -> & Hi & -> & Hp). rewrite Hc in Hc'. subst crab'.
  apply build_dyn_inv in D. destruct D as (c & wp & wf & Cd & Cp & Cfi & (o1 & o2 & Co & Ap & St) & (o3 & Co3 & Ap3) & (o4 & Co4 & Ap4) & (o5 & Co5 & Ap5) & _).
  apply build_opt_inv in Op. destruct Op as (co & q0 & q1 & q2 & t0 & tc & q3 & q4 & g & Cop & C0 & _ & S1 & Apo & _ & _ & As & Am & _ & So & Sd).
  apply configure_inv in Cf.
  assert (Hd : o_class (b_dyn b) = c).
  { rewrite (steps_class _ _ _ _ Cf), (steps_class _ _ _ _ Sd), (steps_class _ _ _ _ St), (apply_class _ _ _ _ Ap). exact Co. }
  assert (Hpr : o_class (b_prop b) = match wp with None => default_prop c | Some k => k end) by (rewrite (apply_class _ _ _ _ Ap3); exact Co3).
  assert (Hf : o_class (b_fid b) = match wf with None => default_fid c | Some k => k end) by (rewrite (apply_class _ _ _ _ Ap4); exact Co4).
  assert (Ho : o_class (b_opt b) = co).
  { rewrite (steps_class _ _ _ _ So). assert (Q4 : o_class q4 = o_class q3) by (unfold apply_method in Am; step Am x Ex; injection Am as <-; reflexivity).
    rewrite Q4, (assign_class _ _ _ _ _ As), (apply_class _ _ _ _ Apo), (steps_class _ _ _ _ S1). exact C0. }
  rewrite (ps_dyn_type _ _ _ Q) in Cd. rewrite (ps_fid_type _ _ _ Q) in Cfi. rewrite (ps_prop_type _ _ _ Q) in Hp. rewrite (ps_pulse_type _ _ _ Q) in Hi.
  rewrite (ps_method _ _ _ Q) in Hm, Cop. fold method in Hm, Cop. rewrite Hd.
  split; [|split; [|split; [|split; [|split; [|split]]]]].
  - destruct Ha as [Ha | Ha]; [auto|]. rewrite (ps_alg _ _ _ Q) in Ha. unfold crab. destruct (is_crab e); [auto|]. auto.
  - apply choose_dyn_iff. destruct (has_types e); exact Cd.
  - assert (X : (exists w, choose_prop pt = Ok w /\ match w with None => default_prop c | Some k => k end = o_class (b_prop b))) by eauto.
    apply choose_prop_iff in X. destruct crab.
    + destruct Hp as (bp & Hb & ->). destruct bp.
      * apply nd_true in Hb. left. split; [auto|]. split; [destruct (has_types e); auto|].
        destruct X as [[[[X | X] | X] _] | (s & [= <-] & I)]; try discriminate. cbn in I. intuition congruence.
      * apply nd_false in Hb. right. destruct X as [X | X]; [left|right; destruct (has_types e); exact X]. split; [right|destruct (has_types e); exact X].
        destruct Hb as (s & Hs & U). destruct (has_types e); rewrite Hs in *; intros [Y | (s' & [= <-] & Y)]; congruence || discriminate.
    + subst pt. right. destruct X as [X | X]; [left; split; [auto|]|right]; destruct (has_types e); exact X.
  - apply choose_fid_iff. exists wf. split; [destruct (has_types e); exact Cfi|auto].
  - rewrite Ho. apply (choose_opt_iff crab (a_alg a') method co Hc). eauto.
  - rewrite (apply_class _ _ _ _ Ap5). exact Co5.
  - apply build_pgen_inv in P. rewrite Hc in P. destruct crab.
    + destruct P as (l & action & -> & Nl & F & _ & Ac). split; [auto|]. split; [|split; [auto|]].
      * unfold guess_allowed. destruct bi; [left; now apply nd_true|]. apply nd_false in Hi. destruct Hi as (s & Hs & _). rewrite (ps_pulse_type _ _ _ Q), Hs in Ac.
        destruct (String.eqb_spec s "") as [->|Ns]; [auto|]. right; right. cbn [truthy] in Ac. destruct (String.eqb_spec s ""); [congruence|].
        destruct (Ac eq_refl) as (_ & c' & Hc'). apply choose_pulse_iff in Hc'. eauto.
      * intros x Hx. apply In_nth_error in Hx as (j & Hj). exact (cm_class _ _ _ _ _ _ _ _ _ _ _ (Forall2_seq _ _ _ _ F j x Hj)).
    + destruct P as (p & p0 & c' & -> & Hc' & C1 & _). split; [auto|]. rewrite C1. unfold selects_pulse. destruct bi.
      * left. split; [now apply nd_true|]. cbn in Hc'. congruence.
      * right. apply nd_false in Hi. destruct Hi as (s & Hs & _). rewrite (ps_pulse_type _ _ _ Q), Hs in Hc'. exists s. split; [auto|]. now apply choose_pulse_iff.
Qed.

(** Nothing else happens: for options that are text or absent, and when
    nothing but the options can go wrong, the result is an object if and only
    if the options are documented ones, and otherwise UsageError (ValueError
    for an unknown pulse type). *)
Theorem C51_total a h :
  tame make setter gen check_ctrls check_others -> simple a ->
  match snd (call Create a h) with
  | Ok b => types_ok a /\ pulse_ok a
  | Raise UsageError => ~ types_ok a
  | Raise ValueError => types_ok a /\ ~ pulse_ok a
  | Raise _ => False
  end.
Proof. intros T S. exact (create_t make setter named gen check_ctrls check_others T a h S). Qed.

(** A spelling of "CRAB" in other letters is accepted by
    create_pulse_optimizer, and optimize_pulse then fails. *)
Theorem C51_case_refuted a h h' b :
  call Create a h = (h', Ok b) -> a_tslot_params a = NoDict None -> is_text (a_amp_update_mode a) "DYNAMIC" = false ->
  alg_is (a_alg a) "CRAB" -> a_alg a <> VStr "CRAB" ->
  call Optimize a h = (h', Raise AttributeError).
Proof.
  intros E T D (t & Ht & U) N. rewrite (optimize_as_create _ _ _ _ _ _ a h h' b E T D). apply (f_equal (pair h')). unfold initial_pulses.
  cbn [Build.call] in E. unfold create in E. destruct (check_ctrls (a_ctrls a)) as [[ctrls n]|]; [|discriminate]. destruct (check_others _ _ _); [|discriminate].
  destruct (deprecated_fields a h) as (_ & _ & _ & _ & _ & _ & F7). destruct (deprecated a h) as [h1 a1]. cbn [snd] in F7. injection E as <- E.
  pose proof (pgens_of_alg _ _ _ _ _ _ _ _ _ E) as G. rewrite F7, Ht in G. cbn [upper_safe is_text] in G. rewrite U in G. destruct G as (c & l & ->).
  rewrite Ht in *. cbn [is_text]. destruct (String.eqb_spec t "CRAB"); [congruence|reflexivity].
Qed.
(** The documented name TD_APPROX is not accepted by any function. *)
Theorem C51_td_approx_refuted e a h : well_formed h a -> has_types e = true -> a_fid_type a = VStr "TD_APPROX" ->
  forall h' b, call e a h <> (h', Ok b).
Proof.
  intros W Ht Ef h' b E. destruct (C51_selected e a h h' b E W) as (_ & _ & _ & F & _). rewrite Ht, Ef in F.
  destruct F as [[[[X | X] | [X | (s & [= <-] & X)]] _] | (s & [= <-] & I)]; try discriminate. cbn in I. intuition discriminate.
Qed.
End Select.

(** A first call with PSU leaves it in the dictionary; the second asks for SU
    and gets PSU. *)
Example C50_nonvacuous :
  let a2 := args0 <| a_phase_option := VStr "SU" |> in
  exists h1 b1 h2 b2, call0 Optimize args0 heap0 = (h1, Ok b1) /\ call0 Create a2 h1 = (h2, Ok b2) /\
    dget (at_ heap0 3) "phase_option" = None /\ dget (at_ h1 3) "phase_option" = Some (VStr "PSU") /\
    dget (o_attrs (b_fid b2)) "phase_option" = Some (VStr "PSU") /\ a_phase_option a2 = VStr "SU".
Proof. do 4 eexists. split; [vm_compute; reflexivity|]. split; [vm_compute; reflexivity|]. repeat split. Qed.
(** A tame environment with options that are text or absent. *)
Definition plain_args : args :=
  mkA (VOther 0) (VOther 1) (VOther 2) (VOther 3) VNone VNone (VList [VNum 1; VNum 1]) VNone VNone
      (VNum 1) (VNum 2) (VNum 3) (VNum 4) (VStr "Grape") (NoDict None) (NoDict None) (VStr "lbfgsb") (NoDict None) VNone VNone VNone
      (VStr "SYMPL") (NoDict None) (VStr "AUG_MAT") (NoDict None) (VStr "tracediff") (NoDict None) VNone VNone
      VNone (NoDict None) VNone (VStr "SINE") (NoDict None) (VNum 1) (VNum 0) VNone (NoDict None) (VBool false)
      VNone VNone VNone VNone VNone.
Lemma tame0 : tame make0 setter0 gen0 ctrls0 others0.
Proof.
  split; intros.
  - eexists. split; [reflexivity|]. intros ->. split; reflexivity.
  - reflexivity.
  - do 2 eexists. reflexivity.
  - do 2 eexists. reflexivity.
  - reflexivity.
Qed.
Lemma simple0 : simple plain_args.
Proof. split; try reflexivity; try (repeat split; reflexivity); try (right; eexists; reflexivity). Qed.
Example C51_nonvacuous :
  tame make0 setter0 gen0 ctrls0 others0 /\ simple plain_args /\ well_formed [] plain_args /\
  (exists h b, call0 Create plain_args [] = (h, Ok b) /\ o_class (b_dyn b) = Symplectic /\ o_class (b_prop b) = AugMat /\
     o_class (b_fid b) = TraceDiff /\ o_class (b_opt b) = LBFGSB /\ exists p, b_pgen b = One p /\ o_class p = Sine) /\
  snd (call0 Create (plain_args <| a_init_pulse_type := VStr "sine" |>) []) = Raise ValueError /\
  snd (call0 Create (plain_args <| a_fid_type := VStr "TD_APPROX" |>) []) = Raise UsageError /\
  exists h b, call0 Create (plain_args <| a_alg := VStr "crab" |>) [] = (h, Ok b) /\
     call0 Optimize (plain_args <| a_alg := VStr "crab" |>) [] = (h, Raise AttributeError).
Proof.
  split; [exact tame0|]. split; [exact simple0|]. split.
  { split; try exact I. intros [|r]; constructor. }
  split.
  { do 2 eexists. split; [vm_compute; reflexivity|]. do 4 (split; [reflexivity|]). eexists. split; reflexivity. }
  split; [reflexivity|]. split; [reflexivity|]. do 2 eexists. split; [vm_compute; reflexivity|]. reflexivity.
Qed.

(** Assumptions of all theorems of this file together (listed one by one in
    ASSUMPTIONS.txt). *)
Definition propsSelect :=
  (@C50_partial,
   @C50_same,
   @C50_refuted,
   @C51_selected,
   @C51_total,
   @C51_case_refuted,
   @C51_td_approx_refuted).
Print Assumptions propsSelect.
