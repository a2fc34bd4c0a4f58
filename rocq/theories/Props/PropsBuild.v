(** C29, C49: how the arguments of the pulse optimisation functions reach the
    objects that are built. *)
From Coq Require Import Lra.
From Verif.Model Require Import Build.
From Verif.Spec Require Import OptionRules Constructed Builds.
From Verif.Proofs Require Import OptionFacts ConstructFacts BuildFacts BuildParts BuildCalls.
Local Open Scope string_scope.
Local Open Scope list_scope.
Set Bullet Behavior "Strict Subproofs".

(** The theorems hold for all constructors, property setters, class
    attributes, pulse generators and argument checks.  [e] is one of the five
    functions; [h] holds the callers' dictionaries. *)
Section Build.
Variable make : klass -> list obj -> dict -> val -> Res dict.
Variable setter : klass -> string -> option (val -> dict -> Res dict).
Variable named : klass -> string -> bool.
Variable gen : nat -> obj -> Res (obj * val).
Variable check_ctrls : val -> Res (val * nat).
Variable check_others : val -> val -> val -> Res unit.
Notation call := (call make setter named gen check_ctrls check_others).
Notation plain c := (plain (setter c)).

(** * C29 *)
(** One generator per control, each with the bounds meant for its control;
    for bounds that are absent, non-zero numbers, or lists. *)
Theorem C29_bounds_partial e a h h' b :
  call e a h = (h', Ok b) -> well_formed h a -> is_crab e = true \/ alg_is (a_alg a) "CRAB" ->
  plain CrabFourier "lbound" -> plain CrabFourier "ubound" -> bound_given (a_amp_lbound a) -> bound_given (a_amp_ubound a) ->
  exists l ctrls n, b_pgen b = Many l /\ check_ctrls (a_ctrls a) = Ok (ctrls, n) /\ List.length l = n /\
  forall j c, nth_error l j = Some c ->
    o_class c = CrabFourier /\
    dget (o_attrs c) "lbound" = Some (meant_for (a_amp_lbound a) j) /\
    dget (o_attrs c) "ubound" = Some (meant_for (a_amp_ubound a) j).
Proof.
  intros E W Cr P1 P2 B1 B2.
  destruct (crab_list _ _ _ _ _ _ e a h h' b E W Cr) as (l & ctrls & n & a' & Hl & C & L & S & _ & _ & action & it & m & pt & _ & _ & G).
  exists l, ctrls, n. split; [auto|]. split; [auto|]. split; [auto|]. intros j c Hj. specialize (G j c Hj).
  split; [apply (cm_class _ _ _ _ _ _ _ _ _ _ _ G)|].
  destruct (cm_lbound _ _ _ _ _ _ _ _ _ _ _ G P1) as (v & Ev & ->), (cm_ubound _ _ _ _ _ _ _ _ _ _ _ G P2) as (u & Eu & ->).
  rewrite (ps_lbound _ _ _ (sd_passes _ _ _ _ _ S)) in Ev. rewrite (ps_ubound _ _ _ (sd_passes _ _ _ _ _ S)) in Eu.
  now rewrite (bound_ok _ _ _ B1 Ev), (bound_ok _ _ _ B2 Eu).
Qed.
(** A bound of zero is dropped, in every call. *)
Theorem C29_zero_refuted e a h h' b :
  call e a h = (h', Ok b) -> well_formed h a -> is_crab e = true \/ alg_is (a_alg a) "CRAB" ->
  plain CrabFourier "lbound" -> plain CrabFourier "ubound" ->
  exists l, b_pgen b = Many l /\
  forall j c, nth_error l j = Some c ->
    (a_amp_lbound a = VNum 0 -> dget (o_attrs c) "lbound" = Some VNone) /\
    (a_amp_ubound a = VNum 0 -> dget (o_attrs c) "ubound" = Some VNone).
Proof.
  intros E W Cr P1 P2.
  destruct (crab_list _ _ _ _ _ _ e a h h' b E W Cr) as (l & ctrls & n & a' & Hl & C & L & S & _ & _ & action & it & m & pt & _ & _ & G).
  exists l. split; [auto|]. intros j c Hj. specialize (G j c Hj).
  destruct (cm_lbound _ _ _ _ _ _ _ _ _ _ _ G P1) as (v & Ev & ->), (cm_ubound _ _ _ _ _ _ _ _ _ _ _ G P2) as (u & Eu & ->).
  rewrite (ps_lbound _ _ _ (sd_passes _ _ _ _ _ S)) in Ev. rewrite (ps_ubound _ _ _ (sd_passes _ _ _ _ _ S)) in Eu.
  assert (Z : forall v, bound_for (VNum 0) j = Ok v -> v = VNone).
  { intros w. unfold bound_for, truthy, eq0. destruct (Req_EM_T 0 0); [|congruence]. cbn. congruence. }
  split; intros Hz; rewrite Hz in *; f_equal; auto.
Qed.
(** An array with a bound per control is not accepted at all. *)
Theorem C29_array_refuted e a h x y xs :
  well_formed h a -> is_crab e = true \/ alg_is (a_alg a) "CRAB" -> plain CrabFourier "lbound" ->
  a_amp_lbound a = VArr (x :: y :: xs) ->
  forall h' b, call e a h <> (h', Ok b).
Proof.
  intros W Cr P1 Ea h' b E. destruct (call_inv _ _ _ _ _ _ e a h h' b E W) as (_ & _ & a' & ctrls & n & m & pt & it & d0 & d1 & C & S & _ & _ & _ & _ & P).
  apply build_pgen_inv in P. rewrite (alg_crab e a a' (sd_passes _ _ _ _ _ S) Cr) in P. destruct P as (l & action & Hl & Nl & F & _).
  destruct l as [|c l]; [contradiction|]. inversion F as [|j c' js l' M F' E1 E2]; subst.
  destruct (cm_lbound _ _ _ _ _ _ _ _ _ _ _ M P1) as (v & Ev & _). rewrite (ps_lbound _ _ _ (sd_passes _ _ _ _ _ S)), Ea in Ev. discriminate.
Qed.

(** * C49 *)
(** The fidelity computer has the settings of the caller's dictionary, and
    the phase option of the keyword argument if the dictionary has none. *)
Theorem C49_fid e a h h' b k v :
  call e a h = (h', Ok b) -> well_formed h a -> plain (o_class (b_fid b)) k ->
  ~ In k (method_keys ++ alg_keys ++ guess_keys) -> k <> "scale_factor" ->
  fid_setting e a h k = Some v ->
  dget (o_attrs (b_fid b)) k = Some v.
Proof.
  intros E W P N Ns G. destruct (call_inv _ _ _ _ _ _ e a h h' b E W) as (Kp & K & a' & ctrls & n & m & pt & it & d0 & d1 & C & S & _ & D & _).
  apply build_dyn_inv in D. destruct D as (c & wp & wf & _ & _ & _ & _ & _ & (o & Co & Ap) & _).
  eapply given_apply; eauto.
  - rewrite (sd_fid _ _ _ _ _ S); auto.
  - rewrite <- (apply_class _ _ _ _ Ap). exact P.
Qed.
(** The propagator computer, the dynamics, and for create_pulse_optimizer the
    timeslot computer, have the settings of the caller's dictionaries. *)
Theorem C49_prop e a h h' b k v :
  call e a h = (h', Ok b) -> well_formed h a -> plain (o_class (b_prop b)) k -> ~ In k keyword_keys ->
  given h (a_prop_params a) k = Some v ->
  dget (o_attrs (b_prop b)) k = Some v.
Proof.
  intros E W P N G. destruct (call_inv _ _ _ _ _ _ e a h h' b E W) as (Kp & K & a' & ctrls & n & m & pt & it & d0 & d1 & C & S & _ & D & _).
  apply build_dyn_inv in D. destruct D as (c & wp & wf & _ & _ & _ & _ & (o & Co & Ap) & _).
  eapply given_apply; eauto.
  - rewrite (ps_prop_params _ _ _ (sd_passes _ _ _ _ _ S)), (keeps_given _ _ _ _ _ Kp); auto. apply (wf_prop _ _ W).
  - rewrite <- (apply_class _ _ _ _ Ap). exact P.
Qed.
Theorem C49_tslot a h h' b k v :
  call Create a h = (h', Ok b) -> well_formed h a -> plain (o_class (b_tslot b)) k -> ~ In k keyword_keys ->
  given h (a_tslot_params a) k = Some v ->
  dget (o_attrs (b_tslot b)) k = Some v.
Proof.
  intros E W P N G. destruct (call_inv _ _ _ _ _ _ Create a h h' b E W) as (Kp & K & a' & ctrls & n & m & pt & it & d0 & d1 & C & S & _ & D & _).
  apply build_dyn_inv in D. destruct D as (c & wp & wf & _ & _ & _ & _ & _ & _ & (o & Co & Ap) & _).
  eapply given_apply; eauto.
  - rewrite (ps_tslot_params _ _ _ (sd_passes _ _ _ _ _ S)), (keeps_given _ _ _ _ _ Kp); auto. apply (wf_tslot _ _ W).
  - rewrite <- (apply_class _ _ _ _ Ap). exact P.
Qed.
Theorem C49_dyn e a h h' b k v :
  call e a h = (h', Ok b) -> well_formed h a -> plain (o_class (b_dyn b)) k -> ~ In k keyword_keys -> ~ In k dyn_own ->
  given h (a_dyn_params a) k = Some v ->
  dget (o_attrs (b_dyn b)) k = Some v.
Proof.
  intros E W P N L G. destruct (call_inv _ _ _ _ _ _ e a h h' b E W) as (Kp & K & a' & ctrls & n & m & pt & it & d0 & d1 & C & S & _ & D & Op & Cf & _).
  apply build_dyn_inv in D. destruct D as (c & wp & wf & _ & _ & _ & (o1 & o2 & Co & Ap & St) & _).
  apply build_opt_inv in Op. destruct Op as (c' & q0 & q1 & q2 & t0 & tc & q3 & q4 & g & _ & _ & _ & _ & _ & _ & _ & _ & _ & _ & _ & Sd).
  apply configure_inv in Cf. pose proof (steps_app _ _ _ _ _ _ St (steps_app _ _ _ _ _ _ Sd Cf)) as All.
  pose proof (steps_class _ _ _ _ All) as Cl. rewrite Cl in P. rewrite (steps_get _ _ _ _ All k P), final_none.
  - cbn [or_else]. rewrite (apply_class _ _ _ _ Ap) in P.
    eapply given_apply; eauto.
    rewrite (ps_dyn_params _ _ _ (sd_passes _ _ _ _ _ S)), (keeps_given _ _ _ _ _ Kp); auto. apply (wf_dyn _ _ W).
  - rewrite !map_app, !in_app_iff. unfold dyn_own in L. cbn in L.
    unfold stat_steps, system_steps. destruct g, (is_none (a_tau a')); cbn; clear - L; tauto.
Qed.
(** System and timeslots. *)
Theorem C49_system e a h h' b k v :
  call e a h = (h', Ok b) -> well_formed h a -> plain (o_class (b_dyn b)) k ->
  In (k, v) (system a) ->
  dget (o_attrs (b_dyn b)) k = Some v.
Proof.
  intros E W P I. destruct (call_inv _ _ _ _ _ _ e a h h' b E W) as (Kp & K & a' & ctrls & n & m & pt & it & d0 & d1 & C & S & _ & _ & _ & Cf & _).
  apply configure_inv in Cf. pose proof (steps_class _ _ _ _ Cf) as Cl. rewrite Cl in P. rewrite (steps_get _ _ _ _ Cf k P).
  unfold system_steps. unfold system in I. pose proof (sd_passes _ _ _ _ _ S) as Q.
  rewrite (ps_drift _ _ _ Q), (ps_initial _ _ _ Q), (ps_target _ _ _ Q), (ps_tau _ _ _ Q), (ps_num_tslots _ _ _ Q), (ps_evo_time _ _ _ Q).
  destruct (is_none (a_tau a)); cbn in I; repeat (destruct I as [[= <- <-]|I]; [reflexivity|]); contradiction.
Qed.
(** The controls, as the check returns them. *)
Theorem C49_controls e a h h' b :
  call e a h = (h', Ok b) -> well_formed h a -> plain (o_class (b_dyn b)) "ctrl_dyn_gen" ->
  exists ctrls n, check_ctrls (a_ctrls a) = Ok (ctrls, n) /\ dget (o_attrs (b_dyn b)) "ctrl_dyn_gen" = Some ctrls.
Proof.
  intros E W P. destruct (call_inv _ _ _ _ _ _ e a h h' b E W) as (Kp & K & a' & ctrls & n & m & pt & it & d0 & d1 & C & S & _ & _ & _ & Cf & _).
  exists ctrls, n. split; [auto|]. apply configure_inv in Cf. pose proof (steps_class _ _ _ _ Cf) as Cl. rewrite Cl in P.
  rewrite (steps_get _ _ _ _ Cf _ P). unfold system_steps. destruct (is_none (a_tau a')); reflexivity.
Qed.
(** Without tau, a call gets through only with a duration and a number of
    timeslots that are numbers, the latter not 0. *)
Theorem C49_timeslots e a h h' b :
  call e a h = (h', Ok b) -> well_formed h a -> a_tau a = VNone ->
  exists T n, a_evo_time a = VNum T /\ a_num_tslots a = VNum n /\ n <> 0%R.
Proof.
  intros E W Nt. destruct (call_inv _ _ _ _ _ _ e a h h' b E W) as (Kp & K & a' & ctrls & n & m & pt & it & d0 & d1 & C & S & _ & _ & _ & Cf & _).
  pose proof (sd_passes _ _ _ _ _ S) as Q. unfold configure in Cf. rewrite (ps_tau _ _ _ Q), (ps_num_tslots _ _ _ Q), (ps_evo_time _ _ _ Q), Nt in Cf.
  cbn [is_none] in Cf.
  destruct (assign _ _ _ _) as [x1|]; cbn [bind] in Cf; [|discriminate].
  destruct (assign _ _ _ x1) as [x2|]; cbn [bind] in Cf; [|discriminate].
  destruct (assign _ _ _ x2) as [x3|]; cbn [bind] in Cf; [|discriminate].
  destruct (assign _ _ _ x3) as [x4|]; cbn [bind] in Cf; [|discriminate].
  unfold divides in Cf. destruct (a_evo_time a) as [| |T| | | | | |]; try discriminate.
  destruct (a_num_tslots a) as [| |k| | | | | |]; try discriminate. exists T, k. split; auto. split; auto.
  intros ->. unfold eq0 in Cf. destruct (Req_EM_T 0 0) as [_|D]; [discriminate|now destruct D].
Qed.
(** The optimiser: its parameters and the bounds ... *)
Theorem C49_optim e a h h' b k v :
  call e a h = (h', Ok b) -> well_formed h a -> fresh make ->
  plain (o_class (b_opt b)) k -> plain (o_class (b_opt b)) "params" -> plain (o_class (b_opt b)) "method_params" ->
  given h (a_optim_params a) "method_params" = None ->
  ~ In k keyword_keys -> k <> "stats" -> k <> "params" -> ~ bookkeeping k -> method_setting e a h k = None ->
  optim_setting a h k = Some v ->
  dget (o_attrs (b_opt b)) k = Some v.
Proof.
  intros E W F P Pp Pm Nm N Ns Np B Mk G.
  destruct (opt_inv _ _ _ _ _ _ e a h h' b E W F Pp Pm Nm) as (Kp & K & a' & o1 & o2 & o3 & o4 & tc0 & tc & g & S & Q1 & Q2 & Q3 & Q4 & Ct & F1 & F2 & Lb & Ub & Ap & St & As & Am & Tg & S4).
  assert (V2 : dget (o_attrs o2) k = Some v).
  { unfold optim_setting in G. destruct (given h (a_optim_params a) k) as [w|] eqn:Gk; cbn [or_else] in G.
    - injection G as ->. eapply given_apply; eauto; [|rewrite Q1; auto]. rewrite (keeps_given _ _ _ _ _ Kp); auto. apply (wf_opt _ _ W).
    - rewrite (apply_other setter _ k _ _ _ Ap); auto; [|rewrite Q1; auto|rewrite (keeps_given _ _ _ _ _ Kp); auto; apply (wf_opt _ _ W)].
      destruct (String.eqb_spec k "amp_lbound"); [subst; injection G as <-; auto|]. destruct (String.eqb_spec k "amp_ubound"); [subst; injection G as <-; auto|discriminate]. }
  assert (V3 : dget (o_attrs o3) k = Some v).
  { rewrite (assign_get _ _ _ _ _ _ As) by (rewrite Q2; auto). destruct (String.eqb_spec "termination_conditions" k); [|auto].
    exfalso. apply B. left. auto. }
  destruct (apply_method_other setter named _ k _ _ _ Am) as [_ V4]; auto.
  { rewrite Q3. auto. }
  { rewrite (sd_method _ _ _ _ _ S); auto. intros I. apply N. unfold keyword_keys. rewrite in_app_iff. auto. }
  rewrite (steps_get _ _ _ _ S4) by (rewrite Q4; auto). rewrite V4, V3, final_none; [reflexivity|].
  unfold stat_steps. destruct g; cbn; intuition congruence.
Qed.
(** ... the limits ... *)
Theorem C49_limits e a h h' b k v :
  call e a h = (h', Ok b) -> well_formed h a -> fresh make -> plain TermConds k ->
  plain (o_class (b_opt b)) "termination_conditions" -> plain (o_class (b_opt b)) "params" -> plain (o_class (b_opt b)) "method_params" ->
  given h (a_optim_params a) "method_params" = None ->
  method_setting e a h "termination_conditions" = None -> method_setting e a h k = None ->
  In (k, v) (limits e a) ->
  exists tc, term_conds (o_attrs (b_opt b)) tc /\ dget tc k = Some v.
Proof.
  intros E W F P Pt Pp Pm Nm Mt Mk I.
  destruct (opt_inv _ _ _ _ _ _ e a h h' b E W F Pp Pm Nm) as (Kp & K & a' & o1 & o2 & o3 & o4 & tc0 & tc & g & S & Q1 & Q2 & Q3 & Q4 & Ct & F1 & F2 & Lb & Ub & Ap & St & As & Am & Tg & S4).
  assert (T3 : term_conds (o_attrs o3) (o_attrs tc)).
  { unfold term_conds. rewrite (assign_get _ "termination_conditions" _ _ _ _ As), String.eqb_refl by (rewrite Q2; auto). reflexivity. }
  assert (Vk : dget (o_attrs tc) k = Some v).
  { rewrite (steps_get _ _ _ _ St k) by (rewrite Ct; auto). unfold limits in *. cbn in I.
    repeat (destruct I as [[= <- <-]|I]; [reflexivity|]). contradiction. }
  destruct (apply_method_tc_other make setter named _ _ _ _ (o_attrs tc) Am ltac:(rewrite Q3; auto) K) as (tc' & T4 & G4); auto.
  { rewrite (sd_method _ _ _ _ _ S); auto. cbn. intuition discriminate. }
  exists tc'. split.
  - unfold term_conds. rewrite (steps_get _ _ _ _ S4) by (rewrite Q4; auto). unfold term_conds in T4. rewrite T4, final_none; [reflexivity|].
    unfold stat_steps. destruct g; cbn; intuition congruence.
  - rewrite G4; auto. rewrite (sd_method _ _ _ _ _ S); auto. unfold limits in I. cbn in I. cbn. intuition congruence.
Qed.
(** ... and the method parameters: those in the caller's dictionary, and the
    two keyword arguments unless the dictionary has them. *)
Theorem C49_method e a h h' b k v :
  call e a h = (h', Ok b) -> well_formed h a -> fresh make ->
  plain (o_class (b_opt b)) k -> plain (o_class (b_opt b)) "params" -> plain (o_class (b_opt b)) "method_params" ->
  given h (a_optim_params a) "method_params" = None ->
  ~ In k (fid_keys ++ alg_keys ++ guess_keys) -> k <> "stats" -> ~ bookkeeping k -> method_setting e a h "method_params" = None ->
  method_setting e a h k = Some v ->
  (named (o_class (b_opt b)) k = true -> dget (o_attrs (b_opt b)) k = Some v) /\
  exists d, dget (o_attrs (b_opt b)) "method_params" = Some (VDict d) /\ dget d k = Some v.
Proof.
  intros E W F P Pp Pm Nm N Ns B Mm Mk.
  destruct (opt_inv _ _ _ _ _ _ e a h h' b E W F Pp Pm Nm) as (Kp & K & a' & o1 & o2 & o3 & o4 & tc0 & tc & g & S & Q1 & Q2 & Q3 & Q4 & Ct & F1 & F2 & Lb & Ub & Ap & St & As & Am & Tg & S4).
  rewrite <- (sd_method _ _ _ _ _ S) in Mk by auto. rewrite <- (sd_method _ _ _ _ _ S) in Mm by (cbn; intuition discriminate).
  destruct (a_method_params a') as [r|]; [|discriminate]. cbn [given load] in *.
  assert (Nst : forall q, q <> "stats" -> final_of (stat_steps a' g) q = None).
  { intros q Nq. apply final_none. unfold stat_steps. destruct g; cbn; intuition congruence. }
  split.
  - intros Nk. rewrite (steps_get _ _ _ _ S4), Nst by (rewrite ?Q4; auto). cbn [or_else].
    eapply apply_method_named; eauto; rewrite Q3; auto.
  - exists (at_ h' r). split; [|exact Mk]. rewrite (steps_get _ _ _ _ S4), Nst by (rewrite ?Q4; auto; discriminate). cbn [or_else].
    eapply apply_method_stored; eauto.
    + intros Z. rewrite Z in Mk. discriminate.
    + rewrite Q3. auto.
    + intros I. apply in_map_iff in I as ([q w] & Hq & I). cbn in Hq. subst q. rewrite (dget_in _ _ w (K r) I) in Mm. discriminate.
Qed.
(** The pulse generator of a GRAPE optimisation. *)
Theorem C49_pulse e a h h' b :
  call e a h = (h', Ok b) -> well_formed h a -> is_crab e = false -> ~ alg_is (a_alg a) "CRAB" ->
  exists p d, b_pgen b = One p /\ make (o_class p) [b_dyn b] [] (load h' (a_init_pulse_params a)) = Ok d /\
  (forall k, ~ In k keyword_keys -> given h' (a_init_pulse_params a) k = given h (a_init_pulse_params a) k) /\
  (forall k, plain (o_class p) k -> ~ In k ["scaling"; "offset"; "lbound"; "ubound"] -> dget (o_attrs p) k = dget d k) /\
  forall k v, plain (o_class p) k ->
    In (k, v) [("scaling", a_pulse_scaling a); ("offset", a_pulse_offset a); ("lbound", a_amp_lbound a); ("ubound", a_amp_ubound a)] ->
    dget (o_attrs p) k = Some v.
Proof.
  intros E W Ec Na. destruct (call_inv _ _ _ _ _ _ e a h h' b E W) as (Kp & K & a' & ctrls & n & m & pt & it & d0 & d1 & C & S & _ & _ & _ & _ & P).
  pose proof (sd_passes _ _ _ _ _ S) as Q. apply build_pgen_inv in P. rewrite (alg_not_crab e a a' Q Ec Na) in P.
  destruct P as (p & p0 & c & Hp & _ & C1 & C0 & Mk & St). exists p, (o_attrs p0). split; [auto|].
  split; [rewrite C1, <- (ps_pulse_params _ _ _ Q Ec); exact Mk|].
  split; [intros k N; apply (keeps_given _ _ _ _ _ Kp); auto; apply (wf_pulse _ _ W)|].
  assert (Cp : o_class p = o_class p0) by congruence.
  rewrite (ps_scaling _ _ _ Q), (ps_offset _ _ _ Q), (ps_lbound _ _ _ Q), (ps_ubound _ _ _ Q), Ec in St.
  split; intros k.
  - intros P N. rewrite (steps_get _ _ _ _ St) by (rewrite <- Cp; auto). rewrite final_none; [reflexivity|]. cbn in *. exact N.
  - intros v P I. rewrite (steps_get _ _ _ _ St) by (rewrite <- Cp; auto). cbn in I.
    repeat (destruct I as [[= <- <-]|I]; [reflexivity|]). contradiction.
Qed.
(** The generators of the two CRAB functions: number of coefficients, fixed
    frequencies and scaling; further parameters; what happens to a guess. *)
Theorem C49_crab e a h h' b :
  call e a h = (h', Ok b) -> well_formed h a -> is_crab e = true ->
  exists l, b_pgen b = Many l /\ forall c, In c l ->
  o_class c = CrabFourier /\
  (exists d, make CrabFourier [b_dyn b] [("num_coeffs", or_none (alg_setting a h "num_coeffs"));
                                         ("fix_freqs", match alg_setting a h "fix_frequency" with Some v => v | None => VBool true end)] VNone = Ok d /\
     (is_dict (or_none (alg_setting a h "crab_pulse_params")) = false ->
      forall k, plain CrabFourier k -> ~ In k crab_own -> k <> "scaling" -> dget (o_attrs c) k = dget d k)) /\
  (forall v, is_dict (or_none (alg_setting a h "crab_pulse_params")) = false -> alg_setting a h "init_coeff_scaling" = Some v -> v <> VNone ->
     plain CrabFourier "scaling" -> dget (o_attrs c) "scaling" = Some v) /\
  (forall d k v, alg_setting a h "crab_pulse_params" = Some (VDict d) -> distinct d -> plain CrabFourier k -> ~ In k crab_own -> dget d k = Some v ->
     dget (o_attrs c) k = Some v) /\
  (forall v, guess_setting a h "pulse_action" = Some v -> truthy v = Ok true -> truthy (a_init_pulse_type a) = Ok true -> ~ by_default (a_init_pulse_type a) ->
     plain CrabFourier "guess_pulse_action" -> dget (o_attrs c) "guess_pulse_action" = Some v).
Proof.
  intros E W Cr.
  destruct (crab_list _ _ _ _ _ _ e a h h' b E W (or_introl Cr)) as (l & ctrls & n & a' & Hl & C & L & S & K & Kp & action & it & m & pt & Ad & Ac & G).
  exists l. split; [auto|]. intros c Hc. apply In_nth_error in Hc as (j & Hj). specialize (G j c Hj).
  destruct (sd_alg _ _ _ _ _ S Cr) as (r & Er & Al). rewrite Er in G.
  assert (It : forall k, ~ In k (method_keys ++ fid_keys ++ guess_keys) -> opt_item (Dict r) h' k VNone = or_none (alg_setting a h k)).
  { intros k N. unfold opt_item, given, or_none. destruct (Al k N) as [-> | (-> & -> & _)]; reflexivity. }
  assert (Fx : opt_item (Dict r) h' "fix_frequency" (VBool true) = match alg_setting a h "fix_frequency" with Some v => v | None => VBool true end).
  { unfold opt_item, given. destruct (Al "fix_frequency") as [-> | (_ & _ & I)]; [cbn; intuition discriminate|reflexivity|].
    cbn in I. intuition discriminate. }
  rewrite Fx, !It in G by (cbn; intuition discriminate).
  split; [apply (cm_class _ _ _ _ _ _ _ _ _ _ _ G)|]. split; [apply (cm_made _ _ _ _ _ _ _ _ _ _ _ G)|]. split; [|split].
  - intros v Nd Hv Nv P. rewrite Hv in G. pose proof (cm_scaling _ _ _ _ _ _ _ _ _ _ _ G Nd) as X. apply X; [|auto]. cbn. destruct v; cbn; congruence.
  - intros d k v Hd D P N Hk. rewrite Hd in G. exact (cm_params _ _ _ _ _ _ _ _ _ _ _ G d k v eq_refl D P N Hk).
  - intros v Hv T Ty Nd P. apply (cm_action _ _ _ _ _ _ _ _ _ _ _ G); auto.
    assert (Ti : it = a_init_pulse_type a).
    { pose proof (sd_passes _ _ _ _ _ S) as Q. unfold alg_defaults in Ad. rewrite (ps_alg _ _ _ Q), Cr, (ps_pulse_type _ _ _ Q) in Ad. cbv zeta in Ad.
      change (is_text (upper_safe (VStr "CRAB")) "GRAPE") with false in Ad. change (is_text (upper_safe (VStr "CRAB")) "CRAB") with true in Ad. cbn [is_none] in Ad.
     
      step Ad x1 X1. step Ad x2 X2. step Ad x3 X3. injection Ad as <- <- <-. destruct x3; [|auto]. exfalso. apply Nd.
      unfold none_or_def in X3. destruct (a_init_pulse_type a); try discriminate. right. cbn in X3. injection X3 as X3.
      apply String.eqb_eq in X3. eauto. }
    rewrite Ti in Ac. rewrite (Ac Ty). f_equal. destruct (sd_guess _ _ _ _ _ S Cr Ty) as (q & Eq & Gq). rewrite Eq.
    unfold opt_item, given. rewrite Gq, Hv; [reflexivity|]. cbn. intuition discriminate.
Qed.

(** optimize_pulse works on the objects that create_pulse_optimizer builds from
    the same arguments, unless the timeslot arguments or a spelling of "CRAB"
    other than this one are involved. *)
Theorem C49_optimize_same a h h' b :
  call Create a h = (h', Ok b) -> a_tslot_params a = NoDict None -> is_text (a_amp_update_mode a) "DYNAMIC" = false ->
  a_alg a = VStr "CRAB" \/ ~ alg_is (a_alg a) "CRAB" ->
  call Optimize a h = (h', Ok b).
Proof.
  intros E T D A. rewrite (optimize_as_create _ _ _ _ _ _ a h h' b E T D). apply (f_equal (pair h')). unfold initial_pulses.
  assert (G : if is_text (upper_safe (a_alg a)) "CRAB" then exists c l, b_pgen b = Many (c :: l) else exists p, b_pgen b = One p).
  { cbn [Build.call] in E. unfold create in E. destruct (check_ctrls (a_ctrls a)) as [[ctrls n]|]; [|discriminate]. destruct (check_others _ _ _); [|discriminate].
    destruct (deprecated_fields a h) as (_ & _ & _ & _ & _ & _ & F7). destruct (deprecated a h) as [h1 a1]. cbn [snd] in F7. injection E as <- E.
    rewrite <- F7. exact (pgens_of_alg _ _ _ _ _ _ _ _ _ E). }
  destruct A as [A | A].
  - rewrite A in *. destruct G as (c & l & ->). reflexivity.
  - assert (N : is_text (upper_safe (a_alg a)) "CRAB" = false /\ is_text (a_alg a) "CRAB" = false).
    { destruct (a_alg a) eqn:Ea; try (split; reflexivity). cbn [upper_safe is_text]. split.
      - destruct (String.eqb_spec (upper s) "CRAB"); [|auto]. exfalso. apply A. exists s. auto.
      - destruct (String.eqb_spec s "CRAB"); [|auto]. exfalso. apply A. exists s. subst. auto. }
    destruct N as [N1 N2]. rewrite N1 in G. destruct G as (p & ->). now rewrite N2.
Qed.

(** ** What is not passed on *)
(** Except in create_pulse_optimizer, the timeslot parameters make no
    difference. *)
Theorem C49_tslot_params_refuted e a h p :
  e <> Create -> call e (a <| a_tslot_params := p |>) h = call e a h.
Proof. apply call_tslot_params. Qed.
(** The timeslot type makes no difference anywhere. *)
Theorem C49_tslot_type_refuted e a h t : call e (a <| a_tslot_type := t |>) h = call e a h.
Proof. apply call_type. Qed.
(** fid_err_scale_factor overrides the scale factor of the caller's
    dictionary. *)
Theorem C49_scale_refuted e a h h' b x u :
  call e a h = (h', Ok b) -> well_formed h a -> e = Create \/ e = Optimize -> plain (o_class (b_fid b)) "scale_factor" ->
  given h (a_fid_params a) "scale_factor" = Some u -> given h (a_fid_params a) "fid_err_scale_factor" = None ->
  a_fid_err_scale_factor a = VNum x ->
  dget (o_attrs (b_fid b)) "scale_factor" = Some (VNum x).
Proof.
  intros E W Ec P G1 G2 Ex. destruct (call_inv _ _ _ _ _ _ e a h h' b E W) as (Kp & K & a' & ctrls & n & m & pt & it & d0 & d1 & C & S & _ & D & _).
  apply build_dyn_inv in D. destruct D as (c & wp & wf & _ & _ & _ & _ & _ & (o & Co & Ap) & _).
  eapply given_apply; eauto.
  - pose proof (sd_scale _ _ _ _ _ S) as Sc. destruct Ec as [-> | ->]; cbn iota in Sc; rewrite G2, Ex in Sc; exact Sc.
  - rewrite <- (apply_class _ _ _ _ Ap). exact P.
Qed.
(** The pulse scaling given in init_pulse_params never survives, unless it
    happens to equal pulse_scaling; likewise the offset. *)
Theorem C49_init_scaling_refuted e a h h' b u :
  call e a h = (h', Ok b) -> well_formed h a -> is_crab e = false -> ~ alg_is (a_alg a) "CRAB" ->
  given h (a_init_pulse_params a) "scaling" = Some u -> u <> a_pulse_scaling a ->
  forall p, b_pgen b = One p -> plain (o_class p) "scaling" -> dget (o_attrs p) "scaling" <> Some u.
Proof.
  intros E W Ec Na G N p Hp P. destruct (C49_pulse e a h h' b E W Ec Na) as (q & d & Hq & _ & _ & _ & X).
  rewrite Hp in Hq. injection Hq as <-. rewrite (X "scaling" (a_pulse_scaling a) P) by (cbn; auto). congruence.
Qed.
(** The statistics object: the dynamic one only from create_pulse_optimizer. *)
Theorem C49_stats e a h h' b :
  call e a h = (h', Ok b) -> well_formed h a -> truthy (a_gen_stats a) = Ok true ->
  plain (o_class (b_dyn b)) "stats" -> plain (o_class (b_opt b)) "stats" ->
  exists s, s = VObj [("__class__", VStr (match e with
                                          | Create => if is_text (a_amp_update_mode a) "DYNAMIC" then "StatsDynTsUpdate" else "Stats"
                                          | _ => "Stats"
                                          end))] /\
  dget (o_attrs (b_dyn b)) "stats" = Some s /\ dget (o_attrs (b_opt b)) "stats" = Some s.
Proof.
  intros E W T P1 P2. destruct (call_inv _ _ _ _ _ _ e a h h' b E W) as (Kp & K & a' & ctrls & n & m & pt & it & d0 & d1 & C & S & _ & _ & Op & Cf & _).
  pose proof (sd_passes _ _ _ _ _ S) as Q.
  apply build_opt_inv in Op. destruct Op as (c' & q0 & q1 & q2 & t0 & tc & q3 & q4 & g & _ & _ & _ & _ & _ & _ & _ & _ & _ & Tg & So & Sd).
  rewrite (ps_stats _ _ _ Q), T in Tg. injection Tg as <-. cbn [stat_steps] in *.
  exists (stats_of a'). split; [unfold stats_of; rewrite (ps_mode _ _ _ Q); destruct e; reflexivity|].
  pose proof (steps_class _ _ _ _ So) as C4. rewrite C4 in P2. rewrite (steps_get _ _ _ _ So _ P2). split; [|reflexivity].
  apply configure_inv in Cf. pose proof (steps_app _ _ _ _ _ _ Sd Cf) as All. pose proof (steps_class _ _ _ _ All) as C5. rewrite C5 in P1.
  rewrite (steps_get _ _ _ _ All _ P1). unfold system_steps. destruct (is_none (a_tau a')); reflexivity.
Qed.
Theorem C49_dynamic_stats_refuted e a h h' b :
  call e a h = (h', Ok b) -> well_formed h a -> truthy (a_gen_stats a) = Ok true ->
  plain (o_class (b_dyn b)) "stats" -> plain (o_class (b_opt b)) "stats" ->
  e <> Create -> a_amp_update_mode a = VStr "DYNAMIC" ->
  dget (o_attrs (b_dyn b)) "stats" = Some (VObj [("__class__", VStr "Stats")]).
Proof. intros E W T P1 P2 N _. destruct (C49_stats e a h h' b E W T P1 P2) as (s & -> & H & _). rewrite H. destruct e; congruence. Qed.
End Build.

(** * The hypotheses can be met *)
(** Constructors that record what they are given, no property setters, one
    control. *)
Definition make0 : klass -> list obj -> dict -> val -> Res dict :=
  fun _ _ d p => Ok ([("params", p); ("method_params", VNone); ("method_options", VNone)] ++ d).
Definition setter0 : klass -> string -> option (val -> dict -> Res dict) := fun _ _ => None.
Definition named0 : klass -> string -> bool := fun _ k => (k =? "max_metric_corr")%string.
Definition gen0 : nat -> obj -> Res (obj * val) := fun _ o => Ok (o, VArr []).
Definition ctrls0 : val -> Res (val * nat) := fun v => Ok (v, 3).
Definition others0 : val -> val -> val -> Res unit := fun _ _ _ => Ok tt.
Definition call0 := call make0 setter0 named0 gen0 ctrls0 others0.
Definition args0 : args :=
  mkA (VOther 0) (VOther 1) (VOther 2) (VOther 3) (VNum 10) (VNum 5) (VList [VNum 1; VNum 1]) VNone (VList [VNum 1; VNum 2])
      (VNum 1) (VNum 2) (VNum 3) (VNum 4) (VStr "GRAPE") (NoDict None) (Dict 0) (VStr "DEF") (Dict 1) VNone (VNum 7) VNone
      (VStr "UNIT") (Dict 2) (VStr "DEF") (Dict 2) (VStr "DEF") (Dict 3) (VStr "PSU") (VNum 9)
      (VStr "DEF") (Dict 2) VNone (VStr "SINE") (Dict 4) (VNum 1) (VNum 0) VNone (NoDict None) (VBool true)
      (VNum 6) VNone VNone VNone (VStr "ADD").
Definition heap0 : heap :=
  [[("dumping", VStr "SUMMARY")]; [("disp", VBool true)]; [("log_level", VNum 20)]; [("scale_factor", VNum 2)]; [("scaling", VNum 3)]].
Lemma wf0 : well_formed heap0 args0.
Proof.
  split; try (cbn; lia); try exact I. intros r. do 5 (destruct r; [repeat constructor; cbn; tauto|]). destruct r; constructor.
Qed.
Lemma fresh0 : fresh make0.
Proof. intros c os d o H. injection H as <-. split; intros v; cbn; congruence. Qed.
Lemma plain0 c k : Constructed.plain (setter0 c) k.
Proof. split; [reflexivity|discriminate]. Qed.
(** Three controls, two upper bounds. *)
Example C29_nonvacuous :
  well_formed heap0 args0 /\ bound_given (a_amp_lbound args0) /\ bound_given (a_amp_ubound args0) /\
  exists h' b c0 c1 c2, call0 CrabUnitary args0 heap0 = (h', Ok b) /\ b_pgen b = Many [c0; c1; c2] /\
    dget (o_attrs c0) "ubound" = Some (VNum 1) /\ dget (o_attrs c1) "ubound" = Some (VNum 2) /\ dget (o_attrs c2) "ubound" = Some (VNum 2).
Proof.
  split; [exact wf0|]. split; [left; reflexivity|]. split; [right; right; eexists; split; [reflexivity|discriminate]|].
  do 5 eexists. split; [vm_compute; reflexivity|]. repeat split.
Qed.
Lemma zero0 : eq0 0 = true.
Proof. unfold eq0. destruct (Req_EM_T 0 0); congruence. Qed.
Example C29_zero_nonvacuous :
  exists h' b c l, call0 Crab (args0 <| a_amp_lbound := VNum 0 |>) heap0 = (h', Ok b) /\ b_pgen b = Many (c :: l) /\
    dget (o_attrs c) "lbound" = Some VNone.
Proof. do 4 eexists. split; [cbv -[eq0 IZR]; rewrite zero0; reflexivity|]. split; reflexivity. Qed.
(** All five functions succeed; the settings are those the theorems name. *)
Example C49_nonvacuous :
  well_formed heap0 args0 /\ fresh make0 /\ (forall c k, Constructed.plain (setter0 c) k) /\
  (forall e, exists h' b, call0 e args0 heap0 = (h', Ok b)) /\
  fid_setting Create args0 heap0 "phase_option" = Some (VStr "PSU") /\
  method_setting Create args0 heap0 "max_metric_corr" = Some (VNum 7) /\ named0 LBFGSB "max_metric_corr" = true /\
  given heap0 (a_fid_params args0) "scale_factor" = Some (VNum 2) /\ a_fid_err_scale_factor args0 = VNum 9 /\
  guess_setting args0 heap0 "pulse_action" = Some (VStr "ADD").
Proof.
  split; [exact wf0|]. split; [exact fresh0|]. split; [exact plain0|]. split; [|repeat split].
  intros e. destruct e; do 2 eexists; vm_compute; reflexivity.
Qed.
Lemma four0 : eq0 4 = false.
Proof. unfold eq0. destruct (Req_EM_T 4 0) as [E|]; [exfalso; revert E; apply not_0_IZR; discriminate|reflexivity]. Qed.
Example C49_timeslots_case :
  let a := args0 <| a_tau := VNone |> <| a_evo_time := VNum 3 |> <| a_num_tslots := VNum 4 |> in
  well_formed heap0 a /\ exists h' b, call0 Create a heap0 = (h', Ok b).
Proof.
  split; [destruct wf0; now split|]. do 2 eexists. cbv -[eq0 IZR]. rewrite four0. reflexivity.
Qed.

(** Assumptions of all theorems of this file together (listed one by one in
    ASSUMPTIONS.txt). *)
Definition propsBuild :=
  (@C29_bounds_partial,
   @C29_zero_refuted,
   @C29_array_refuted,
   @C49_fid,
   @C49_prop,
   @C49_tslot,
   @C49_dyn,
   @C49_system,
   @C49_controls,
   @C49_timeslots,
   @C49_optim,
   @C49_limits,
   @C49_method,
   @C49_pulse,
   @C49_crab,
   @C49_optimize_same,
   @C49_tslot_params_refuted,
   @C49_tslot_type_refuted,
   @C49_scale_refuted,
   @C49_init_scaling_refuted,
   @C49_stats,
   @C49_dynamic_stats_refuted).
Print Assumptions propsBuild.
