(** What the arguments of the pulse optimisation functions mean, in plain
    terms. *)
From Verif.Model Require Import Build.
From Verif.Spec Require Import OptionRules.
Local Open Scope string_scope.
Local Open Scope list_scope.

(** What the caller's dictionary (if it is one) says about a key. *)
Definition given (h : heap) (p : arg) (k : string) : option val :=
  match p with Dict r => dget (at_ h r) k | NoDict _ => None end.
Definition not_none (v : val) : option val := if is_none v then None else Some v.

(** The caller's dictionaries exist and have distinct keys. *)
Definition exists_ (h : heap) (p : arg) : Prop := match p with Dict r => r < List.length h | NoDict _ => True end.
Record well_formed (h : heap) (a : args) : Prop := {
  wf_keys : forall r, distinct (at_ h r);
  wf_alg : exists_ h (a_alg_params a);
  wf_opt : exists_ h (a_optim_params a);
  wf_method : exists_ h (a_method_params a);
  wf_dyn : exists_ h (a_dyn_params a);
  wf_prop : exists_ h (a_prop_params a);
  wf_fid : exists_ h (a_fid_params a);
  wf_tslot : exists_ h (a_tslot_params a);
  wf_pulse : exists_ h (a_init_pulse_params a);
  wf_ramp : exists_ h (a_ramping_pulse_params a) }.

(** The keys that keyword arguments stand for, by the dictionary they belong
    to. *)
Definition method_keys := ["max_metric_corr"; "accuracy_factor"].
Definition fid_keys := ["phase_option"; "scale_factor"].
Definition alg_keys := ["num_coeffs"; "init_coeff_scaling"].
Definition guess_keys := ["scaling"; "offset"; "pulse_action"].
Definition keyword_keys := method_keys ++ fid_keys ++ alg_keys ++ guess_keys.

(** The keyword arguments each function has. *)
Definition has_method_keywords (e : entry) : bool := match e with Crab | CrabUnitary => false | _ => true end.
Definition has_phase (e : entry) : bool := match e with Crab => false | _ => true end.
Definition has_types (e : entry) : bool := match e with OptimizeUnitary | CrabUnitary => false | _ => true end.
Definition is_crab (e : entry) : bool := match e with Crab | CrabUnitary => true | _ => false end.

(** "Deprecated parameters are used only if the key is absent." *)
Definition fid_setting (e : entry) (a : args) (h : heap) (k : string) : option val :=
  or_else (given h (a_fid_params a) k)
          (if has_phase e && (k =? "phase_option")%string then not_none (a_phase_option a) else None).
Definition method_setting (e : entry) (a : args) (h : heap) (k : string) : option val :=
  or_else (given h (a_method_params a) k)
          (if has_method_keywords e
           then if (k =? "max_metric_corr")%string then not_none (a_max_metric_corr a)
                else if (k =? "accuracy_factor")%string then not_none (a_accuracy_factor a) else None
           else None).
Definition alg_setting (a : args) (h : heap) (k : string) : option val :=
  or_else (given h (a_alg_params a) k)
          (if (k =? "num_coeffs")%string then not_none (a_num_coeffs a)
           else if (k =? "init_coeff_scaling")%string then not_none (a_init_coeff_scaling a) else None).
Definition guess_setting (a : args) (h : heap) (k : string) : option val :=
  or_else (given h (a_init_pulse_params a) k)
          (if (k =? "scaling")%string then not_none (a_guess_scaling a)
           else if (k =? "offset")%string then not_none (a_guess_offset a)
           else if (k =? "pulse_action")%string then not_none (a_guess_action a) else None).

(** What may happen to the callers' dictionaries. *)
Definition dicts_grow (h h' : heap) : Prop :=
  List.length h <= List.length h' /\
  forall r k, r < List.length h ->
    dget (at_ h' r) k = dget (at_ h r) k \/
    (In k keyword_keys /\ (dget (at_ h r) k = None \/ k = "scale_factor")).

(** The bound meant for control j: one value for all, or one per control, the
    last one standing for those that are missing. *)
Definition meant_for (b : val) (j : nat) : val :=
  match b with VList l => nth j l (last l VNone) | _ => b end.

(** The documented classes. *)
Definition alg_is (v : val) (s : string) : Prop := exists t, v = VStr t /\ upper t = s.
Definition default_text (v : val) : bool := is_none v || is_text v "" || is_text (upper_safe v) "DEF".

(** A bound as the documentation describes it: absent, a number, or a list of
    numbers.  The partial theorem excludes the number zero. *)
Definition bound_given (b : val) : Prop :=
  b = VNone \/ (exists x, b = VNum x /\ x <> 0%R) \/ (exists l, b = VList l /\ l <> []).

(** The settings of the optimiser that come from arguments. *)
Definition optim_setting (a : args) (h : heap) (k : string) : option val :=
  or_else (given h (a_optim_params a) k)
          (if (k =? "amp_lbound")%string then Some (a_amp_lbound a)
           else if (k =? "amp_ubound")%string then Some (a_amp_ubound a) else None).
(** The limits of the optimisation. *)
Definition limits (e : entry) (a : args) : list (string * val) :=
  [("fid_err_targ", a_fid_err_targ a); ("min_gradient_norm", if is_crab e then VNum 0 else a_min_grad a);
   ("max_iterations", a_max_iter a); ("max_wall_time", a_max_wall_time a)].
(** System and timeslots. *)
Definition system (a : args) : list (string * val) :=
  [("drift_dyn_gen", a_drift a); ("initial", a_initial a); ("target", a_target a)] ++
  (if is_none (a_tau a) then [("num_tslots", a_num_tslots a); ("evo_time", a_evo_time a)] else [("tau", a_tau a)]).
(** Names the functions themselves assign on the dynamics. *)
Definition dyn_own := ["_drift_dyn_gen_checked"; "_ctrl_dyn_gen_checked"; "stats"; "drift_dyn_gen"; "ctrl_dyn_gen"; "initial"; "target";
                       "num_tslots"; "evo_time"; "tau"].
(** Names assigned on a CRAB generator for each control. *)
Definition crab_own := ["lbound"; "ubound"; "guess_pulse"; "guess_pulse_action"; "ramping_pulse"].
(** Constructors called without parameters leave none behind. *)
Definition fresh (make : klass -> list obj -> dict -> val -> Res dict) : Prop :=
  forall c os d o, make c os d VNone = Ok o ->
    (forall v, dget o "params" = Some v -> v = VNone) /\ (forall v, dget o "method_params" = Some v -> v = VNone).
Definition or_none (x : option val) : val := match x with Some v => v | None => VNone end.
Definition no_keywords (a : args) : Prop :=
  a_max_metric_corr a = VNone /\ a_accuracy_factor a = VNone /\ a_phase_option a = VNone /\ a_fid_err_scale_factor a = VNone /\
  a_num_coeffs a = VNone /\ a_init_coeff_scaling a = VNone /\ a_guess_scaling a = VNone /\ a_guess_offset a = VNone /\ a_guess_action a = VNone.

(** ** Which class an option selects *)
Definition dyn_table := [("GEN_MAT", GenMat); ("UNIT", Unitary); ("SYMPL", Symplectic)].
Definition prop_table := [("APPROX", ApproxGrad); ("DIAG", Diag); ("AUG_MAT", AugMat); ("FRECHET", Frechet)].
Definition fid_table := [("TDAPPROX", TDApprox); ("TRACEDIFF", TraceDiff); ("UNIT", FidUnit)].
Definition pulse_table :=
  [("RND", Random); ("RNDFOURIER", RndFourier); ("RNDWAVES", RndWaves); ("RNDWALK1", RndWalk1); ("RNDWALK2", RndWalk2);
   ("LIN", Linear); ("ZERO", Zero); ("SINE", Sine); ("SQUARE", Square); ("SAW", Saw); ("TRIANGLE", Triangle);
   ("GAUSSIAN", Gaussian); ("CRAB_FOURIER", CrabFourier); ("GAUSSIAN_EDGE", GaussianEdge)].
Definition blank (v : val) : Prop := v = VNone \/ v = VStr "".
Definition by_default (v : val) : Prop := v = VNone \/ exists s, v = VStr s /\ upper s = "DEF".

Definition selects_dyn (t : val) (c : klass) : Prop :=
  (blank t /\ c = GenMat) \/ exists s, t = VStr s /\ In (s, c) dyn_table.
Definition selects_prop (crab : bool) (d : klass) (t : val) (c : klass) : Prop :=
  (crab = true /\ by_default t /\ c = ApproxGrad) \/
  ((crab = false \/ ~ by_default t) /\ (blank t \/ t = VStr "DEF") /\ c = (match d with Unitary => Diag | _ => Frechet end)) \/
  (exists s, t = VStr s /\ In (s, c) prop_table).
Definition selects_fid (d : klass) (t : val) (c : klass) : Prop :=
  ((blank t \/ by_default t) /\ c = (match d with Unitary => FidUnit | _ => TraceDiff end)) \/
  (exists s, t = VStr s /\ In (upper s, c) fid_table).
Definition selects_opt (crab : bool) (m : val) (c : klass) : Prop :=
  (by_default m /\ c = if crab then CrabFmin else LBFGSB) \/
  exists s, m = VStr s /\
    ((upper s = "FMIN_BFGS" /\ c = BFGS) \/
     (In (upper s) ["LBFGSB"; "FMIN_L_BFGS_B"] /\ c = LBFGSB) \/
     (upper s = "FMIN" /\ crab = true /\ c = CrabFmin) \/
     (~ In (upper s) ["DEF"; ""; "FMIN_BFGS"; "LBFGSB"; "FMIN_L_BFGS_B"; "FMIN"] /\ c = if crab then CrabOpt else Optimizer_)).
Definition selects_pulse (t : val) (c : klass) : Prop :=
  (by_default t /\ c = Random) \/ exists s, t = VStr s /\ In (s, c) pulse_table.
(** An initial guess for CRAB is optional. *)
Definition guess_allowed (t : val) : Prop := by_default t \/ t = VStr "" \/ exists s c, t = VStr s /\ In (s, c) pulse_table.

(** ** Totality *)
(** Nothing but the options can go wrong: constructors succeed and leave no
    parameters, there are no property setters, pulses can be generated, the
    operators pass the checks and there is a control. *)
Record tame (make : klass -> list obj -> dict -> val -> Res dict) (setter : klass -> string -> option (val -> dict -> Res dict))
    (gen : nat -> obj -> Res (obj * val)) (check_ctrls : val -> Res (val * nat)) (check_others : val -> val -> val -> Res unit) : Prop := {
  tm_make : forall c os d p, exists o, make c os d p = Ok o /\ (p = VNone -> dget o "params" = Some VNone /\ dget o "method_params" = Some VNone);
  tm_setter : forall c k, setter c k = None;
  tm_gen : forall j o, exists o' p, gen j o = Ok (o', p);
  tm_ctrls : forall v, exists l n, check_ctrls v = Ok (l, S n);
  tm_others : forall x y z, check_others x y z = Ok tt }.
(** No dictionaries, bounds or ramping; timeslots given; options are text or
    absent. *)
Definition textual (v : val) : Prop := v = VNone \/ exists s, v = VStr s.
Record simple (a : args) : Prop := {
  sm_alg_p : a_alg_params a = NoDict None; sm_opt_p : a_optim_params a = NoDict None; sm_method_p : a_method_params a = NoDict None;
  sm_dyn_p : a_dyn_params a = NoDict None; sm_prop_p : a_prop_params a = NoDict None; sm_fid_p : a_fid_params a = NoDict None;
  sm_tslot_p : a_tslot_params a = NoDict None; sm_pulse_p : a_init_pulse_params a = NoDict None;
  sm_old : no_keywords a; sm_optim_alg : a_optim_alg a = VNone; sm_mode : a_amp_update_mode a = VNone;
  sm_lbound : a_amp_lbound a = VNone; sm_ubound : a_amp_ubound a = VNone; sm_tau : is_none (a_tau a) = false;
  sm_ramp : a_ramping_pulse_type a = VNone; sm_stats : a_gen_stats a = VBool false;
  sm_alg_t : textual (a_alg a); sm_method_t : textual (a_optim_method a); sm_dyn_t : textual (a_dyn_type a);
  sm_prop_t : textual (a_prop_type a); sm_fid_t : textual (a_fid_type a); sm_pulse_t : textual (a_init_pulse_type a) }.
Definition crab_chosen (a : args) : bool := is_text (upper_safe (a_alg a)) "CRAB".
Definition types_ok (a : args) : Prop :=
  (alg_is (a_alg a) "GRAPE" \/ alg_is (a_alg a) "CRAB") /\
  exists d p f o, selects_dyn (a_dyn_type a) d /\ selects_prop (crab_chosen a) d (a_prop_type a) p /\
    selects_fid d (a_fid_type a) f /\ selects_opt (crab_chosen a) (a_optim_method a) o.
Definition pulse_ok (a : args) : Prop :=
  if crab_chosen a then guess_allowed (a_init_pulse_type a) else exists c, selects_pulse (a_init_pulse_type a) c.
