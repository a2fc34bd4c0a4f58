(** pulseoptim.py: how the objects of an optimisation are built from the
    arguments of create_pulse_optimizer and of the four functions that call
    it. *)
From Verif.Model Require Export Values Options.
From RecordUpdate Require Export RecordUpdate.
Local Open Scope string_scope.
Local Open Scope list_scope.

(** Dictionaries are shared with the caller: an argument that is a dictionary
    is an address, and the callers' dictionaries live in a heap. *)
Definition heap := list dict.
Inductive arg := Dict (r : nat) | NoDict (v : option nat).   (* [NoDict None]: Python's None; otherwise some other object *)
Definition at_ (h : heap) (r : nat) : dict := nth r h [].
Definition load (h : heap) (p : arg) : val :=
  match p with Dict r => VDict (at_ h r) | NoDict None => VNone | NoDict (Some n) => VOther n end.

(** Classes of the objects built. *)
Inductive klass :=
| GenMat | Unitary | Symplectic
| ApproxGrad | Diag | AugMat | Frechet
| TDApprox | TraceDiff | FidUnit
| UpdateAll
| BFGS | LBFGSB | CrabFmin | CrabOpt | Optimizer_
| Random | RndFourier | RndWaves | RndWalk1 | RndWalk2 | Linear | Zero | Sine | Square | Saw | Triangle
| Gaussian | GaussianEdge | CrabFourier
| TermConds | Config.
Record obj := Obj { o_class : klass; o_attrs : dict }.
#[export] Instance eta_obj : Settable _ := settable! Obj <o_class; o_attrs>.
Inductive pgens := One (p : obj) | Many (l : list obj).
(** What create_pulse_optimizer returns.  The computers are attributes of the
    dynamics and the generators of the optimiser; they are kept apart here. *)
Record built := mkB { b_cfg : obj; b_dyn : obj; b_prop : obj; b_fid : obj; b_tslot : obj; b_opt : obj; b_pgen : pgens }.

(** The arguments of the five functions together.  Left out: [log_level] and
    [out_file_ext], which do not concern the objects built. *)
Record args := mkA {
  a_drift : val; a_ctrls : val; a_initial : val; a_target : val;
  a_num_tslots : val; a_evo_time : val; a_tau : val;
  a_amp_lbound : val; a_amp_ubound : val;
  a_fid_err_targ : val; a_min_grad : val; a_max_iter : val; a_max_wall_time : val;
  a_alg : val; a_alg_params : arg; a_optim_params : arg; a_optim_method : val; a_method_params : arg;
  a_optim_alg : val; a_max_metric_corr : val; a_accuracy_factor : val;
  a_dyn_type : val; a_dyn_params : arg; a_prop_type : val; a_prop_params : arg; a_fid_type : val; a_fid_params : arg;
  a_phase_option : val; a_fid_err_scale_factor : val;
  a_tslot_type : val; a_tslot_params : arg; a_amp_update_mode : val;
  a_init_pulse_type : val; a_init_pulse_params : arg; a_pulse_scaling : val; a_pulse_offset : val;
  a_ramping_pulse_type : val; a_ramping_pulse_params : arg; a_gen_stats : val;
  (* only in the two CRAB functions; their guess_pulse_type and guess_pulse_params
     are the two init_pulse arguments above *)
  a_num_coeffs : val; a_init_coeff_scaling : val; a_guess_scaling : val; a_guess_offset : val; a_guess_action : val }.
#[export] Instance eta_args : Settable _ := settable! mkA
  <a_drift; a_ctrls; a_initial; a_target; a_num_tslots; a_evo_time; a_tau; a_amp_lbound; a_amp_ubound;
   a_fid_err_targ; a_min_grad; a_max_iter; a_max_wall_time; a_alg; a_alg_params; a_optim_params; a_optim_method; a_method_params;
   a_optim_alg; a_max_metric_corr; a_accuracy_factor; a_dyn_type; a_dyn_params; a_prop_type; a_prop_params; a_fid_type; a_fid_params;
   a_phase_option; a_fid_err_scale_factor; a_tslot_type; a_tslot_params; a_amp_update_mode;
   a_init_pulse_type; a_init_pulse_params; a_pulse_scaling; a_pulse_offset; a_ramping_pulse_type; a_ramping_pulse_params; a_gen_stats;
   a_num_coeffs; a_init_coeff_scaling; a_guess_scaling; a_guess_offset; a_guess_action>.

(** pulseoptim.py:87-93 [_upper_safe] and the method call [.upper()]. *)
Definition upper_safe (v : val) : val := match v with VStr s => VStr (upper s) | _ => v end.
Definition upper_of (v : val) : Res string := match v with VStr s => Ok (upper s) | _ => Raise AttributeError end.
(** [v is None or v.upper() == "DEF"]. *)
Definition none_or_def (v : val) : Res bool :=
  if is_none v then Ok true else s <- upper_of v;; Ok (s =? "DEF")%string.
(** ["No option ...: " + v]: for something that is not text, the message
    itself fails. *)
Definition no_option {X} (v : val) : Res X := match v with VStr _ => Raise UsageError | _ => Raise TypeError end.

(** ** Deprecated arguments (create_pulse_optimizer: pulseoptim.py:1766-1830;
    the same text in optimize_pulse: 366-433).  The warnings are left out. *)
(** [if v is not None: if isinstance(p, dict): if test not in p: p[key] = v
     else: p = {key: v}]. *)
Definition put_missing (test key : string) (v : val) (p : arg) (h : heap) : heap * arg :=
  if is_none v then (h, p)
  else match p with
       | Dict r => (if dmem (at_ h r) test then h else upd h r (dset key v (at_ h r)), p)
       | NoDict _ => (h ++ [[(key, v)]], Dict (List.length h))
       end.
Definition old_method (a : args) (h : heap) : heap * args :=
  let a := if is_none (a_optim_alg a) then a else a <| a_optim_method := a_optim_alg a |> in
  let '(h, p) := put_missing "max_metric_corr" "max_metric_corr" (a_max_metric_corr a) (a_method_params a) h in
  let '(h, p) := put_missing "accuracy_factor" "accuracy_factor" (a_accuracy_factor a) p h in
  (h, a <| a_method_params := p |>).
Definition old_fid (a : args) (h : heap) : heap * args :=
  let '(h, p) := put_missing "phase_option" "phase_option" (a_phase_option a) (a_fid_params a) h in
  let '(h, p) := put_missing "fid_err_scale_factor" "scale_factor" (a_fid_err_scale_factor a) p h in
  (h, a <| a_fid_params := p |>).
Definition old_mode (a : args) : args :=
  if is_none (a_amp_update_mode a) then a
  else if is_text (upper_safe (a_amp_update_mode a)) "ALL" then a <| a_tslot_type := VStr "UPDATE_ALL" |>
  else a <| a_tslot_type := a_amp_update_mode a |>.
Definition deprecated (a : args) (h : heap) : heap * args :=
  let '(h, a) := old_method a h in
  let '(h, a) := old_fid a h in
  (h, old_mode a).

Section Build.
(** Constructors: class, objects passed, other arguments stored, [params]. *)
Variable make : klass -> list obj -> dict -> val -> Res dict.
(** Properties with setters, and names found on the classes ([hasattr]). *)
Variable setter : klass -> string -> option (val -> dict -> Res dict).
Variable named : klass -> string -> bool.
(** [gen_pulse] of the generator for control j: it may change the generator. *)
Variable gen : nat -> obj -> Res (obj * val).
(** dynamics.py:55-97 and the two isinstance checks: the controls as a list
    with its length, or TypeError. *)
Variable check_ctrls : val -> Res (val * nat).
Variable check_others : val -> val -> val -> Res unit.

Definition new (c : klass) (os : list obj) (d : dict) (params : val) : Res obj :=
  o <- make c os d params;; Ok (Obj c o).
Definition assign (k : string) (v : val) (o : obj) : Res obj :=
  d <- setattr (setter (o_class o)) k v (o_attrs o);; Ok (o <| o_attrs := d |>).
Definition apply (params : val) (o : obj) : Res obj :=
  d <- apply_params (setter (o_class o)) params (o_attrs o);; Ok (o <| o_attrs := d |>).
Definition apply_method (params : val) (o : obj) : Res obj :=
  d <- apply_method_params (named (o_class o)) (named TermConds) (fun _ => false) (setter (o_class o)) params (o_attrs o);;
  Ok (o <| o_attrs := d |>).

(** pulseoptim.py:1832-1853: the algorithm's defaults.  Result: method,
    propagator type, pulse type. *)
Definition alg_defaults (a : args) : Res (val * val * val) :=
  let alg_up := upper_safe (a_alg a) in
  if is_none (a_alg a) then Raise UsageError
  else if is_text alg_up "GRAPE" then
    b <- none_or_def (a_optim_method a);;
    let m := if b then VStr "FMIN_L_BFGS_B" else a_optim_method a in
    b <- none_or_def (a_init_pulse_type a);;
    Ok (m, a_prop_type a, if b then VStr "RND" else a_init_pulse_type a)
  else if is_text alg_up "CRAB" then
    b <- none_or_def (a_optim_method a);;
    let m := if b then VStr "FMIN" else a_optim_method a in
    b <- none_or_def (a_prop_type a);;
    let p := if b then VStr "APPROX" else a_prop_type a in
    b <- none_or_def (a_init_pulse_type a);;
    Ok (m, p, if b then VNone else a_init_pulse_type a)
  else Raise UsageError.

(** pulseoptim.py:1870-1881, and the computers that the constructor of the
    dynamics creates (dynamics.py:523-536, 1550-1564, 1765-1779): the
    configuration's tslot_type is never set, so the timeslot computer is
    always TSlotCompUpdateAll. *)
Definition choose_dyn (t : val) : Res klass :=
  if is_text t "GEN_MAT" || is_none t || is_text t "" then Ok GenMat
  else if is_text t "UNIT" then Ok Unitary
  else if is_text t "SYMPL" then Ok Symplectic
  else no_option t.
Definition default_prop (d : klass) : klass := match d with Unitary => Diag | _ => Frechet end.
Definition default_fid (d : klass) : klass := match d with Unitary => FidUnit | _ => TraceDiff end.
(** pulseoptim.py:1887-1903: None stands for "leave the default". *)
Definition choose_prop (t : val) : Res (option klass) :=
  if is_text t "DEF" || is_none t || is_text t "" then Ok None
  else if is_text t "APPROX" then Ok (Some ApproxGrad)
  else if is_text t "DIAG" then Ok (Some Diag)
  else if is_text t "AUG_MAT" then Ok (Some AugMat)
  else if is_text t "FRECHET" then Ok (Some Frechet)
  else no_option t.
(** pulseoptim.py:1911-1924. *)
Definition choose_fid (t : val) : Res (option klass) :=
  let u := upper_safe t in
  if is_text u "DEF" || is_none u || is_text u "" then Ok None
  else if is_text u "TDAPPROX" then Ok (Some TDApprox)
  else if is_text u "TRACEDIFF" then Ok (Some TraceDiff)
  else if is_text u "UNIT" then Ok (Some FidUnit)
  else no_option t.
(** pulseoptim.py:1933-1964. *)
Definition choose_opt (alg m : val) : Res klass :=
  let u := upper_safe m in
  let crab := is_text (upper_safe alg) "CRAB" in
  if is_none m || is_text u "" then Raise UsageError
  else if is_text u "FMIN_BFGS" then Ok BFGS
  else if is_text u "LBFGSB" || is_text u "FMIN_L_BFGS_B" then Ok LBFGSB
  else if is_text u "FMIN" then if crab then Ok CrabFmin else Raise UsageError
  else if crab then Ok CrabOpt else Ok Optimizer_.
(** pulsegen.py:25-84 [create_pulse_gen]. *)
Definition choose_pulse (t : val) : Res klass :=
  if is_text t "RND" then Ok Random
  else if is_text t "RNDFOURIER" then Ok RndFourier
  else if is_text t "RNDWAVES" then Ok RndWaves
  else if is_text t "RNDWALK1" then Ok RndWalk1
  else if is_text t "RNDWALK2" then Ok RndWalk2
  else if is_text t "LIN" then Ok Linear
  else if is_text t "ZERO" then Ok Zero
  else if is_text t "SINE" then Ok Sine
  else if is_text t "SQUARE" then Ok Square
  else if is_text t "SAW" then Ok Saw
  else if is_text t "TRIANGLE" then Ok Triangle
  else if is_text t "GAUSSIAN" then Ok Gaussian
  else if is_text t "CRAB_FOURIER" then Ok CrabFourier
  else if is_text t "GAUSSIAN_EDGE" then Ok GaussianEdge
  else Raise ValueError.
Definition create_pulse_gen (t : val) (dyn : obj) (params : val) : Res obj :=
  c <- choose_pulse t;; new c [dyn] [] params.

(** Replaces a computer unless it already has the class (for TRACEDIFF also a
    subclass; the default is never the subclass TDAPPROX). *)
Definition replace_comp (want : option klass) (os : list obj) (o : obj) (same : klass -> klass -> bool) : Res obj :=
  match want with
  | None => Ok o
  | Some c => if same (o_class o) c then Ok o else new c os [] VNone
  end.
Definition klass_eqb (x y : klass) : bool :=
  match x, y with
  | ApproxGrad, ApproxGrad | Diag, Diag | AugMat, AugMat | Frechet, Frechet
  | TDApprox, TDApprox | TraceDiff, TraceDiff | FidUnit, FidUnit | TDApprox, TraceDiff => true
  | _, _ => false
  end.

(** pulseoptim.py:1855-1929: configuration, dynamics and computers. *)
Definition build_dyn (h : heap) (a : args) (m pt it : val) : Res (obj * obj * obj * obj * obj) :=
  cfg <- new Config [] [] VNone;;
  cfg <- assign "optim_method" m cfg;;
  cfg <- assign "dyn_type" (a_dyn_type a) cfg;;
  cfg <- assign "prop_type" pt cfg;;
  cfg <- assign "fid_type" (a_fid_type a) cfg;;
  cfg <- assign "init_pulse_type" it cfg;;
  c <- choose_dyn (a_dyn_type a);;
  dyn <- new c [cfg] [] VNone;;
  tslot <- new UpdateAll [dyn] [] VNone;;
  prop <- new (default_prop c) [dyn] [] VNone;;
  fid <- new (default_fid c) [dyn; prop] [] VNone;;
  dyn <- apply (load h (a_dyn_params a)) dyn;;
  dyn <- assign "_drift_dyn_gen_checked" (VBool true) dyn;;
  dyn <- assign "_ctrl_dyn_gen_checked" (VBool true) dyn;;
  w <- choose_prop pt;;
  prop <- replace_comp w [dyn] prop klass_eqb;;
  prop <- apply (load h (a_prop_params a)) prop;;
  w <- choose_fid (a_fid_type a);;
  fid <- replace_comp w [dyn; prop] fid klass_eqb;;
  fid <- apply (load h (a_fid_params a)) fid;;
  tslot <- apply (load h (a_tslot_params a)) tslot;;
  Ok (cfg, dyn, prop, fid, tslot).

(** pulseoptim.py:1931-1995: optimiser, termination conditions, statistics. *)
Definition stats_of (a : args) : val :=
  VObj [("__class__", VStr (if is_text (a_amp_update_mode a) "DYNAMIC" then "StatsDynTsUpdate" else "Stats"))].
Definition build_opt (h : heap) (a : args) (m : val) (cfg dyn : obj) : Res (obj * obj) :=
  c <- choose_opt (a_alg a) m;;
  opt <- new c [cfg; dyn] [] VNone;;
  opt <- assign "alg" (a_alg a) opt;;
  opt <- assign "method" m opt;;
  opt <- assign "amp_lbound" (a_amp_lbound a) opt;;
  opt <- assign "amp_ubound" (a_amp_ubound a) opt;;
  opt <- apply (load h (a_optim_params a)) opt;;
  tc <- new TermConds [] [] VNone;;
  tc <- assign "fid_err_targ" (a_fid_err_targ a) tc;;
  tc <- assign "min_gradient_norm" (a_min_grad a) tc;;
  tc <- assign "max_iterations" (a_max_iter a) tc;;
  tc <- assign "max_wall_time" (a_max_wall_time a) tc;;
  opt <- assign "termination_conditions" (VObj (o_attrs tc)) opt;;
  opt <- apply_method (load h (a_method_params a)) opt;;
  g <- truthy (a_gen_stats a);;
  if g then
    dyn <- assign "stats" (stats_of a) dyn;;
    opt <- assign "stats" (stats_of a) opt;;
    Ok (dyn, opt)
  else Ok (dyn, opt).

(** pulseoptim.py:1997-2018: system and timeslots.  [ctrls] as returned by the
    check. *)
Definition divides (x y : val) : bool :=
  match x, y with VNum _, VNum d => negb (eq0 d) | _, _ => false end.
Definition configure (a : args) (ctrls : val) (dyn : obj) : Res obj :=
  dyn <- assign "drift_dyn_gen" (a_drift a) dyn;;
  dyn <- assign "ctrl_dyn_gen" ctrls dyn;;
  dyn <- assign "initial" (a_initial a) dyn;;
  dyn <- assign "target" (a_target a) dyn;;
  if is_none (a_tau a) then
    if divides (a_evo_time a) (a_num_tslots a) then
      dyn <- assign "num_tslots" (a_num_tslots a) dyn;;
      assign "evo_time" (a_evo_time a) dyn
    else Raise UsageError
  else assign "tau" (a_tau a) dyn.

(** pulseoptim.py:2061-2080: the bound for control j. *)
Definition last_of (l : list val) : Res val := match rev l with v :: _ => Ok v | [] => Raise IndexError end.
Definition bound_for (b : val) (j : nat) : Res val :=
  t <- truthy b;;
  if t then match b with
            | VList l => match nth_error l j with Some v => Ok v | None => last_of l end
            | _ => Ok b
            end
  else Ok VNone.
(** pulseoptim.py:2048-2096: the generator of control j; [g] is the guess
    generator with its action. *)
Definition crab_gen (a : args) (dyn : obj) (nc ff ics cpp : val) (ramp : option obj) (j : nat)
    (g : option (obj * val)) : Res (obj * option (obj * val)) :=
  c <- new CrabFourier [dyn] [("num_coeffs", nc); ("fix_freqs", ff)] VNone;;
  c <- (if is_none ics then Ok c else assign "scaling" ics c);;
  c <- (if is_dict cpp then apply cpp c else Ok c);;
  lb <- bound_for (a_amp_lbound a) j;;
  ub <- bound_for (a_amp_ubound a) j;;
  c <- assign "lbound" lb c;;
  c <- assign "ubound" ub c;;
  '(c, g) <- match g with
             | None => Ok (c, None)
             | Some (gp, action) =>
               gp <- assign "lbound" lb gp;;
               gp <- assign "ubound" ub gp;;
               '(gp, pulse) <- gen j gp;;
               c <- assign "guess_pulse" pulse c;;
               t <- truthy action;;
               c <- (if t then assign "guess_pulse_action" action c else Ok c);;
               Ok (c, Some (gp, action))
             end;;
  c <- match ramp with
       | None => Ok c
       | Some r => '(_, pulse) <- gen j r;; assign "ramping_pulse" pulse c
       end;;
  Ok (c, g).
Fixpoint crab_gens (a : args) (dyn : obj) (nc ff ics cpp : val) (ramp : option obj) (js : list nat)
    (g : option (obj * val)) : Res (list obj) :=
  match js with
  | [] => Ok []
  | j :: js' =>
    '(c, g) <- crab_gen a dyn nc ff ics cpp ramp j g;;
    l <- crab_gens a dyn nc ff ics cpp ramp js' g;;
    Ok (c :: l)
  end.
Definition item (d : dict) (k : string) (dflt : val) : val := match dget d k with Some v => v | None => dflt end.
(** pulseoptim.py:2019-2111: the pulse generators. *)
Definition build_pgen (h : heap) (a : args) (it : val) (dyn : obj) (n : nat) : Res pgens :=
  t <- truthy (a_ramping_pulse_type a);;
  ramp <- (if t then r <- create_pulse_gen (a_ramping_pulse_type a) dyn (load h (a_ramping_pulse_params a));; Ok (Some r)
           else Ok None);;
  if is_text (upper_safe (a_alg a)) "CRAB" then
    let p := match a_alg_params a with Dict r => Some (at_ h r) | NoDict _ => None end in
    let nc := match p with Some d => item d "num_coeffs" VNone | None => VNone end in
    let ff := match p with Some d => item d "fix_frequency" (VBool true) | None => VBool true end in
    let ics := match p with Some d => item d "init_coeff_scaling" VNone | None => VNone end in
    let cpp := match p with Some d => item d "crab_pulse_params" VNone | None => VNone end in
    t <- truthy it;;
    g <- (if t then
            g <- create_pulse_gen it dyn VNone;;
            g <- assign "scaling" (a_pulse_scaling a) g;;
            g <- assign "offset" (a_pulse_offset a) g;;
            match a_init_pulse_params a with
            | NoDict None => Ok (Some (g, VNone))
            | NoDict (Some n) => g <- apply (VOther n) g;; Raise AttributeError
            | Dict r => g <- apply (VDict (at_ h r)) g;; Ok (Some (g, item (at_ h r) "pulse_action" VNone))
            end
          else Ok None);;
    l <- crab_gens a dyn nc ff ics cpp ramp (range n) g;;
    match l with [] => Raise IndexError | _ => Ok (Many l) end
  else
    p <- create_pulse_gen it dyn (load h (a_init_pulse_params a));;
    p <- assign "scaling" (a_pulse_scaling a) p;;
    p <- assign "offset" (a_pulse_offset a) p;;
    p <- assign "lbound" (a_amp_lbound a) p;;
    p <- assign "ubound" (a_amp_ubound a) p;;
    Ok (One p).

(** pulseoptim.py:1832-2119: everything after the deprecated arguments. *)
Definition assemble (h : heap) (a : args) (ctrls : val) (n : nat) : Res built :=
  '(m, pt, it) <- alg_defaults a;;
  '(cfg, dyn, prop, fid, tslot) <- build_dyn h a m pt it;;
  '(dyn, opt) <- build_opt h a m cfg dyn;;
  dyn <- configure a ctrls dyn;;
  pg <- build_pgen h a it dyn n;;
  Ok (mkB cfg dyn prop fid tslot opt pg).
(** pulseoptim.py:1489-2120 [create_pulse_optimizer]. *)
Definition create (a : args) (h : heap) : heap * Res built :=
  match check_ctrls (a_ctrls a) with
  | Raise e => (h, Raise e)
  | Ok (ctrls, n) =>
    match check_others (a_drift a) (a_initial a) (a_target a) with
    | Raise e => (h, Raise e)
    | Ok _ => let '(h, a) := deprecated a h in (h, assemble h a ctrls n)
    end
  end.

(** pulseoptim.py:96-522 [optimize_pulse], up to the objects on which
    run_optimization is called: the call of create_pulse_optimizer (435-468)
    leaves out the timeslot arguments and the deprecated ones, and the initial
    pulses (475-486) take [alg] in upper case only.  Not modelled here: the
    failures of init_timeslots, of the generators and of initialize_controls,
    and the run itself. *)
Definition forwarded (a : args) : args :=
  a <| a_optim_alg := VNone |> <| a_max_metric_corr := VNone |> <| a_accuracy_factor := VNone |>
    <| a_phase_option := VNone |> <| a_fid_err_scale_factor := VNone |>
    <| a_tslot_type := VStr "DEF" |> <| a_tslot_params := NoDict None |> <| a_amp_update_mode := VNone |>.
Definition initial_pulses (alg : val) (b : built) : Res built :=
  match b_pgen b with
  | Many (_ :: _) => if is_text alg "CRAB" then Ok b else Raise AttributeError
  | Many [] => Ok b
  | One _ => if is_text alg "CRAB" then Raise TypeError else Ok b
  end.
Definition optimize_pulse (a : args) (h : heap) : heap * Res built :=
  let '(h, a) := deprecated a h in
  let '(h, r) := create (forwarded a) h in
  (h, b <- r;; initial_pulses (a_alg a) b).

(** pulseoptim.py:525-853 [optimize_pulse_unitary]: the types of dynamics,
    propagator and fidelity are not arguments, nor is fid_err_scale_factor. *)
Definition optimize_pulse_unitary (a : args) (h : heap) : heap * Res built :=
  let '(h, a) := old_method a h in
  let a := old_mode a in
  let ph := a_phase_option a in
  let call h fp :=
    optimize_pulse (forwarded (a <| a_dyn_type := VStr "UNIT" |> <| a_prop_type := VStr "DEF" |> <| a_fid_type := VStr "DEF" |>
                                 <| a_fid_params := fp |>)) h in
  if is_none ph then call h (a_fid_params a)
  else match a_fid_params a with
       | NoDict None => call (h ++ [[("phase_option", ph)]]) (Dict (List.length h))
       | NoDict (Some _) => (h, Raise TypeError)
       | Dict r => call (if dmem (at_ h r) "phase_option" then h else upd h r (dset "phase_option" ph (at_ h r))) (Dict r)
       end.

(** pulseoptim.py:1100-1139 and 1411-1450: options of the two CRAB
    functions. *)
Definition crab_alg_params (a : args) (h : heap) : heap * arg :=
  match a_alg_params a with
  | NoDict _ => (h ++ [[("num_coeffs", a_num_coeffs a); ("init_coeff_scaling", a_init_coeff_scaling a)]], Dict (List.length h))
  | Dict r =>
    let '(h, p) := put_missing "num_coeffs" "num_coeffs" (a_num_coeffs a) (Dict r) h in
    put_missing "init_coeff_scaling" "init_coeff_scaling" (a_init_coeff_scaling a) p h
  end.
Definition crab_guess_params (a : args) (h : heap) : Res (heap * arg) :=
  t <- truthy (a_init_pulse_type a);;
  if t then
    let '(h, p) := match a_init_pulse_params a with Dict r => (h, Dict r) | NoDict _ => (h ++ [[]], Dict (List.length h)) end in
    let '(h, p) := put_missing "scaling" "scaling" (a_guess_scaling a) p h in
    let '(h, p) := put_missing "offset" "offset" (a_guess_offset a) p h in
    Ok (put_missing "pulse_action" "pulse_action" (a_guess_action a) p h)
  else Ok (h, a_init_pulse_params a).
(** The arguments that the CRAB functions have (no deprecated ones, default
    scaling and offset) and those they fix. *)
Definition crab_args (a : args) (ap gp : arg) : args :=
  forwarded a <| a_tslot_type := a_tslot_type a |> <| a_tslot_params := a_tslot_params a |>
    <| a_min_grad := VNum 0 |> <| a_alg := VStr "CRAB" |> <| a_alg_params := ap |> <| a_init_pulse_params := gp |>
    <| a_pulse_scaling := VNum 1 |> <| a_pulse_offset := VNum 0 |>.
(** pulseoptim.py:856-1175 [opt_pulse_crab]. *)
Definition opt_pulse_crab (a : args) (h : heap) : heap * Res built :=
  let '(h, ap) := crab_alg_params a h in
  match crab_guess_params a h with
  | Raise e => (h, Raise e)
  | Ok (h, gp) => optimize_pulse (crab_args a ap gp) h
  end.
(** pulseoptim.py:1178-1486 [opt_pulse_crab_unitary]. *)
Definition opt_pulse_crab_unitary (a : args) (h : heap) : heap * Res built :=
  let '(h, ap) := crab_alg_params a h in
  match crab_guess_params a h with
  | Raise e => (h, Raise e)
  | Ok (h, gp) => optimize_pulse_unitary (crab_args a ap gp <| a_phase_option := a_phase_option a |>) h
  end.

(** The five functions. *)
Inductive entry := Create | Optimize | OptimizeUnitary | Crab | CrabUnitary.
Definition call (e : entry) : args -> heap -> heap * Res built :=
  match e with
  | Create => create
  | Optimize => optimize_pulse
  | OptimizeUnitary => optimize_pulse_unitary
  | Crab => opt_pulse_crab
  | CrabUnitary => opt_pulse_crab_unitary
  end.
End Build.
