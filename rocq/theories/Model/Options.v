(** optimizer.py: parameters of the minimisation method and the options handed
    to scipy. *)
From Verif.Model Require Export Values.
Local Open Scope string_scope.
Local Open Scope list_scope.

Section Options.
(** Names found on the classes (methods, properties): [hasattr] sees them too.
    [cls] for the optimiser, [tcls] for TerminationConditions, [xcls] for
    anything else put in place of the termination conditions. *)
Variable cls tcls xcls : string -> bool.
(** Properties of the optimiser class with a setter (optimizer.py:283-360:
    log_level, dumping, dump_dir). *)
Variable setter : string -> option (val -> dict -> Res dict).

Definition setattr (k : string) (v : val) (o : dict) : Res dict :=
  match setter k with Some f => f v o | None => Ok (dset k v o) end.
Definition getattr (o : dict) (k : string) : Res val :=
  match dget o k with Some v => Ok v | None => Raise AttributeError end.
Definition hasattr (o : dict) (k : string) : bool := dmem o k || cls k.
Definition tc_hasattr (t : val) (k : string) : bool :=
  match t with VObj e => dmem e k || tcls k | _ => xcls k end.

(** optimizer.py:296-311 [apply_params]; the same text in dynamics.py:443-458,
    fidcomp.py:165-180, propcomp.py:85-100, tslotcomp.py:99-114 and
    pulsegen.py:187-200. *)
Fixpoint set_all (p : dict) (o : dict) : Res dict :=
  match p with
  | [] => Ok o
  | (k, v) :: p' => o <- setattr k v o;; set_all p' o
  end.
Definition apply_params (params : val) (o : dict) : Res dict :=
  t <- truthy params;;
  params <- (if t then Ok params else getattr o "params");;
  match params with
  | VDict p => o <- setattr "params" params o;; set_all p o
  | _ => Ok o
  end.

(** optimizer.py:483-491: the loop over the parameters. *)
Fixpoint dispatch (p : dict) (s : dict * dict) : Res (dict * dict) :=
  match p with
  | [] => Ok s
  | (k, v) :: p' =>
    let '(o, unused) := s in
    s <- (if hasattr o k then (o <- setattr k v o;; Ok (o, unused))
          else t <- getattr o "termination_conditions";;
               if tc_hasattr t k
               then match t with
                    | VObj e => Ok (dset "termination_conditions" (VObj (dset k v e)) o, unused)
                    | _ => Raise AttributeError
                    end
               else Ok (o, dset k v unused));;
    dispatch p' s
  end.
(** optimizer.py:468-496 [apply_method_params]. *)
Definition apply_method_params (params : val) (o : dict) : Res dict :=
  t <- truthy params;;
  params <- (if t then Ok params else getattr o "method_params");;
  match params with
  | VDict p =>
    let o := dset "method_params" params o in
    '(o, unused) <- dispatch p (o, []);;
    if (List.length unused =? 0)%nat then Ok o
    else mo <- getattr o "method_options";;
         match mo with
         | VDict d => Ok (dset "method_options" (VDict (dupdate d unused)) o)
         | _ => Ok (dset "method_options" (VDict unused) o)
         end
  | _ => Ok o
  end.

(** optimizer.py:436-466 [_build_method_options]. *)
Definition tc_get (t : val) (k : string) : Res val :=
  match t with VObj e => getattr e k | _ => Raise AttributeError end.
Definition add_if (b : bool) (k : string) (v : val) (mo : dict) : dict := if b then dset k v mo else mo.
Definition build_method_options (o : dict) : Res (dict * dict) :=
  tc <- getattr o "termination_conditions";;
  m <- getattr o "method_options";;
  mo <- match m with VNone => Ok [] | VDict d => Ok d | _ => Raise TypeError end;;
  mo <- (if dmem mo "max_metric_corr" && negb (dmem mo "maxcor")
         then match dget mo "max_metric_corr" with Some v => Ok (dset "maxcor" v mo) | None => Raise KeyError end
         else if hasattr o "max_metric_corr" && negb (dmem mo "maxcor")
         then v <- getattr o "max_metric_corr";; Ok (dset "maxcor" v mo)
         else Ok mo);;
  mo <- (if dmem mo "accuracy_factor" && negb (dmem mo "ftol")
         then match dget mo "accuracy_factor" with Some v => Ok (dset "ftol" v mo) | None => Raise KeyError end
         else if tc_hasattr tc "accuracy_factor" && negb (dmem mo "ftol")
         then v <- tc_get tc "accuracy_factor";; Ok (dset "ftol" v mo)
         else Ok mo);;
  it <- tc_get tc "max_iterations";; b <- gt0 it;;
  let mo := add_if (b && negb (dmem mo "maxiter")) "maxiter" it mo in
  fc <- tc_get tc "max_fid_func_calls";; b <- gt0 fc;;
  let mo := add_if (b && negb (dmem mo "maxfev")) "maxfev" fc mo in
  gn <- tc_get tc "min_gradient_norm";; b <- gt0 gn;;
  let mo := add_if (b && negb (dmem mo "gtol")) "gtol" gn mo in
  mo <- (if negb (dmem mo "disp") then v <- getattr o "disp_conv_msg";; Ok (dset "disp" v mo) else Ok mo);;
  Ok (dset "method_options" (VDict mo) o, mo).

(** optimizer.py:375-390 ([init_optim], as far as it concerns options) and the
    call of [_build_method_options] in each [run_optimization] (564, 831, 963,
    1224): the optimiser and the options after the start of a run with
    [run_optimization(term_conds)]. *)
Definition start_run (term_conds : val) (o : dict) : Res (dict * dict) :=
  let o := if is_none term_conds then o else dset "termination_conditions" term_conds o in
  o <- apply_method_params VNone o;;
  build_method_options o.

(** The keyword arguments that reach scipy.  optimizer.py:580-588
    [Optimizer] and [OptimizerCrab] (minimize), 856-873 [OptimizerBFGS]
    (fmin_bfgs), 981-1019 [OptimizerLBFGSB] (fmin_l_bfgs_b), 1242-1253
    [OptimizerCrabFmin] (fmin).  Left out: functions, vectors, bounds and the
    callback; and optimizer.py:926-932, where a configuration object may bring
    its own [max_metric_corr] and [accuracy_factor]: OptimConfig defines
    neither. *)
Inductive routine := Minimize | FminBfgs | FminLbfgsb | Fmin.
Definition scipy_args (r : routine) (o mo : dict) : Res dict :=
  t <- getattr o "termination_conditions";;
  match r with
  | Minimize => m <- getattr o "method";; Ok [("method", m); ("options", VDict mo)]
  | FminBfgs =>
    g <- tc_get t "min_gradient_norm";; i <- tc_get t "max_iterations";;
    Ok [("gtol", g); ("maxiter", i); ("disp", VBool true)]
  | FminLbfgsb =>
    factr <- match dget mo "accuracy_factor", dget mo "ftol" with
             | Some v, _ => Ok v
             | None, Some v => Ok v
             | None, None => if tc_hasattr t "accuracy_factor" then tc_get t "accuracy_factor" else Ok (VNum (10 ^ 7))
             end;;
    m <- match dget mo "max_metric_corr", dget mo "maxcor" with
         | Some v, _ => Ok v
         | None, Some v => Ok v
         | None, None => if hasattr o "max_metric_corr" then getattr o "max_metric_corr" else Ok (VNum 10)
         end;;
    g <- tc_get t "min_gradient_norm";; c <- tc_get t "max_fid_func_calls";; i <- tc_get t "max_iterations";;
    Ok [("m", m); ("factr", factr); ("pgtol", g); ("maxfun", c); ("maxiter", i)]
  | Fmin =>
    x <- getattr o "xtol";; f <- getattr o "ftol";;
    i <- tc_get t "max_iterations";; c <- tc_get t "max_fid_func_calls";; d <- getattr o "disp_conv_msg";;
    Ok [("xtol", x); ("ftol", f); ("maxiter", i); ("maxfun", c); ("disp", d)]
  end.
End Options.
