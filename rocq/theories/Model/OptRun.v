(** Model of an optimisation run: src/qutip_qtrl/optimizer.py (classes
    Optimizer, OptimizerBFGS, OptimizerLBFGSB, OptimizerCrab,
    OptimizerCrabFmin), termcond.py, optimresult.py, errors.py:36-80.

    The scipy minimiser is external: it is an arbitrary sequence of calls of
    the function, gradient and callback wrappers, ended by returning something
    or by raising something; an exception raised by a wrapper goes through it.
    The clock is external: every reading is an arbitrary number.
    The pulse generators of the CRAB optimisers are a parameter [G] here (see
    [Model/Crab.v]); GRAPE optimisers have none.
    Left out: logging, dumps (see [Model/Dump.v]), apply_method_params and the
    method options (see [Model/Options.v]). *)
From Coq Require Import Reals String.
From Coquelicot Require Import Complex.
From RecordUpdate Require Import RecordUpdate.
From Verif.Model Require Export Base Dyn OptVars.
Local Open Scope R_scope.

Inductive okind := OBase | OBFGS | OLBFGSB | OCrab | OCrabFmin.

(** termcond.py:52-58. max_iterations is handed to the minimiser only. *)
Record termcond := mkTC {
  tc_targ : option R;     (* fid_err_targ *)
  tc_goal : option R;     (* fid_goal *)
  tc_wall : R;            (* max_wall_time *)
  tc_gradmin : R;         (* min_gradient_norm *)
  tc_calls : R;           (* max_fid_func_calls, a float by default *)
}.
#[export] Instance eta_termcond : Settable _ := settable! mkTC
  <tc_targ; tc_goal; tc_wall; tc_gradmin; tc_calls>.

(** termcond.py:52-58 [reset]. *)
Definition default_tc : termcond :=
  mkTC (Some (/ 100000)) None 3600 (/ 100000) (10000000000).

(** Counters of stats.py the optimiser writes itself. *)
Record ostats := mkOS {
  os_iter : nat;          (* num_iter *)
  os_fid : nat;           (* num_fidelity_func_calls *)
  os_grad : nat;          (* num_grad_func_calls *)
}.
#[export] Instance eta_ostats : Settable _ := settable! mkOS <os_iter; os_fid; os_grad>.

(** The subclasses of OptimizationTerminate, errors.py:36-80. *)
Inductive term := GoalT | WallT | FidCallT | GradT.
Definition reason (t : term) : string :=
  match t with
  | GoalT => "Goal achieved"
  | WallT => "Max wall time exceeded"
  | FidCallT => "Number of fidelity error calls has exceeded the maximum"
  | GradT => "Gradient normal minimum reached"
  end.

(** What the minimiser does. *)
Inductive event :=
| EvF (x : list R)        (* evaluate the function *)
| EvG (x : list R)        (* evaluate the gradient *)
| EvCb (t : R).           (* iteration callback, clock reading t *)
Inductive ending :=
| Returns (x : list R) (nit warn : nat) (msg : string)
| Crashes (e : exn).

Section Opt.
Context {A : Alg}.
Context {G : Type}.
(** [_get_ctrl_amps], [_get_optim_var_vals] and the check of the pulse
    generators made by OptimizerCrab.init_optim (1078-1110). *)
Variable to_amps : list R -> dyn A -> G -> Res (G * amps).
Variable get_vars : dyn A -> G -> Res (list R).
Variable gens_ok : dyn A -> G -> bool.

Record opt := mkOpt {
  o_kind : okind;
  o_dyn : dyn A;
  o_gens : G;
  o_tc : option termcond;          (* termination_conditions *)
  o_crab : bool;                   (* alg == "CRAB" *)
  o_approx : bool;                 (* approx_grad *)
  o_lb : bspec;                    (* amp_lbound *)
  o_ub : bspec;                    (* amp_ubound *)
  o_bounds : option (list bpair);  (* bounds *)
  o_iter : nat;                    (* num_iter *)
  o_fid : nat;                     (* num_fid_func_calls *)
  o_grad : nat;                    (* num_grad_func_calls *)
  o_stats : option ostats;
  o_start : R;                     (* wall_time_optimize_start *)
}.
#[export] Instance eta_opt : Settable _ := settable! mkOpt
  <o_kind; o_dyn; o_gens; o_tc; o_crab; o_approx; o_lb; o_ub; o_bounds; o_iter; o_fid; o_grad;
   o_stats; o_start>.

(** optimresult.py:83-104. *)
Record result := mkResult {
  r_initial_fid_err : option R;    (* None stands for np.inf *)
  r_fid_err : option R;
  r_goal : bool;                   (* goal_achieved *)
  r_gradnorm : R;                  (* grad_norm_final *)
  r_gradmin : bool;                (* grad_norm_min_reached *)
  r_iter : nat;                    (* num_iter *)
  r_maxiter : bool;                (* max_iter_exceeded *)
  r_calls : nat;                   (* num_fid_func_calls *)
  r_maxcalls : bool;               (* max_fid_func_exceeded *)
  r_time : R;                      (* wall_time *)
  r_wall : bool;                   (* wall_time_limit_exceeded *)
  r_reason : string;               (* termination_reason *)
  r_initial_amps : option amps;
  r_final_amps : option amps;
  r_evo_initial : option (Op A);   (* evo_full_initial *)
  r_evo_final : option (Op A);     (* evo_full_final *)
  r_stats : option ostats;         (* the counters of the copied stats *)
}.
#[export] Instance eta_result : Settable _ := settable! mkResult
  <r_initial_fid_err; r_fid_err; r_goal; r_gradnorm; r_gradmin; r_iter; r_maxiter; r_calls;
   r_maxcalls; r_time; r_wall; r_reason; r_initial_amps; r_final_amps; r_evo_initial;
   r_evo_final; r_stats>.
Definition new_result : result :=
  mkResult None None false 0 false 0 false 0 false 0 false "not started yet" None None None None None.

(** optimizer.py:397-411: the two targets are derived from one another. *)
Definition settle_targets (tc : termcond) : Res termcond :=
  match tc_targ tc, tc_goal tc with
  | None, None => Raise UsageError
  | None, Some g => Ok (tc <| tc_targ := Some (Rabs (1 - g)) |>)
  | Some t, None => Ok (tc <| tc_goal := Some (1 - t) |>)
  | Some _, Some _ => Ok tc
  end.

Definition is_crab (k : okind) : bool := match k with OCrab | OCrabFmin => true | _ => false end.

(** optimizer.py:375-434 [init_optim], 904-923 (LBFGSB: without the legacy
    config attributes it passes the conditions on unchanged), 1064-1110 (Crab). *)
Definition init_optim (tcs : option termcond) (o : opt) : Res opt :=
  let o := match tcs with
           | Some tc => o <| o_tc := Some tc |>
           | None => o
           end in
  tc <- match o_tc o with Some tc => Ok tc | None => Raise UsageError end;;
  _ <- (if d_init (o_dyn o) then Ok tt else Raise UsageError);;
  tc <- settle_targets tc;;
  let o := o <| o_tc := Some tc |> in
  let o := if o_crab o then o <| o_approx := true |> else o in
  let o := match o_stats o with
           | Some _ => o <| o_stats := Some (mkOS 0 0 0) |>     (* stats.clear() *)
           | None => o
           end in
  let o := o <| o_iter := 0%nat |> <| o_fid := 0%nat |> <| o_grad := 0%nat |> in
  if is_crab (o_kind o) && negb (gens_ok (o_dyn o) (o_gens o)) then Raise UsageError else Ok o.

(** optimizer.py:362-373 [_create_result]. *)
Definition create_result (o : opt) : Res (opt * result) :=
  '(d, e) <- get_fid_err (o_dyn o);;
  a <- some_or AttributeError (d_amps d);;
  '(d, u) <- full_evo d;;
  Ok (o <| o_dyn := d |>,
      new_result <| r_initial_fid_err := Some e |> <| r_initial_amps := Some a |>
                 <| r_evo_initial := Some u |>).

Definition the_tc (o : opt) : Res termcond := some_or AttributeError (o_tc o).
Definition the_targ (tc : termcond) : Res R := some_or TypeError (tc_targ tc).

(** optimizer.py:638-682 [fid_err_func_wrapper]: inl = the value returned to
    the minimiser, inr = the termination exception. *)
Definition fid_wrapper (x : list R) (o : opt) : Res (opt * (R + term)) :=
  let o := o <| o_fid := S (o_fid o) |> in
  let o := match o_stats o with
           | Some st => o <| o_stats := Some (st <| os_fid := o_fid o |>) |>
           | None => o
           end in
  '(g, a) <- to_amps x (o_dyn o) (o_gens o);;
  let o := o <| o_gens := g |> in
  d <- update_ctrl_amps a (o_dyn o);;
  tc <- the_tc o;;
  '(d, err) <- get_fid_err d;;
  let o := o <| o_dyn := d |> in
  targ <- the_targ tc;;
  if leR err targ then Ok (o, inr GoalT)
  else if ltR (tc_calls tc) (INR (o_fid o)) then Ok (o, inr FidCallT)
  else Ok (o, inl err).

(** optimizer.py:684-730 [fid_err_grad_wrapper]. *)
Definition grad_wrapper (x : list R) (o : opt) : Res (opt * (list R + term)) :=
  let o := o <| o_grad := S (o_grad o) |> in
  let o := match o_stats o with
           | Some st => o <| o_stats := Some (st <| os_grad := o_grad o |>) |>
           | None => o
           end in
  '(g, a) <- to_amps x (o_dyn o) (o_gens o);;
  let o := o <| o_gens := g |> in
  d <- update_ctrl_amps a (o_dyn o);;
  '(d, gr) <- get_fid_err_gradient d;;
  let o := o <| o_dyn := d |> in
  tc <- the_tc o;;
  if ltR (f_gradnorm (d_fidst d)) (tc_gradmin tc) then Ok (o, inr GradT)
  else Ok (o, inl (concat gr)).

(** optimizer.py:732-758 [iter_step_callback_func]. *)
Definition callback (t : R) (o : opt) : Res (opt * (unit + term)) :=
  let o := o <| o_iter := S (o_iter o) |> in
  tc <- the_tc o;;
  if ltR (tc_wall tc) (t - o_start o) then Ok (o, inr WallT)
  else
    let o := match o_stats o with
             | Some st => o <| o_stats := Some (st <| os_iter := o_iter o |>) |>
             | None => o
             end in
    Ok (o, inl tt).

(** One call made by the minimiser. *)
Definition do_event (e : event) (o : opt) : Res (opt * option term) :=
  match e with
  | EvF x => '(o, r) <- fid_wrapper x o;; Ok (o, match r with inl _ => None | inr t => Some t end)
  | EvG x => '(o, r) <- grad_wrapper x o;; Ok (o, match r with inl _ => None | inr t => Some t end)
  | EvCb t => '(o, r) <- callback t o;; Ok (o, match r with inl _ => None | inr t => Some t end)
  end.

(** The calls in turn, up to the first that raises a termination exception.
    Also returned: the calls that were made. *)
Fixpoint do_events (evs : list event) (o : opt) : Res (opt * option term) :=
  match evs with
  | [] => Ok (o, None)
  | e :: evs' =>
    '(o, t) <- do_event e o;;
    match t with
    | Some t => Ok (o, Some t)
    | None => do_events evs' o
    end
  end.

(** optimizer.py:760-773 [_interpret_term_exception]. *)
Definition interpret (t : term) (r : result) : result :=
  let r := r <| r_reason := reason t |> in
  match t with
  | GoalT => r <| r_goal := true |>
  | WallT => r <| r_wall := true |>
  | GradT => r <| r_gradmin := true |>
  | FidCallT => r <| r_maxcalls := true |>
  end.

(** What each class makes of a normal return: 594-603 (base, inherited by
    Crab), 872-884 (BFGS), 1020-1036 (LBFGSB), 1262-1290 (CrabFmin).  The task
    string of LBFGSB stands for opt_res.message too. *)
Definition interpret_return (k : okind) (nit warn : nat) (msg : string) (r : result) : result :=
  match k with
  | OBase | OCrab => r <| r_reason := msg |> <| r_iter := nit |>
  | OBFGS =>
    if (warn =? 1)%nat then r <| r_maxiter := true |> <| r_reason := "Iteration count limit reached"%string |>
    else if (warn =? 2)%nat then r <| r_gradmin := true |> <| r_reason := "Gradient normal minimum reached"%string |>
    else r
  | OLBFGSB =>
    let r := if (warn =? 0)%nat then r <| r_gradmin := true |> <| r_reason := "function converged"%string |>
             else if (warn =? 1)%nat
             then r <| r_maxiter := true |> <| r_reason := "Iteration or fidelity function call limit reached"%string |>
             else if (warn =? 2)%nat then r <| r_reason := msg |>
             else r in
    r <| r_iter := nit |>
  | OCrabFmin =>
    let r := r <| r_iter := nit |> in
    if (warn =? 0)%nat then r <| r_reason := "Function converged (within tolerance)"%string |>
    else if (warn =? 1)%nat
    then r <| r_reason := "Maximum number of function evaluations reached"%string |> <| r_maxcalls := true |>
    else if (warn =? 2)%nat
    then r <| r_reason := "Maximum number of iterations reached"%string |> <| r_maxiter := true |>
    else r <| r_reason := "Unknown"%string |>   (* the text also contains the flag *)
  end.

(** optimizer.py:775-796 [_add_common_result_attribs]. *)
Definition add_common (st_time end_time : R) (o : opt) (r : result) : Res (opt * result) :=
  let r := r <| r_iter := o_iter o |> <| r_calls := o_fid o |> <| r_time := end_time - st_time |> in
  '(d, e) <- get_fid_err (o_dyn o);;
  let r := r <| r_fid_err := Some e |> <| r_gradnorm := f_gradnorm (d_fidst d) |>
             <| r_final_amps := d_amps d |> in
  '(d, u) <- full_evo d;;
  let o := o <| o_dyn := d |> in
  Ok (o, r <| r_evo_final := Some u |> <| r_stats := o_stats o |>).

(** What the minimiser is called with (566-574, 860-869, 1009-1021, 1243-1254):
    start vector, whether a gradient is supplied, the bounds. *)
Record margs := mkMargs { ma_x0 : list R; ma_jac : bool; ma_bounds : option (list bpair) }.

(** Bounds: 562-563 and 573 (base, Crab: only built when not set; Crab's
    version builds nothing, 1112-1119), 973 and 1014 (LBFGSB: always rebuilt),
    BFGS and CrabFmin pass none. *)
Definition settle_bounds (o : opt) : Res opt :=
  match o_kind o with
  | OBase =>
    match o_bounds o with
    | Some _ => Ok o
    | None =>
      '(_, m) <- get_num_ctrls (o_dyn o);;
      b <- build_bounds (n_ts (o_dyn o)) m (o_lb o) (o_ub o);;
      Ok (o <| o_bounds := Some b |>)
    end
  | OLBFGSB =>
    '(_, m) <- get_num_ctrls (o_dyn o);;
    b <- build_bounds (n_ts (o_dyn o)) m (o_lb o) (o_ub o);;
    Ok (o <| o_bounds := Some b |>)
  | _ => Ok o
  end.
Definition passed_bounds (o : opt) : option (list bpair) :=
  match o_kind o with
  | OBase | OLBFGSB | OCrab => o_bounds o
  | OBFGS | OCrabFmin => None
  end.

(** Everything before the minimiser is called (548-583, 839-857, 952-1005,
    1222-1240). *)
Definition prepare (tcs : option termcond) (st_time : R) (o : opt) : Res (opt * result * margs) :=
  o <- init_optim tcs o;;
  x0 <- get_vars (o_dyn o) (o_gens o);;
  let o := o <| o_start := st_time |> in
  let o := match o_stats o with
           | Some st => o <| o_stats := Some (st <| os_iter := match o_kind o with
                                                               | OBase | OCrab => 0%nat
                                                               | _ => 1%nat
                                                               end |>) |>
           | None => o
           end in
  o <- settle_bounds o;;
  '(o, r) <- create_result o;;
  let jac := match o_kind o with
             | OCrabFmin => false
             | _ => negb (o_approx o)
             end in
  Ok (o, r, mkMargs x0 jac (passed_bounds o)).

(** Everything from the call of the minimiser on. *)
Definition after_events (fin : ending) (st_time end_time : R) (o : opt) (t : option term) (r : result)
  : Res (opt * result) :=
  match t with
  | Some t => add_common st_time end_time o (interpret t r)
  | None =>
    match fin with
    | Crashes e => Raise e
    | Returns x nit warn msg =>
      '(g, a) <- to_amps x (o_dyn o) (o_gens o);;
      let o := o <| o_gens := g |> in
      d <- update_ctrl_amps a (o_dyn o);;
      add_common st_time end_time (o <| o_dyn := d |>) (interpret_return (o_kind o) nit warn msg r)
    end
  end.

(** optimizer.py:521-611, 811-890, 925-1042, 1198-1298 [run_optimization]. *)
Definition run_optimization (tcs : option termcond) (st_time end_time : R)
  (evs : list event) (fin : ending) (o : opt) : Res (opt * result) :=
  '(o, r, _) <- prepare tcs st_time o;;
  '(o, t) <- do_events evs o;;
  after_events fin st_time end_time o t r.

End Opt.
Arguments opt A G : clear implicits.
Arguments result A : clear implicits.

(** GRAPE: the variables are the amplitudes (613-636); there are no pulse
    generators. *)
Section Grape.
Context {A : Alg}.
Definition grape_to_amps (x : list R) (d : dyn A) (g : unit) : Res (unit * amps) :=
  a <- some_or AttributeError (d_amps d);;
  b <- reshape (length a) (length (hd [] a)) x;;
  Ok (tt, b).
Definition grape_get_vars (d : dyn A) (g : unit) : Res (list R) :=
  a <- some_or AttributeError (d_amps d);; Ok (flatten a).
Definition grape_gens_ok (d : dyn A) (g : unit) : bool := true.
End Grape.
