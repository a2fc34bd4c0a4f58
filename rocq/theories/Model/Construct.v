(** Construction of the library's objects with a [params] dictionary: the
    attribute assignments made by the constructors and [reset] methods, in
    order. *)
From Verif.Model Require Export Values Options.
Local Open Scope string_scope.
Local Open Scope list_scope.

(** One statement of a [reset] method: [self.k = ...] (the value is that of
    the expression on the right-hand side, given by [ev]), [apply_params()], a
    check that may raise UsageError, or [self.k += 1]. *)
Inductive stmt := Set_ (k : string) | Apply | Check (what : string) | Incr (k : string).
Definition sets (l : list string) : list stmt := map Set_ l.

Inductive cls :=
| DynBase | DynGenMat | DynUnitary | DynSymplectic
| FidBase | FidUnitary | FidTraceDiff | FidTraceDiffApprox
| PropBase | PropApproxGrad | PropDiag | PropAugMat | PropFrechet
| TslotUpdateAll | TslotDynUpdate
| OptBase | OptBFGS | OptLBFGSB | OptCrab | OptCrabFmin
| PgBase | PgRandom | PgRndFourier | PgRndWaves | PgRndWalk1 | PgRndWalk2 | PgLinear | PgPeriodic
| PgGaussian | PgGaussianEdge | PgCrab | PgCrabFourier (fix_freqs : bool).

(** dynamics.py:538-542 [clear] (the fidelity computer's own [clear] concerns
    another object). *)
Definition dyn_clear := sets ["ctrl_amps"; "evo_current"].
(** dynamics.py:351-441; [_create_computers] is 523-536 and its overrides
    1550-1564, 1765-1779. *)
Definition dyn_reset : list stmt :=
  sets ["parent"; "time"; "initial"; "target"; "ctrl_amps"; "initial_ctrl_scaling"; "initial_ctrl_offset";
        "drift_dyn_gen"; "ctrl_dyn_gen"; "_tau"; "_evo_time"; "_num_ctrls"; "_num_tslots";
        "memory_optimization"; "oper_dtype"; "cache_phased_dyn_gen"; "cache_prop_grad"; "cache_dyn_gen_eigenvectors_adj";
        "sparse_eigen_decomp"; "dyn_dims"; "dyn_shape"; "sys_dims"; "sys_shape"; "time_depend_drift"; "time_depend_ctrl_dyn_gen";
        "_drift_dyn_gen"; "_ctrl_dyn_gen"; "_phased_ctrl_dyn_gen"; "_dyn_gen_phase"; "_phase_application"; "_initial"; "_target";
        "_onto_evo_target"; "_dyn_gen"; "_phased_dyn_gen"; "_prop"; "_prop_grad"; "_fwd_evo"; "_onwd_evo"; "_onto_evo";
        "_onto_evo_target_qobj"; "_dyn_gen_qobj"; "_prop_qobj"; "_prop_grad_qobj"; "_fwd_evo_qobj"; "_onwd_evo_qobj"; "_onto_evo_qobj";
        "_decomp_curr"; "_prop_eigen"; "_dyn_gen_eigenvectors"; "_dyn_gen_eigenvectors_adj"; "_dyn_gen_factormatrix";
        "fact_mat_round_prec"; "stats"; "id_text"; "def_amps_fname"; "log_level"; "_dyn_gen_mapped"; "_evo_initialized";
        "_timeslots_initialized"; "_ctrls_initialized"; "_ctrl_dyn_gen_checked"; "_drift_dyn_gen_checked";
        "unitarity_check_level"; "unitarity_tol"; "dump"; "dump_to_file"] ++
  [Apply] ++ sets ["tslot_computer"; "fid_computer"; "prop_computer"] ++ dyn_clear.

(** fidcomp.py:138-163; [unit] adds the attributes of the override
    289-292. *)
Definition fid_clear (unit : bool) : list stmt :=
  sets ["fid_err"; "fidelity"; "fid_err_grad"; "grad_norm"; "fidelity_current"; "fid_err_grad_current"; "grad_norm"] ++
  (if unit then sets ["fidelity_prenorm"; "fidelity_prenorm_current"] else []).
Definition fid_reset (unit : bool) : list stmt :=
  sets ["log_level"; "id_text"; "dimensional_norm"; "fid_norm_func"; "grad_norm_func"; "uses_onwd_evo"; "uses_onto_evo"] ++
  [Apply] ++ fid_clear unit.

(** propcomp.py:77-83. *)
Definition prop_reset : list stmt := sets ["id_text"; "log_level"; "_grad_exact"].
(** tslotcomp.py:94-97. *)
Definition tslot_reset : list stmt := sets ["log_level"; "id_text"; "evo_comp_summary"].
(** optimizer.py:246-282, without the attributes that a configuration object
    may bring (275-280: OptimConfig has none of them). *)
Definition opt_reset : list stmt :=
  sets ["log_level"; "id_text"; "termination_conditions"; "pulse_generator"; "disp_conv_msg"; "iteration_steps";
        "record_iteration_steps"; "alg"; "alg_params"; "method"; "method_params"; "method_options"; "approx_grad";
        "amp_lbound"; "amp_ubound"; "bounds"; "num_iter"; "num_fid_func_calls"; "num_grad_func_calls"; "stats";
        "wall_time_optim_start"; "dump_to_file"; "dump"; "iter_summary"] ++ [Apply].
(** pulsegen.py:157-185. *)
Definition pg_reset : list stmt :=
  sets ["num_tslots"; "pulse_time"; "scaling"; "offset"; "tau"; "log_level"; "_uses_time"; "time"; "_pulse_initialised";
        "periodic"; "random"; "lbound"; "ubound"; "ramping_pulse"] ++ [Apply].
(** pulsegen.py:997-1020. *)
Definition crab_reset : list stmt :=
  pg_reset ++
  sets ["NUM_COEFFS_WARN_LVL"; "DEF_NUM_COEFFS"; "_BSC_ALL"; "_BSC_GT_MEAN"; "_BSC_LT_MEAN"; "_uses_time"; "time";
        "num_basis_funcs"; "num_optim_vars"; "coeffs"; "randomize_coeffs"; "_num_coeffs_estimated"; "guess_pulse_action";
        "guess_pulse"; "guess_pulse_func"] ++ [Apply].

(** What each constructor does after storing its arguments. *)
Definition program (c : cls) : list stmt :=
  match c with
  | DynBase => dyn_reset
  | DynGenMat => dyn_reset ++ sets ["id_text"] ++ [Apply]                       (* dynamics.py:1508-1511 *)
  | DynUnitary => dyn_reset ++                                                  (* dynamics.py:1538-1546 *)
      sets ["id_text"; "drift_ham"; "ctrl_ham"; "H"; "_dyn_gen_phase"; "_phase_application"] ++ [Apply]
  | DynSymplectic => dyn_reset ++                                               (* dynamics.py:1749-1756 *)
      sets ["id_text"; "_omega"; "_omega_qobj"; "_phase_application"; "grad_exact"] ++ [Apply]
  | FidBase => fid_reset false
  | FidUnitary => fid_reset true ++                                             (* fidcomp.py:283-288, 320-340 *)
      sets ["id_text"; "uses_onto_evo"; "_phase_option"; "fid_norm_func"; "grad_norm_func"] ++ [Apply]
  | FidTraceDiff => fid_reset false ++                                          (* fidcomp.py:568-578 *)
      sets ["id_text"; "scale_factor"; "uses_onwd_evo"] ++ [Check "exact gradient"; Apply]
  | FidTraceDiffApprox => fid_reset false ++                                    (* fidcomp.py:732-738 *)
      sets ["id_text"; "uses_onwd_evo"; "scale_factor"; "epsilon"] ++ [Apply]
  | PropBase => prop_reset
  | PropApproxGrad | PropDiag | PropAugMat | PropFrechet =>                     (* propcomp.py:180-187, 216-223, 321-325, 393-397 *)
      prop_reset ++ sets ["id_text"; "grad_exact"] ++ [Apply]
  | TslotUpdateAll => tslot_reset ++ sets ["id_text"] ++ [Apply]                (* tslotcomp.py:165-168 *)
  | TslotDynUpdate =>                                                           (* tslotcomp.py:390-401 *)
      sets ["dyn_gen_recalc"; "prop_recalc"; "evo_init2t_recalc"; "evo_t2targ_recalc"; "dyn_gen_calc_now"; "prop_calc_now";
            "evo_init2t_calc_now"; "evo_t2targ_calc_now"] ++ tslot_reset ++ sets ["id_text"] ++ [Apply]
  | OptBase => opt_reset
  | OptBFGS => opt_reset ++ sets ["id_text"]                                    (* optimizer.py:804-806 *)
  | OptLBFGSB => opt_reset ++ sets ["id_text"; "max_metric_corr"]               (* optimizer.py:907-910 *)
  | OptCrab => opt_reset ++ sets ["id_text"; "num_optim_vars"]                  (* optimizer.py:1059-1062 *)
  | OptCrabFmin => opt_reset ++ sets ["id_text"; "num_optim_vars"] ++           (* optimizer.py:1191-1195 *)
      sets ["id_text"; "xtol"; "ftol"]
  | PgBase => pg_reset                                                          (* also PulseGenZero *)
  | PgRandom => pg_reset ++ sets ["random"] ++ [Apply]                          (* pulsegen.py:318-321 *)
  | PgRndFourier => pg_reset ++ sets ["random"; "_uses_time"; "min_wavelen"] ++ [Apply]        (* 354-365 *)
  | PgRndWaves => pg_reset ++                                                   (* 434-450 *)
      sets ["random"; "_uses_time"; "num_comp_waves"; "min_wavelen"; "max_wavelen"] ++ [Apply]
  | PgRndWalk1 => pg_reset ++ sets ["random"; "max_d_amp"] ++ [Apply]           (* 518-525 *)
  | PgRndWalk2 => pg_reset ++ sets ["random"; "max_d2_amp"] ++ [Apply]          (* 567-574 *)
  | PgLinear => pg_reset ++ sets ["gradient"; "start_val"; "end_val"] ++ [Apply]               (* 624-633 *)
  | PgPeriodic => pg_reset ++                                                   (* 701-711; sine, square, saw, triangle *)
      sets ["periodic"; "num_waves"; "freq"; "wavelen"; "start_phase"] ++ [Apply]
  | PgGaussian => pg_reset ++ sets ["_uses_time"; "mean"; "variance"] ++ [Apply]               (* 881-889 *)
  | PgGaussianEdge => pg_reset ++ sets ["_uses_time"; "decay_time"] ++ [Apply]  (* 931-938 *)
  | PgCrab => crab_reset
  | PgCrabFourier fix_freqs => crab_reset ++ sets ["freqs"; "randomize_freqs"] ++              (* 1250-1263 *)
      sets ["fix_freqs"] ++ (if fix_freqs then [] else [Incr "num_basis_funcs"])
  end.

Section Run.
(** The values of the right-hand sides (by the number of statements still to
    come), whether a check passes, and the
    properties of the class that have setters (or none: then the setter raises
    AttributeError). *)
Variable ev : nat -> val.
Variable check : string -> bool.
Variable setter : string -> option (val -> dict -> Res dict).

Definition exec (n : nat) (s : stmt) (o : dict) : Res dict :=
  match s with
  | Set_ k => setattr setter k (ev n) o
  | Apply => apply_params setter VNone o
  | Check w => if check w then Ok o else Raise UsageError
  | Incr k => v <- getattr o k;; match v with VNum x => setattr setter k (VNum (x + 1)) o | _ => Raise TypeError end
  end.
Fixpoint exec_all (l : list stmt) (o : dict) : Res dict :=
  match l with
  | [] => Ok o
  | s :: l' => o <- exec (List.length l') s o;; exec_all l' o
  end.
(** dynamics.py:346-349, fidcomp.py:133-136, propcomp.py:72-75,
    tslotcomp.py:85-92, optimizer.py:239-244, pulsegen.py:152-155 and 990-995:
    [args] are the other arguments, stored under their names. *)
Definition construct (c : cls) (args : dict) (params : val) : Res dict :=
  exec_all (program c) (dset "params" params args).
End Run.
