{
 "claims": [
  {
   "property": "C01",
   "status": "proved",
   "theorems": [
    "C01_forward_evolution"
   ],
   "note": "Every history of calls, every caching option, every operator algebra; unbounded number of slots."
  },
  {
   "property": "C02",
   "status": "partial",
   "theorems": [
    "C02_onto_composes",
    "C02_onwd_composes_partial",
    "C02_onwd_qobj_refuted"
   ],
   "note": "Onto-target part and ndarray onward part proved. For Qobj operators the public onwd_evo returns the forward list (dynamics.py:1387-1388): refuted with a witness."
  },
  {
   "property": "C03",
   "status": "proved",
   "theorems": [
    "C03_fid_err_not_stale",
    "C03_fidelity_not_stale",
    "C03_gradient_not_stale",
    "C03_gradient_value"
   ],
   "note": "All histories of update/compute/fidelity/gradient calls, equal to a fresh object's answer."
  },
  {
   "property": "C04",
   "status": "partial",
   "theorems": [
    "C04_phase_option_refuted",
    "C04_tau_refuted",
    "C04_in_place_refuted",
    "C04_assign_and_initialise_partial"
   ],
   "note": "False of the code: phase_option, tau and in-place changes leave a stale value (three refutations with witnesses). Proved part: assigning settings then re-initialising gives the fresh answer."
  },
  {
   "property": "C05",
   "status": "proved",
   "theorems": [
    "C05_update_exact",
    "C05_first_update"
   ],
   "note": "Counts are specified by independent counting functions."
  },
  {
   "property": "C06",
   "status": "proved",
   "theorems": [
    "C06_recompute_once",
    "C06_repeated_query"
   ],
   "note": "Counters over all histories."
  },
  {
   "property": "C07",
   "status": "proved",
   "theorems": [
    "C07_consistent",
    "C07_explicit_kept",
    "C07_equal_slots",
    "C07_before_reading",
    "C07_zero_slots"
   ],
   "note": "All histories of assignments and reads; zero slots excluded in the statement and shown to be a real exception."
  },
  {
   "property": "C08",
   "status": "proved",
   "theorems": [
    "C08_generator"
   ],
   "note": ""
  },
  {
   "property": "C09",
   "status": "proved",
   "theorems": [
    "C09_caching_irrelevant",
    "C09_memory_level"
   ],
   "note": "Both the flag-independence of results and the memory-level derivation."
  },
  {
   "property": "C10",
   "status": "partial",
   "theorems": [
    "C10_reinitialise_partial",
    "C10_num_ctrls_refuted",
    "C10_drift_ham_refuted",
    "C10_cache_off_refuted",
    "C10_memory_level_refuted"
   ],
   "note": "Proved for every second problem meeting may_follow; refuted for changed number of controls, changed drift_ham, switching caches off and memory_optimization, which the code memoises."
  },
  {
   "property": "C11",
   "status": "proved",
   "theorems": [
    "C11_trace_gradient"
   ],
   "note": "Complex matrices of every size, every history, exact propagator computers. Numerical routines (expm, expm_frechet) are oracles assumed exact; real arithmetic."
  },
  {
   "property": "C12",
   "status": "proved",
   "theorems": [
    "C12_unitary_gradient"
   ],
   "note": "SU and PSU with non-zero overlap. As C11."
  },
  {
   "property": "C13",
   "status": "partial",
   "theorems": [
    "C13_commuting_partial",
    "C13_one_slot_partial",
    "C13_default_propagators_refuted",
    "C13_order_refuted"
   ],
   "note": "Proved when all operators commute and when there is one time slot: the reported TDAPPROX gradient is then exactly the finite-difference quotient of the reported fidelity error for every entry, weight and step. False in general: refuted for two non-commuting slots (perturbed propagator multiplied on the wrong side), and with the default (non-APPROX) propagator computer the call raises UsageError."
  },
  {
   "property": "C14",
   "status": "proved",
   "theorems": [
    "C14_psu_target_phase",
    "C14_psu_evolution_phase",
    "C14_psu_normalised",
    "C14_su_normalised"
   ],
   "note": "Phase of the target and of the evolution (through the initial operator), ranges, and fidelity 1 exactly when equal (up to phase)."
  },
  {
   "property": "C15",
   "status": "proved",
   "theorems": [
    "C15_trace_distance"
   ],
   "note": ""
  },
  {
   "property": "C16",
   "status": "proved",
   "theorems": [
    "C16_diag_unitary"
   ],
   "note": "C58 is the same for every exact propagator computer."
  },
  {
   "property": "C17",
   "status": "proved",
   "theorems": [
    "C17_prop_gradient",
    "C17_rounding_error",
    "C17_threshold_matters"
   ],
   "note": "Exact when different phases are at least fact_mat_round_prec apart (equal ones included); otherwise the error of each entry is bounded by the threshold (C17_rounding_error). C17_threshold_matters: for every threshold some problem meets it, so the qualification in the statement is needed."
  },
  {
   "property": "C18",
   "status": "proved",
   "theorems": [
    "C18_omega",
    "C18_generators",
    "C18_products",
    "C18_evolution"
   ],
   "note": "omega is the standard form J; generators J*S are infinitesimally symplectic for symmetric S; propagators, products and the whole evolution of DynamicsSymplectic are symplectic for every pulse"
  },
  {
   "property": "C19",
   "status": "proved",
   "theorems": [
    "C19_round_trip",
    "C19_position",
    "C19_bounds",
    "C19_bounds_built"
   ],
   "note": "Round trip both ways, position of every amplitude and of every bound, for all sizes."
  },
  {
   "property": "C20",
   "status": "partial",
   "theorems": [
    "C20_bounds_honoured_partial",
    "C20_lbfgsb_refuted",
    "C20_bfgs_refuted"
   ],
   "note": "Holds for the base and CRAB classes; refuted with witnesses for OptimizerLBFGSB (always rebuilds, optimizer.py:973) and OptimizerBFGS (passes none)."
  },
  {
   "property": "C21",
   "status": "partial",
   "theorems": [
    "C21_grad_norm_refuted",
    "C21_run_ends",
    "C21_coherent_result",
    "C21_grad_norm_partial"
   ],
   "note": "Coherence of final_amps, fid_err, evo_full_final and the object, for every minimiser behaviour and every earlier history, is proved. grad_norm_final belongs to the last gradient evaluation, not to final_amps: refuted, exact value given in the _partial theorem."
  },
  {
   "property": "C22",
   "status": "partial",
   "theorems": [
    "C22_reason_refuted",
    "C22_grad_flag_refuted",
    "C22_goal_flag",
    "C22_stopped_flags",
    "C22_flags_partial"
   ],
   "note": "Goal flag, stopping at the target, and all flags of runs stopped by a rule are proved. Refuted: BFGS leaves 'not started yet'; LBFGSB/BFGS set grad_norm_min_reached without the limit being crossed."
  },
  {
   "property": "C23",
   "status": "partial",
   "theorems": [
    "C23_limit_refuted",
    "C23_stats_refuted",
    "C23_counts_exact",
    "C23_stats_iterations_partial"
   ],
   "note": "Counts are exact (result and statistics) and at most max+1; refuted: the limit is exceeded by one, and the iteration count in the statistics differs from the result."
  },
  {
   "property": "C24",
   "status": "partial",
   "theorems": [
    "C24_calls",
    "C24_stored",
    "C24_recorded",
    "C24_recorded_during",
    "C24_returned",
    "C24_crab_start",
    "C24_x0_refuted",
    "C24_returned_refuted"
   ],
   "note": "Proved for every interleaving of wrapper calls and writes into any vector the minimiser made itself or was given as a gradient, over any sequence of earlier runs: errors, gradients, stored amplitudes, recorded initial and final amplitudes. With CRAB also for the vector the minimiser starts from. Refuted: for the other optimisers the start vector is a view of the stored amplitudes, so a minimiser that overwrites it changes them unnoticed; and the vector returned is kept without a copy, so the recorded final amplitudes change if it is used again."
  },
  {
   "property": "C25",
   "status": "partial",
   "theorems": [
    "C25_dispatch",
    "C25_options",
    "C25_run",
    "C25_lbfgsb_args",
    "C25_maxiter_refuted",
    "C25_second_run_refuted"
   ],
   "note": "Proved: dispatch of method parameters, the options dictionary of a first run (explicit options win, defaults from the termination conditions), the arguments of fmin_l_bfgs_b. Refuted: the fixed-signature routines ignore an explicit maxiter; a second run keeps the first run's limits."
  },
  {
   "property": "C26",
   "status": "partial",
   "theorems": [
    "C26_goal_ignored_refuted",
    "C26_target",
    "C26_default"
   ],
   "note": "Which target is used is proved for every combination; refuted: fid_goal alone is ignored because fid_err_targ has a default."
  },
  {
   "property": "C27",
   "status": "proved",
   "theorems": [
    "C27_within_bounds",
    "C27_finite",
    "C27_infinite_amplitudes",
    "C27_list_bounds"
   ],
   "note": "For every standard generator and any raw pulse; infinite bounds included. C27_infinite_amplitudes and C27_list_bounds record two surprising consequences of the code."
  },
  {
   "property": "C28",
   "status": "proved",
   "theorems": [
    "C28_within_bounds",
    "C28_uninitialised"
   ],
   "note": "For every coefficient vector, history of attribute changes and further initialisations after the first init_pulse; bounds must be ordered and the guess and ramping pulses finite. Values are real numbers, not IEEE floats."
  },
  {
   "property": "C29",
   "status": "partial",
   "theorems": [
    "C29_bounds_partial",
    "C29_zero_refuted",
    "C29_array_refuted"
   ],
   "note": "For each control, the amplitude bounds reach its CRAB pulse generator, for absent, non-zero numeric and list bounds (the last element repeated). Refuted for the bound 0 (dropped) and for numpy arrays (rejected)."
  },
  {
   "property": "C30",
   "status": "proved",
   "theorems": [
    "C30_concatenation",
    "C30_partition",
    "C30_round_trip",
    "C30_short",
    "C30_other_slots",
    "C30_coding"
   ],
   "note": "C30_coding connects CRAB to the run theorems C19-C23 and C26."
  },
  {
   "property": "C31",
   "status": "proved",
   "theorems": [
    "C31_waveform",
    "C31_shapes",
    "C31_succeeds"
   ],
   "note": "Value in every slot as a point of the cycle, range, shapes, and success of the call."
  },
  {
   "property": "C32",
   "status": "partial",
   "theorems": [
    "C32_walk1",
    "C32_walk2_partial",
    "C32_walk2_scaled_refuted"
   ],
   "note": "RNDWALK1 proved in full. RNDWALK2: second differences are bounded by max_d2_amp, not by scaling*max_d2_amp as documented; C32_walk2_scaled_refuted gives a witness."
  },
  {
   "property": "C33",
   "status": "partial",
   "theorems": [
    "C33_interpolates",
    "C33_on_dynamics",
    "C33_gradient_refuted",
    "C33_one_slot"
   ],
   "note": "Interpolation proved for every division. The clause about gradient and start value is false of the code (C33_gradient_refuted); one slot gives nan."
  },
  {
   "property": "C34",
   "status": "partial",
   "theorems": [
    "C34_wavelength",
    "C34_idempotent_partial",
    "C34_refuted"
   ],
   "note": "wavelen*freq = 1 always; num_waves and idempotence hold when num_waves is given and are false otherwise (C34_refuted)."
  },
  {
   "property": "C35",
   "status": "partial",
   "theorems": [
    "C35_terminates",
    "C35_bounded_by_scaling_refuted"
   ],
   "note": "Termination and the components proved; the bound is sqrt 8 * scaling, and the bound by scaling is refuted."
  },
  {
   "property": "C36",
   "status": "partial",
   "theorems": [
    "C36_params_partial",
    "C36_freqs_refuted",
    "C36_works",
    "C36_construct",
    "C36_reset",
    "C36_reset_refuted"
   ],
   "note": "False as stated (C36_freqs_refuted, C36_reset_refuted). Proved: every other attribute given through the dictionary holds after construction (C36_params_partial); construction followed by init_pulse and gen_pulse works for every sensible dictionary (C36_construct); after reset it works exactly when the dictionary leaves enough columns, and otherwise gen_pulse raises IndexError (C36_reset)."
  },
  {
   "property": "C37",
   "status": "partial",
   "theorems": [
    "C37_limits_partial",
    "C37_start_refuted",
    "C37_array_start_rejected"
   ],
   "note": "Proved for both functions: with u_limits [lo, hi], lo <= hi, every amplitude of every iteration r >= 1 lies in the limits, and so does u[0] when zero lies in the limits or the control has a row in a list-of-lists start pulse. Refuted: without u_start the returned u[0] is zero whatever the limits (C37_start_refuted); a numpy-array start pulse together with limits is always rejected with ValueError (C37_array_start_rejected)."
  },
  {
   "property": "C38",
   "status": "partial",
   "theorems": [
    "C38_previous_partial",
    "C38_last_refuted",
    "C38_single_refuted"
   ],
   "note": "Refuted as stated: U_f is proved to be the ordered product of the slot propagators of u[-2], while H_t is built from u[-1]; C38_last_refuted gives a run where they differ, and with R <= 1 nothing is returned (UnboundLocalError)."
  },
  {
   "property": "C39",
   "status": "partial",
   "theorems": [
    "C39_agree_partial",
    "C39_beta_refuted",
    "C39_alpha_refuted"
   ],
   "note": "Equal results (pulses, unitary, Hamiltonian, exceptions) proved when alpha is not negative and beta is 0/None or the grid has at most 3 points. Refuted otherwise: the python penalty is linear in m, the Cython one quadratic, and the Cython one ignores negative alpha."
  },
  {
   "property": "C40",
   "status": "partial",
   "theorems": [
    "C40_interpolated",
    "C40_lists",
    "C40_python",
    "C40_cython",
    "C40_gradient_partial",
    "C40_gradient_refuted"
   ],
   "note": "Forward/backward lists proved to be the ordered products for every matrix system; every update proved to be eps times the derivative of the figure of merit under a short extra pulse after the slot (first-order change), less the penalties, then limited. This is the gradient with respect to the amplitude when the control commutes with the slot Hamiltonian (C40_gradient_partial); C40_gradient_refuted: a qubit on which the direction is 0 although the gradient is 1."
  },
  {
   "property": "C41",
   "status": "partial",
   "theorems": [
    "C41_kept_partial",
    "C41_unitary_refuted",
    "C41_beta_refuted",
    "C41_interp_refuted"
   ],
   "note": "Proved for every dimension, control set and step table: the overlaps recorded as accepted never fall below the best so far (C41_kept_partial). Refuted: the returned U_f is the evolution of the last, possibly rejected, iteration (C41_unitary_refuted); any beta raises (C41_beta_refuted); use_interp always raises (C41_interp_refuted)."
  },
  {
   "property": "C42",
   "status": "partial",
   "theorems": [
    "C42_optim_reports",
    "C42_optim_assign_partial",
    "C42_optim_reject",
    "C42_optim_custom_refuted",
    "C42_optim_custom_partial",
    "C42_optim_switches",
    "C42_dynamics_reports",
    "C42_dynamics_assign_partial",
    "C42_dynamics_reject",
    "C42_dynamics_custom_refuted",
    "C42_dynamics_custom_partial",
    "C42_dynamics_full_refuted"
   ],
   "note": "Proved for NONE, SUMMARY, FULL in any case from any state, for reading levels and for rejected values. Refuted: CUSTOM can never be assigned through dumping (ValueError); FULL without a fidelity computer fails half way."
  },
  {
   "property": "C43",
   "status": "partial",
   "theorems": [
    "C43_summary",
    "C43_columns",
    "C43_logs",
    "C43_writeout",
    "C43_log_format_refuted",
    "C43_after_clear_refuted",
    "C43_rename_refuted",
    "C43_dynamics"
   ],
   "note": "Proved: the summary table, the logs, the gradient files and the final writeout for any calls; the same for the dynamics dump. Refuted: logs are reformatted by writeout, a clear leaves the old file, renaming loses the header."
  },
  {
   "property": "C44",
   "status": "partial",
   "theorems": [
    "C44_evolution_partial",
    "C44_files",
    "C44_failed",
    "C44_last_refuted",
    "C44_onto_refuted",
    "C44_subset_refuted"
   ],
   "note": "Proved: with generators dumped and without onward/onto evolutions, the exact labelled contents except the last forward operator. Refuted: the last forward operator is never written, onward/onto sections hold forward operators, subsets without generators raise TypeError."
  },
  {
   "property": "C45",
   "status": "partial",
   "theorems": [
    "C45_calculate",
    "C45_clear",
    "C45_dynamic_partial",
    "C45_dynamic_nan_refuted",
    "C45_dynamic_clear_refuted",
    "C45_counters"
   ],
   "note": "Base class: means, clear and the counters of every history proved. The subclass for partial updates raises ZeroDivisionError where the base reports nan, and its clear keeps its own counters (both refuted theorems)."
  },
  {
   "property": "C46",
   "status": "partial",
   "theorems": [
    "C46_load",
    "C46_missing",
    "C46_types_partial",
    "C46_float_refuted",
    "C46_text_refuted",
    "C46_bad_value",
    "C46_lower_case",
    "C46_case",
    "C46_case_text",
    "C46_booleans"
   ],
   "note": "What is loaded, what is skipped and what raises is proved; the type-preservation claim is proved only for int, bool and list attributes and refuted for float (eval can give a list) and text (numeric text turns into a number)."
  },
  {
   "property": "C47",
   "status": "partial",
   "theorems": [
    "C47_success_partial",
    "C47_keeps",
    "C47_makes_only",
    "C47_file",
    "C47_failure",
    "C47_message",
    "C47_refuted"
   ],
   "note": "Nothing existing is removed or replaced, only directories on the way are made, failures are reported with the directory untouched or with a message: proved. That success means a directory is there is proved without interference and without special files, and refuted for special nodes, dangling links and races."
  },
  {
   "property": "C48",
   "status": "partial",
   "theorems": [
    "C48_unmarked_current",
    "C48_update",
    "C48_slot",
    "C48_all_partial",
    "C48_exceptions",
    "C48_missing_refuted",
    "C48_all_refuted",
    "C48_evolution_refuted"
   ],
   "note": "Proved for every history, also with calls that raised: everything unmarked is current; an accepted update is stored; the slot chosen for the fidelity always exists and its evolutions are current after a recomputation; after flag_all everything but fwd[n] and onto[0] is current; only the computation of a generator or propagator can raise. Refuted: flag_all_calc_now misses two evolutions; compute_evolution does nothing for requests made after a partial recomputation; and as Dynamics lacks compute_dyn_gen (and _compute_propagator) every recomputation for the fidelity raises AttributeError. The two missing methods are parameters of the model."
  },
  {
   "property": "C49",
   "status": "partial",
   "theorems": [
    "C49_fid",
    "C49_prop",
    "C49_tslot",
    "C49_dyn",
    "C49_system",
    "C49_controls",
    "C49_timeslots",
    "C49_optim",
    "C49_limits",
    "C49_method",
    "C49_pulse",
    "C49_crab",
    "C49_optimize_same",
    "C49_tslot_params_refuted",
    "C49_tslot_type_refuted",
    "C49_scale_refuted",
    "C49_init_scaling_refuted",
    "C49_stats",
    "C49_dynamic_stats_refuted"
   ],
   "note": "Every option of the five entry points reaches the object it is for, with explicit dictionary entries winning over deprecated keywords; optimize_pulse equals create_pulse_optimizer. Refuted for tslot_params and tslot_type, for fid_err_scale_factor (overrides an explicit scale_factor), for pulse scaling in init_pulse_params under GRAPE, and for the statistics class under amp_update_mode=DYNAMIC."
  },
  {
   "property": "C50",
   "status": "partial",
   "theorems": [
    "C50_partial",
    "C50_same",
    "C50_refuted"
   ],
   "note": "The callers' dictionaries only ever gain keys that keyword arguments stand for, and are unchanged when no such keyword is given. Unmodified in general is refuted: a phase option put into a shared dictionary overrides that of a later call."
  },
  {
   "property": "C51",
   "status": "partial",
   "theorems": [
    "C51_selected",
    "C51_total",
    "C51_case_refuted",
    "C51_td_approx_refuted"
   ],
   "note": "Classes are selected per the documented tables with defaults; for textual options the outcome is an object exactly for documented options, UsageError or ValueError otherwise. Refuted: mixed-case CRAB passes creation and fails in optimize_pulse; documented TD_APPROX is never accepted."
  },
  {
   "property": "C52",
   "status": "partial",
   "theorems": [
    "C52_effect_partial",
    "C52_effect",
    "C52_overwritten_refuted",
    "C52_named_refuted"
   ],
   "note": "Proved: every plain attribute of every class except an explicit list holds the parameter's value, and 24 classes have no exceptions. Refuted: the listed attributes (max_metric_corr, xtol, ftol, randomize_freqs, fix_freqs, ...) hold a fixed value whatever the parameters say. Attributes behind property setters are outside."
  },
  {
   "property": "C53",
   "status": "partial",
   "theorems": [
    "C53_bounds_current_partial",
    "C53_second_run_refuted"
   ],
   "note": "Proved for LBFGSB and for a first run; refuted for a second run of the base class."
  },
  {
   "property": "C54",
   "status": "partial",
   "theorems": [
    "C54_gaussian",
    "C54_range",
    "C54_zero_mean_refuted"
   ],
   "note": "Formula and range proved for non-zero arguments and for the attributes; a mean of 0 given to gen_pulse is ignored (C54_zero_mean_refuted)."
  },
  {
   "property": "C55",
   "status": "proved",
   "theorems": [
    "C55_edge",
    "C55_range",
    "C55_start_below_zero"
   ],
   "note": "Formula, symmetric by its form, and range; the pulse starts below zero."
  },
  {
   "property": "C56",
   "status": "proved",
   "theorems": [
    "C56_components",
    "C56_checks"
   ],
   "note": ""
  },
  {
   "property": "C57",
   "status": "proved",
   "theorems": [
    "C57_formula",
    "C57_start"
   ],
   "note": ""
  },
  {
   "property": "C58",
   "status": "proved",
   "theorems": [
    "C58_unitary_evolution"
   ],
   "note": ""
  },
  {
   "property": "C59",
   "status": "partial",
   "theorems": [
    "C59_always_symplectic",
    "C59_documented_partial",
    "C59_read_first_refuted",
    "C59_capitals_refuted",
    "C59_resize_refuted"
   ],
   "note": "positive: the phase is always + or - omega of the drift size and the documented one when nothing is read before the last assignment; refuted: reading dyn_gen_phase first freezes the old sign, capitals are accepted then rejected at init, omega is not resized with the drift"
  },
  {
   "property": "C60",
   "status": "proved",
   "theorems": [
    "C60_aligned"
   ],
   "note": "For values whose formatted text is not longer than the column; the width is read back from the format specification."
  },
  {
   "property": "C61",
   "status": "proved",
   "theorems": [
    "C61_links",
    "C61_one_each",
    "C61_cleared"
   ],
   "note": "Invariant over all histories of evolutions, switch changes and clears; after a clear only later evolutions are stored."
  },
  {
   "property": "C62",
   "status": "proved",
   "theorems": [
    "C62_work",
    "C62_marks",
    "C62_counted",
    "C62_counted_first",
    "C62_idle"
   ],
   "note": "For the counters kept by the code; every theorem ranges over all histories, failing calls included. The bound assumes at least one control."
  },
  {
   "property": "C63",
   "status": "partial",
   "theorems": [
    "C63_fresh_partial",
    "C63_reinit",
    "C63_refuted"
   ],
   "note": "Refuted: an array changed in place and passed to update_ctrl_amps again is compared with itself and the old error is returned. Proved for every history in which the user does not write into the array given last or into the returned gradient; initialize_controls always takes the current values."
  },
  {
   "property": "C64",
   "status": "partial",
   "theorems": [
    "C64_accepted",
    "C64_used_partial",
    "C64_foreign_partial",
    "C64_exceptions",
    "C64_drift",
    "C64_rows_refuted",
    "C64_foreign_refuted"
   ],
   "note": "Refuted in two corners: a row of one operator among longer rows is stretched by broadcasting (C64_rows_refuted), and after an empty first row values that are no operators are dropped (C64_foreign_refuted). Elsewhere accepted means one of the documented forms, used as given. What numpy does when a single object is assigned to a row is left open."
  },
  {
   "property": "C65",
   "status": "proved",
   "theorems": [
    "C65_saved",
    "C65_given",
    "C65_without_times",
    "C65_safe",
    "C65_misfit",
    "C65_one_time",
    "C65_initial_final"
   ],
   "note": "For every table, slot division and file-system behaviour. A failed write is only logged, as documented. A single time given for several rows is repeated on every line (C65_one_time)."
  },
  {
   "property": "C66",
   "status": "partial",
   "theorems": [
    "C66_warned",
    "C66_no_false_alarm",
    "C66_recompute",
    "C66_details",
    "C66_details_logged",
    "C66_others_partial",
    "C66_others_refuted",
    "C66_class_refuted",
    "C66_tolerance_refuted"
   ],
   "note": "Exact for the tolerance tol + 1e-5 |entry| that np.allclose really applies; refuted for the tolerance the user sets (C66_tolerance_refuted), for propagator computers other than PropCompDiag (TypeError, C66_others_refuted) and for dynamics classes other than DynamicsUnitary (AttributeError, C66_class_refuted)."
  },
  {
   "property": "C67",
   "status": "partial",
   "theorems": [
    "C67_stop",
    "C67_target",
    "C67_pulse_refuted"
   ],
   "note": "The stopping iteration is exact (C67_stop) and the returned unitary is above the target (C67_target). Refuted for the pulse: H_t and u are those of the iteration before the one that reached the target (C67_pulse_refuted)."
  },
  {
   "property": "C68",
   "status": "proved",
   "theorems": [
    "C68_objective",
    "C68_start",
    "C68_start_any",
    "C68_gradient"
   ],
   "note": "For any history, any minimiser and any coding of the variables (GRAPE, CRAB) the value is the error a new object reports (C68_objective); for matrix systems of any size and exact propagator computers GRAPE hands over its partial derivatives (C68_gradient), away from the points where C11/C12 exclude differentiability."
  },
  {
   "property": "C69",
   "status": "proved",
   "theorems": [
    "C69_same_problem",
    "C69_same_gradient"
   ],
   "note": "Evolution and error for any algebra whose routines keep their promises; gradient for matrices of any size with exact computers."
  },
  {
   "property": "C70",
   "status": "proved",
   "theorems": [
    "C70_phase_folded"
   ],
   "note": "The new computer is not the diagonalising one (it needs Hermitian generators). If the class changes, the unitary figure of merit needs an isometric target, since the classes undo the target differently."
  },
  {
   "property": "C71",
   "status": "proved",
   "theorems": [
    "C71_time_units"
   ],
   "note": ""
  },
  {
   "property": "C72",
   "status": "proved",
   "theorems": [
    "C72_cut_slots",
    "C72_cut_gradient"
   ],
   "note": "The gradient part needs an exact computer."
  },
  {
   "property": "C73",
   "status": "proved",
   "theorems": [
    "C73_reordered",
    "C73_unused"
   ],
   "note": ""
  },
  {
   "property": "C74",
   "status": "proved",
   "theorems": [
    "C74_basis"
   ],
   "note": "For the unitary figure of merit in a class other than DynamicsUnitary with a square target: inverse exact, target an isometry."
  },
  {
   "property": "C75",
   "status": "proved",
   "theorems": [
    "C75_energy_shift"
   ],
   "note": "Gradient away from overlap zero, where the PSU error has no derivative."
  },
  {
   "property": "C76",
   "status": "proved",
   "theorems": [
    "C76_conserved",
    "C76_stationary",
    "C76_carried"
   ],
   "note": "Conserved: annihilated from the left by the quantity; a map may also lead to a problem of another dimension."
  },
  {
   "property": "C77",
   "status": "proved",
   "theorems": [
    "C77_backwards"
   ],
   "note": "For every class, phase and propagator computer; exact exponentials."
  },
  {
   "property": "C78",
   "status": "proved",
   "theorems": [
    "C78_joined"
   ],
   "note": "The second problem may differ in operators and durations; same class, propagator computer, phase, target and figure of merit."
  },
  {
   "property": "C79",
   "status": "proved",
   "theorems": [
    "C79_superposition",
    "C79_combined",
    "C79_columns"
   ],
   "note": "Sums of errors and gradients for the trace difference figure of merit (the unitary one is not additive)."
  },
  {
   "property": "C80",
   "status": "proved",
   "theorems": [
    "C80_pulse",
    "C80_model",
    "C80_timing"
   ],
   "note": "Hamiltonian problems; bounds of operators are stretch bounds (the Frobenius size is one)."
  },
  {
   "property": "C81",
   "status": "proved",
   "theorems": [
    "C81_slope"
   ],
   "note": "Gradients of the exact computers (not PropCompApproxGrad; phases separated for the diagonalising one)."
  },
  {
   "property": "C82",
   "status": "partial",
   "theorems": [
    "C82_same",
    "C82_interrupted",
    "C82_window",
    "C82_torn",
    "C82_repair",
    "C82_norm",
    "C82_repeat_refuted",
    "C82_norm_refuted"
   ],
   "note": "Proved for every interruption outside the window of update_ctrl_amps between storing the new amplitudes and clearing the last flag. Inside it the claim is false for every problem and change: the same update repeated answers for the old amplitudes (C82_torn, C82_repeat_refuted); a complete update to other amplitudes repairs (C82_repair). grad_norm can stay stale after an interrupted gradient query (C82_norm, C82_norm_refuted)."
  },
  {
   "property": "C83",
   "status": "proved",
   "theorems": [
    "C83_value",
    "C83_order",
    "C83_phase"
   ],
   "note": "For the exact routines; the approximate gradient computer included, as it only changes gradients. C83_phase is for the unitary dynamics class."
  },
  {
   "property": "C84",
   "status": "proved",
   "theorems": [
    "C84_areas"
   ],
   "note": "For constant drift and controls (given as such or per timeslot)."
  },
  {
   "property": "C85",
   "status": "proved",
   "theorems": [
    "C85_reach",
    "C85_needed"
   ],
   "note": "Bounds are on the Hamiltonians; error_limit is e for the unitary figures and 4 q |scale| e for the trace difference."
  },
  {
   "property": "C86",
   "status": "partial",
   "theorems": [
    "C86_explicit",
    "C86_flags",
    "C86_dtype",
    "C86_first_slot",
    "C86_dense",
    "C86_refused",
    "C86_sticky",
    "C86_stuck_refuted",
    "C86_unstuck",
    "C86_results"
   ],
   "note": "All but the last part is proved. A later change of level has no effect: the first initialisation turns the choices into assigned options (C86_sticky), so a level refused for a small system stays refused after it is lowered (C86_stuck_refuted) until sparse_eigen_decomp is set to False (C86_unstuck)."
  },
  {
   "property": "C87",
   "status": "partial",
   "theorems": [
    "C87_values",
    "C87_in_force",
    "C87_shown_partial",
    "C87_shown_refuted"
   ],
   "note": "A refused value is shown although the former figure stays in force (C87_shown_refuted); everything else is proved."
  },
  {
   "property": "C88",
   "status": "partial",
   "theorems": [
    "C88_dir",
    "C88_first_partial",
    "C88_renamed_partial",
    "C88_gradients",
    "C88_moved_refuted",
    "C88_off"
   ],
   "note": "Proved for the first entry of each log, the first summary entry after a new base, and gradient files; later entries of a log go where its first entry went, whatever is assigned since (C88_moved_refuted)."
  },
  {
   "property": "C89",
   "status": "partial",
   "theorems": [
    "C89_later",
    "C89_files",
    "C89_stops",
    "C89_stream",
    "C89_mixed_refuted"
   ],
   "note": "Everything but the last sentence is proved, writing on the way for histories without clear(). After clear() the numbers start again and a file of a kind no longer switched on still holds a forgotten evolution (C89_mixed_refuted)."
  },
  {
   "property": "C90",
   "status": "partial",
   "theorems": [
    "C90_quiet",
    "C90_answers",
    "C90_exactly",
    "C90_harmless",
    "C90_intense",
    "C90_debug",
    "C90_intense_refuted",
    "C90_debug_refuted",
    "C90_start",
    "C90_message_constant",
    "C90_message_rows",
    "C90_message_refuted"
   ],
   "note": "Proved: the same values and states whenever a call returns (C90_answers), nothing changes above DEBUG / DEBUG_INTENSE (C90_quiet), and exactly which histories end in an extra exception (C90_exactly). False in three places: the propagator message at DEBUG_INTENSE reads an attribute that does not exist (C90_intense_refuted); DEBUG switches the unitarity check on, which fails on a non-unitary propagator without a diagonalisation (C90_debug_refuted); the configuration message at INFO takes slots for controls (C90_message_refuted)."
  },
  {
   "property": "C91",
   "status": "partial",
   "theorems": [
    "C91_kind",
    "C91_one_class",
    "C91_given",
    "C91_default",
    "C91_given_refuted",
    "C91_reset",
    "C91_apply",
    "C91_free_frequencies",
    "C91_reset_refuted",
    "C91_later_time_refuted"
   ],
   "note": "Proved for every type, parameter list and state, except: CRAB_FOURIER ignores the parameters randomize_freqs and fix_freqs (C91_given_refuted); reset() of a generator with free frequencies forgets the extra basis function (C91_reset_refuted); defaults depending on the duration do not follow a later assignment (C91_later_time_refuted)."
  }
 ]
}