{"id": "C01", "title": "Forward evolution is the time-ordered product", "statement": "After the evolution has been computed for some control amplitudes, dynamics.fwd_evo[k] is the product prop[k-1]*...*prop[0]*initial for every k in 0..num_tslots, so full_evo is the whole time-ordered product applied to the initial operator, whatever the caching and memory options.", "quantifier": "every number of timeslots, every list of per-slot propagators, every initial operator (square or state vector), every previous content of the evolution buffers", "why_tests_cant": "tests only sample a few slot counts and commuting or tiny systems; an off-by-one or a swapped operand can be invisible there", "anchors": ["src/qutip_qtrl/tslotcomp.py:TSlotCompUpdateAll.recompute_evolution", "src/qutip_qtrl/dynamics.py:Dynamics.fwd_evo", "src/qutip_qtrl/dynamics.py:Dynamics.full_evo"]}
{"id": "C02", "title": "Onward and onto-target evolutions compose with the forward evolution at every slot", "statement": "After the evolution has been computed, onwd_evo[k] is prop[n-1]*...*prop[k], onto_evo[k] is (target adjoint)*prop[n-1]*...*prop[k], and therefore onwd_evo[k]*fwd_evo[k] is the full evolution and onto_evo[k]*fwd_evo[k] is the same overlap operator for every timeslot k: the fidelity does not depend on the slot at which it is evaluated.", "quantifier": "every number of timeslots >= 1, every slot index, every propagator list and target", "why_tests_cant": "the identity quantifies over all slots and all operator values; tests compare only the final fidelity", "anchors": ["src/qutip_qtrl/tslotcomp.py:TSlotCompUpdateAll.recompute_evolution", "src/qutip_qtrl/tslotcomp.py:_get_timeslot_for_fidelity_calc", "src/qutip_qtrl/fidcomp.py:FidCompUnitary.get_fidelity_prenorm"]}
{"id": "C03", "title": "Fidelity error and gradient are never stale with respect to the amplitudes", "statement": "After any sequence of update_ctrl_amps, compute_evolution, get_fid_err, get_fidelity and get_fid_err_gradient calls on an initialised Dynamics, the value returned by get_fid_err / get_fid_err_gradient (and the value held in grad_norm after a gradient call) is exactly what a freshly initialised object would return for the amplitudes passed to the last update_ctrl_amps.", "quantifier": "every finite history of those calls, every amplitude array, both fidelity computers", "why_tests_cant": "staleness bugs need a particular interleaving of updates and queries; the space of histories is unbounded", "anchors": ["src/qutip_qtrl/dynamics.py:update_ctrl_amps", "src/qutip_qtrl/dynamics.py:compute_evolution", "src/qutip_qtrl/fidcomp.py:flag_system_changed", "src/qutip_qtrl/fidcomp.py:get_fid_err", "src/qutip_qtrl/fidcomp.py:get_fid_err_gradient"]}
{"id": "C04", "title": "Changing a setting the fidelity depends on is reflected by the next query", "statement": "After controls are initialised, assigning phase_option on the fidelity computer, or tau / num_tslots / evo_time on the dynamics, or modifying in place the amplitude array last passed to update_ctrl_amps and passing it again, makes the next get_fid_err return the value for the new setting.", "quantifier": "every such assignment after every history of queries", "why_tests_cant": "tests set options once before initialisation; the failure needs set-query-set-query order", "anchors": ["src/qutip_qtrl/fidcomp.py:FidCompUnitary.phase_option", "src/qutip_qtrl/dynamics.py:tau", "src/qutip_qtrl/dynamics.py:num_tslots", "src/qutip_qtrl/tslotcomp.py:TSlotCompUpdateAll.compare_amps"]}
{"id": "C05", "title": "Amplitude change detection is exact", "statement": "update_ctrl_amps marks the system as changed if and only if at least one amplitude differs from the stored one (or none was stored), it then stores the new amplitudes, and the recorded number of changed amplitudes and changed timeslots are exactly the number of differing entries and of rows with a differing entry; with no difference nothing is invalidated.", "quantifier": "every pair of amplitude arrays of equal shape, every shape", "why_tests_cant": "counts and flags must be right for each of the exponentially many difference patterns", "anchors": ["src/qutip_qtrl/tslotcomp.py:TSlotCompUpdateAll.compare_amps", "src/qutip_qtrl/tslotcomp.py:EvoCompSummary", "src/qutip_qtrl/stats.py:Stats"]}
{"id": "C06", "title": "The evolution is recomputed at most once per amplitude change", "statement": "In any history of updates and queries, the number of evolution recomputations never exceeds the number of updates that changed an amplitude, and repeated queries between two changes cause no recomputation of evolution, fidelity or gradient.", "quantifier": "every history of update and query calls", "why_tests_cant": "a bound over unbounded histories", "anchors": ["src/qutip_qtrl/dynamics.py:compute_evolution", "src/qutip_qtrl/fidcomp.py:get_fid_err", "src/qutip_qtrl/fidcomp.py:get_fid_err_gradient"]}
{"id": "C07", "title": "Timeslot bookkeeping is consistent", "statement": "After any sequence of assignments to num_tslots, evo_time and tau and of reads of them, reading them gives len(tau) = num_tslots, sum(tau) = evo_time, time[0] = 0, time[k+1] = time[k] + tau[k] and time[num_tslots] = evo_time; durations given explicitly are kept unchanged and defaults are 10 slots over 1.0; a zero slot count or an empty tau is the only exception.", "quantifier": "every sequence of assignments and reads with positive slot counts", "why_tests_cant": "setters interact through hidden lazy-initialisation state; only a few orders are tested", "anchors": ["src/qutip_qtrl/dynamics.py:num_tslots", "src/qutip_qtrl/dynamics.py:evo_time", "src/qutip_qtrl/dynamics.py:tau", "src/qutip_qtrl/dynamics.py:init_timeslots"]}
{"id": "C08", "title": "The combined generator is drift plus amplitude-weighted controls", "statement": "For every timeslot k, dyn_gen[k] = drift (or drift[k] if a list is given) + sum over j of ctrl_amps[k,j] * ctrl[j] (or ctrl[k][j] if time dependent), and the propagator is computed from the phased version of exactly that generator and the slot's own duration.", "quantifier": "every number of slots and controls, every amplitude array, both time-dependent and constant drift / controls", "why_tests_cant": "the four combinations times arbitrary sizes; index swaps between slot and control are invisible for square or constant cases", "anchors": ["src/qutip_qtrl/dynamics.py:_combine_dyn_gen", "src/qutip_qtrl/dynamics.py:_get_phased_dyn_gen", "src/qutip_qtrl/dynamics.py:_get_phased_ctrl_dyn_gen", "src/qutip_qtrl/propcomp.py:_compute_propagator"]}
{"id": "C09", "title": "Caching options never change results", "statement": "For one initialisation, fidelity error, gradient, propagators and evolutions are identical whether cache_phased_dyn_gen, cache_prop_grad and cache_dyn_gen_eigenvectors_adj are on or off (memory_optimization level); and the level sets only flags the user left unset.", "quantifier": "every combination of flags, every history of updates and queries", "why_tests_cant": "tests compare a couple of levels on one problem", "anchors": ["src/qutip_qtrl/dynamics.py:_set_memory_optimizations", "src/qutip_qtrl/dynamics.py:_get_prop_grad", "src/qutip_qtrl/dynamics.py:_get_phased_dyn_gen", "src/qutip_qtrl/dynamics.py:_get_phased_ctrl_dyn_gen"]}
{"id": "C10", "title": "Re-initialising picks up the new problem and options", "statement": "Calling initialize_controls again after changing drift, controls, target, or caching options gives the results a newly created object with those settings would give.", "quantifier": "every pair of consecutive configurations", "why_tests_cant": "tests create a new object per configuration", "anchors": ["src/qutip_qtrl/dynamics.py:initialize_controls", "src/qutip_qtrl/dynamics.py:_init_evo", "src/qutip_qtrl/dynamics.py:num_ctrls", "src/qutip_qtrl/dynamics.py:_map_dyn_gen_to_ham", "src/qutip_qtrl/dynamics.py:onto_evo_target"]}
{"id": "C11", "title": "Trace-difference gradient is the derivative of the fidelity error", "statement": "With an exact propagator computer, entry [k,j] of get_fid_err_gradient for the trace-difference computer is the partial derivative of get_fid_err with respect to the amplitude of control j in slot k.", "quantifier": "every dimension, slot count, control count, amplitudes, target, initial operator, scale factor", "why_tests_cant": "a numerical derivative check on a few systems cannot establish the identity", "anchors": ["src/qutip_qtrl/fidcomp.py:FidCompTraceDiff.compute_fid_err_grad", "src/qutip_qtrl/fidcomp.py:FidCompTraceDiff.get_fid_err"]}
{"id": "C12", "title": "Unitary fidelity gradient is the derivative of the fidelity error", "statement": "With an exact propagator computer, entry [k,j] of get_fid_err_gradient for the unitary fidelity computer is the partial derivative of get_fid_err for phase options SU and PSU (PSU wherever the overlap is non-zero), away from fidelity exactly 1.", "quantifier": "every dimension, slot and control count, amplitudes, target and phase option", "why_tests_cant": "as above; sign and phase mistakes show only for particular overlaps", "anchors": ["src/qutip_qtrl/fidcomp.py:FidCompUnitary.compute_fid_grad", "src/qutip_qtrl/fidcomp.py:normalize_gradient_PSU", "src/qutip_qtrl/fidcomp.py:normalize_gradient_SU", "src/qutip_qtrl/fidcomp.py:get_fid_err_gradient"]}
{"id": "C13", "title": "Approximate trace-difference gradient is the finite-difference quotient of the fidelity error", "statement": "Entry [k,j] of the TDAPPROX gradient is (fid_err(amps with entry [k,j] increased by epsilon) - fid_err(amps)) / epsilon.", "quantifier": "every system, slot, control and epsilon", "why_tests_cant": "operator order mistakes vanish for commuting or single-slot problems", "anchors": ["src/qutip_qtrl/fidcomp.py:FidCompTraceDiffApprox.compute_fid_err_grad", "src/qutip_qtrl/propcomp.py:PropCompApproxGrad._compute_diff_prop"]}
{"id": "C14", "title": "PSU fidelity ignores global phase and is a normalised overlap", "statement": "With phase_option PSU, multiplying the target or the evolution by any unit complex number leaves get_fidelity unchanged; for unitary target and evolution the PSU fidelity lies in [0,1], equals 1 when the evolution is the target up to phase, and the fidelity error lies in [0,1]; the SU fidelity lies in [-1,1] and is 1 when the evolution equals the target.", "quantifier": "every dimension, unitary target and evolution, unit phase", "why_tests_cant": "continuum of operators and phases", "anchors": ["src/qutip_qtrl/fidcomp.py:normalize_PSU", "src/qutip_qtrl/fidcomp.py:normalize_SU", "src/qutip_qtrl/fidcomp.py:init_normalization", "src/qutip_qtrl/fidcomp.py:get_fid_err"]}
{"id": "C15", "title": "Trace-difference fidelity error is a distance", "statement": "With positive scale factor the trace-difference fidelity error is non-negative and is zero exactly when the final evolution equals the target; it equals scale_factor times the sum of squared moduli of the entry differences; the default scale factor is 1/(2N).", "quantifier": "every dimension, target, evolution, positive scale factor", "why_tests_cant": "continuum of operators", "anchors": ["src/qutip_qtrl/fidcomp.py:FidCompTraceDiff.get_fid_err", "src/qutip_qtrl/fidcomp.py:FidCompTraceDiff.init_comp"]}
{"id": "C16", "title": "Diagonalisation propagators are unitary", "statement": "If the eigen-solver returns real eigenvalues and a unitary eigenvector matrix, the DIAG propagator of every slot is unitary, the full evolution of a unitary initial operator is unitary, and the propagator is the exponential of -i*H*tau (its eigen-decomposition has the exponentiated eigenvalues).", "quantifier": "every dimension, Hamiltonian, duration, slot count", "why_tests_cant": "continuum of Hamiltonians; tests use tolerance checks on few", "anchors": ["src/qutip_qtrl/dynamics.py:DynamicsUnitary._spectral_decomp", "src/qutip_qtrl/propcomp.py:PropCompDiag._compute_propagator"]}
{"id": "C17", "title": "Diagonalisation propagator gradient is the exact derivative, including degenerate eigenvalues", "statement": "The DIAG propagator gradient for control j is the derivative of exp(-i*tau*(H + s*H_j)) at s = 0, with no special role for degenerate eigenvalues (up to the rounding threshold).", "quantifier": "every dimension, Hamiltonian, control operator, duration", "why_tests_cant": "degenerate and near-degenerate spectra are measure-zero for random tests", "anchors": ["src/qutip_qtrl/dynamics.py:DynamicsUnitary._spectral_decomp", "src/qutip_qtrl/propcomp.py:PropCompDiag._compute_prop_grad"]}
{"id": "C18", "title": "The symplectic form is a symplectic form and both phase applications preserve it", "statement": "calc_omega(n) is real, antisymmetric, squares to minus the identity, for every number of modes n; for a symmetric generator both phase applications (postop with -Omega, preop with Omega) give an infinitesimally symplectic generator, and products of symplectic propagators are symplectic.", "quantifier": "every number of modes, every symmetric generator", "why_tests_cant": "all sizes; tests use one or two modes", "anchors": ["src/qutip_qtrl/symplectic.py:calc_omega", "src/qutip_qtrl/dynamics.py:DynamicsSymplectic._get_dyn_gen_phase", "src/qutip_qtrl/dynamics.py:_apply_phase_preop", "src/qutip_qtrl/dynamics.py:_apply_phase_postop"]}
{"id": "C19", "title": "Flattening amplitudes for the minimiser and back is lossless and aligned with the bounds", "statement": "The variable vector passed to the minimiser and the amplitude array rebuilt from it are inverse row-major bijections between [num_tslots, num_ctrls] arrays and vectors, and position t*num_ctrls+c of the bounds list is the bound pair of control c (scalar bound for all, list bound per control, infinite bound means None).", "quantifier": "every slot and control count, every amplitude array and bounds specification", "why_tests_cant": "misalignment shows only with several controls with different bounds", "anchors": ["src/qutip_qtrl/optimizer.py:_get_optim_var_vals", "src/qutip_qtrl/optimizer.py:_get_ctrl_amps", "src/qutip_qtrl/optimizer.py:_build_bounds_list"]}
{"id": "C20", "title": "User supplied optimiser bounds are honoured", "statement": "If the user sets bounds on the optimiser before run_optimization, those are the bounds handed to the minimiser.", "quantifier": "every optimiser class and bounds value", "why_tests_cant": "needs each optimiser class times pre-set bounds", "anchors": ["src/qutip_qtrl/optimizer.py:Optimizer.run_optimization", "src/qutip_qtrl/optimizer.py:OptimizerLBFGSB.run_optimization"]}
{"id": "C21", "title": "The optimisation result reports one coherent final point", "statement": "Whatever sequence of function, gradient and callback calls the minimiser makes and however it ends, the result's final_amps, fid_err, grad_norm_final and evo_full_final all describe the same amplitudes: fid_err is the fidelity error of final_amps and evo_full_final its evolution.", "quantifier": "every minimiser behaviour (any call sequence with any arguments, normal return or termination exception)", "why_tests_cant": "real minimisers exercise few call patterns", "anchors": ["src/qutip_qtrl/optimizer.py:run_optimization", "src/qutip_qtrl/optimizer.py:_add_common_result_attribs", "src/qutip_qtrl/optimizer.py:_interpret_term_exception"]}
{"id": "C22", "title": "Termination reason and goal flag are truthful", "statement": "goal_achieved is set only if the reported fid_err is at or below fid_err_targ; a run that evaluates a point at or below the target stops at that point and reports it as goal achieved; wall-time / function-call / gradient-norm flags are set only when the corresponding limit was crossed; at most one termination flag is set and the termination reason is always filled in.", "quantifier": "every minimiser behaviour, every termination condition values, every clock", "why_tests_cant": "conditions race: which fires first depends on call order", "anchors": ["src/qutip_qtrl/optimizer.py:fid_err_func_wrapper", "src/qutip_qtrl/optimizer.py:fid_err_grad_wrapper", "src/qutip_qtrl/optimizer.py:iter_step_callback_func", "src/qutip_qtrl/optimizer.py:_interpret_term_exception", "src/qutip_qtrl/errors.py"]}
{"id": "C23", "title": "Evaluation and iteration counts are exact and bounded", "statement": "num_fid_func_calls and num_iter in the result equal the number of fidelity evaluations and iteration callbacks made, statistics agree with the result, and no run makes more than max_fid_func_calls fidelity evaluations.", "quantifier": "every minimiser behaviour and limit", "why_tests_cant": "off-by-one at the limit needs exhaustive counting", "anchors": ["src/qutip_qtrl/optimizer.py:fid_err_func_wrapper", "src/qutip_qtrl/optimizer.py:iter_step_callback_func", "src/qutip_qtrl/optimizer.py:_add_common_result_attribs", "src/qutip_qtrl/stats.py"]}
{"id": "C24", "title": "Amplitudes are isolated from the minimiser's working memory", "statement": "The amplitudes stored in the Dynamics during optimisation never change because the minimiser overwrites its own working vector between calls, and the recorded initial_amps never change afterwards.", "quantifier": "every interleaving of wrapper calls and in-place writes to the minimiser's vector", "why_tests_cant": "aliasing bugs depend on the minimiser's internal buffer reuse", "anchors": ["src/qutip_qtrl/optimizer.py:fid_err_func_wrapper", "src/qutip_qtrl/optimizer.py:fid_err_grad_wrapper", "src/qutip_qtrl/optimizer.py:_create_result", "src/qutip_qtrl/tslotcomp.py:compare_amps"]}
{"id": "C25", "title": "Method parameters and options follow the documented precedence", "statement": "method_params keys that name an optimiser attribute set it, otherwise keys that name a termination condition set that, and in the other case they become method_options; explicit method options are never overridden by termination conditions; conversion only adds missing keys.", "quantifier": "every dictionary of parameters and options", "why_tests_cant": "unbounded key combinations", "anchors": ["src/qutip_qtrl/optimizer.py:apply_method_params", "src/qutip_qtrl/optimizer.py:_build_method_options", "src/qutip_qtrl/optimizer.py:OptimizerLBFGSB.run_optimization"]}
{"id": "C26", "title": "The fidelity goal set by the user is the one used", "statement": "Setting fid_goal (or fid_err_targ) in the termination conditions determines the stopping target: the optimiser stops when fid_err <= 1 - fid_goal (resp. fid_err_targ).", "quantifier": "every combination of set / unset goal and target", "why_tests_cant": "tests set only fid_err_targ", "anchors": ["src/qutip_qtrl/optimizer.py:init_optim", "src/qutip_qtrl/termcond.py:TerminationConditions.reset"]}
{"id": "C27", "title": "Generated initial pulses respect the amplitude bounds", "statement": "With lbound <= ubound (either may be None or infinite), every amplitude of a pulse returned by a standard pulse generator lies within [lbound, ubound] after scaling, offset and bounding; a pulse already inside the bounds is only shifted by the offset.", "quantifier": "every pulse shape, scaling, offset and pair of bounds", "why_tests_cant": "continuum of pulses and bounds; infinite bounds rarely tested", "anchors": ["src/qutip_qtrl/pulsegen.py:PulseGen._apply_bounds_and_offset", "src/qutip_qtrl/pulsegen.py:PulseGen.init_pulse", "src/qutip_qtrl/pulsegen.py:PulseGenRandom.gen_pulse", "src/qutip_qtrl/pulsegen.py:PulseGenZero.gen_pulse"]}
{"id": "C28", "title": "CRAB pulses respect the amplitude bounds for every coefficient vector", "statement": "When a CRAB generator has lbound and/or ubound set, every amplitude it generates lies within them for every coefficient vector the minimiser may try, every guess pulse, guess action and ramping.", "quantifier": "every coefficient vector, bounds, guess and ramping pulse", "why_tests_cant": "minimiser explores arbitrary coefficients", "anchors": ["src/qutip_qtrl/pulsegen.py:PulseGenCrab._init_bounds", "src/qutip_qtrl/pulsegen.py:PulseGenCrab._apply_bounds", "src/qutip_qtrl/pulsegen.py:PulseGenCrabFourier.gen_pulse"]}
{"id": "C29", "title": "Bounds given to the pulse optimisation functions reach the CRAB pulse generators", "statement": "amp_lbound / amp_ubound passed to the CRAB functions, scalar or per control, are the bounds of the generator of each control.", "quantifier": "every bound value including 0.0, every number of controls", "why_tests_cant": "falsy values such as 0.0 are a classic untested corner", "anchors": ["src/qutip_qtrl/pulseoptim.py:create_pulse_optimizer", "src/qutip_qtrl/pulseoptim.py:opt_pulse_crab"]}
{"id": "C30", "title": "CRAB variables are partitioned among the controls without loss", "statement": "The optimisation vector is the concatenation of each control generator's variables; splitting it back gives each generator exactly the slice it contributed, and reading the variables, setting them back and reading again changes nothing; the number of variables is the sum over the generators.", "quantifier": "every number of generators, coefficients per generator and values", "why_tests_cant": "slice arithmetic over arbitrary sizes", "anchors": ["src/qutip_qtrl/optimizer.py:OptimizerCrab._get_optim_var_vals", "src/qutip_qtrl/optimizer.py:OptimizerCrab._get_ctrl_amps", "src/qutip_qtrl/pulsegen.py:PulseGenCrab.get_optim_var_vals", "src/qutip_qtrl/pulsegen.py:PulseGenCrab.set_optim_var_vals"]}
{"id": "C31", "title": "Periodic waveforms have the documented range and shape", "statement": "Sine, square, saw and triangle pulses take values in [-1,1] before scaling for every phase, square takes only +1 or -1, and each repeats after one full cycle; the bounded pulse has one value per timeslot.", "quantifier": "every frequency, phase and timeslot division", "why_tests_cant": "all real phases", "anchors": ["src/qutip_qtrl/pulsegen.py:PulseGenSine", "src/qutip_qtrl/pulsegen.py:PulseGenSquare", "src/qutip_qtrl/pulsegen.py:PulseGenSaw", "src/qutip_qtrl/pulsegen.py:PulseGenTriangle"]}
{"id": "C32", "title": "Random-walk pulses have bounded increments", "statement": "For RND_WALK1 consecutive amplitudes differ by at most scaling*max_d_amp; for RND_WALK2 second differences are at most scaling*max_d2_amp, as documented; the pulses start from the documented origin.", "quantifier": "every random sequence, scaling and slot count", "why_tests_cant": "random sampling never proves a bound", "anchors": ["src/qutip_qtrl/pulsegen.py:PulseGenRndWalk1.gen_pulse", "src/qutip_qtrl/pulsegen.py:PulseGenRndWalk2.gen_pulse"]}
{"id": "C33", "title": "Linear pulses interpolate the requested values", "statement": "A LIN pulse goes from start_val in the first slot to end_val in the last slot with constant gradient in time (before scaling), and a gradient with a start value given to gen_pulse determines the pulse.", "quantifier": "every timeslot division, start, end and gradient", "why_tests_cant": "non-uniform tau and argument combinations untested", "anchors": ["src/qutip_qtrl/pulsegen.py:PulseGenLinear.init_pulse", "src/qutip_qtrl/pulsegen.py:PulseGenLinear.gen_pulse"]}
{"id": "C34", "title": "Periodic pulse parameters are consistent and initialisation is idempotent", "statement": "After initialisation of a periodic pulse, num_waves is the number of complete cycles in the pulse time, wavelen*freq = 1, and initialising again without changing any parameter leaves frequency, wavelength, number of waves and the generated pulse unchanged.", "quantifier": "every frequency, wavelength, num_waves and pulse time", "why_tests_cant": "tests initialise once with default frequency 1", "anchors": ["src/qutip_qtrl/pulsegen.py:PulseGenPeriodic.init_pulse"]}
{"id": "C35", "title": "The random Fourier pulse generator terminates and is bounded", "statement": "With 0 < min_wavelen <= pulse_time, RNDFOURIER produces a finite pulse with finitely many components, wavelengths from 2*pulse_time halving down to min_wavelen, bounded by scaling.", "quantifier": "every pulse time and minimum wavelength", "why_tests_cant": "a loop bound is a termination argument", "anchors": ["src/qutip_qtrl/pulsegen.py:PulseGenRndFourier.gen_pulse"]}
{"id": "C36", "title": "CRAB generator configuration survives construction and reset", "statement": "fix_freqs, randomize_freqs, num_coeffs and similar parameters given through the parameter dictionary of a CRAB generator hold after construction, and reset followed by init_pulse and gen_pulse works for every configuration.", "quantifier": "every parameter dictionary, every configuration", "why_tests_cant": "order of attribute writes across three class levels", "anchors": ["src/qutip_qtrl/pulsegen.py:PulseGenCrab.__init__", "src/qutip_qtrl/pulsegen.py:PulseGenCrab.reset", "src/qutip_qtrl/pulsegen.py:PulseGenCrabFourier.reset", "src/qutip_qtrl/pulsegen.py:PulseGenCrabFourier.init_pulse"]}
{"id": "C37", "title": "Simple GRAPE respects the amplitude limits", "statement": "With u_limits = [lo, hi], lo <= hi, every amplitude of every iteration returned by grape_unitary (and cy_grape_unitary) lies in [lo, hi].", "quantifier": "every problem, start pulse, step size, number of iterations", "why_tests_cant": "gradient values are arbitrary reals", "anchors": ["src/qutip_qtrl/grape.py:grape_unitary", "src/qutip_qtrl/cy_grape.py:cy_grape_inner"]}
{"id": "C38", "title": "Simple GRAPE returns a final unitary matching the returned pulse", "statement": "The U_f returned by grape_unitary / cy_grape_unitary is the ordered product of the slot propagators of the last returned pulse u[-1] (the one H_t is built from).", "quantifier": "every problem, number of iterations and slots", "why_tests_cant": "the discrepancy is one iteration and shrinks at convergence, so tolerance tests pass", "anchors": ["src/qutip_qtrl/grape.py:grape_unitary", "src/qutip_qtrl/grape.py:cy_grape_unitary"]}
{"id": "C39", "title": "The Cython and Python GRAPE updates agree", "statement": "For the same inputs cy_grape_unitary and grape_unitary produce the same pulses.", "quantifier": "every problem, limits, penalty weights", "why_tests_cant": "tests compare fidelity only, with default penalties", "anchors": ["src/qutip_qtrl/grape.py:grape_unitary", "src/qutip_qtrl/cy_grape.py:cy_grape_inner"]}
{"id": "C40", "title": "GRAPE forward and backward unitaries and gradient step", "statement": "At each GRAPE iteration the stored forward and backward lists are the ordered products of the slot propagators and of the adjoints of the later ones, and the update direction for control j in slot m is the first-order change of the (phase-sensitive or phase-insensitive) overlap with the target.", "quantifier": "every slot, control, pulse and target", "why_tests_cant": "index conventions of ordered products", "anchors": ["src/qutip_qtrl/grape.py:_grape_iter", "src/qutip_qtrl/grape.py:grape_unitary", "src/qutip_qtrl/cy_grape.py:cy_overlap"]}
{"id": "C41", "title": "Adaptive GRAPE never accepts a worse pulse", "statement": "The overlap kept by grape_unitary_adaptive as its current best is non-decreasing over the iterations, and the returned pulse, Hamiltonian and unitary are those of the best accepted iterate.", "quantifier": "every problem and step-size list", "why_tests_cant": "depends on the whole history of accepts and rejects", "anchors": ["src/qutip_qtrl/grape.py:grape_unitary_adaptive"]}
{"id": "C42", "title": "Dump levels behave as documented", "statement": "Setting dumping to NONE, SUMMARY, FULL or CUSTOM (any letter case) selects: nothing, summary only, everything, and for CUSTOM first the same as SUMMARY with individually switchable options; reading dumping reports the level implied by the switches; any other value is rejected.", "quantifier": "every sequence of level assignments and switch changes", "why_tests_cant": "state machine of six switches and levels", "anchors": ["src/qutip_qtrl/dump.py:Dump.level", "src/qutip_qtrl/dump.py:OptimDump._apply_level", "src/qutip_qtrl/dump.py:DynamicsDump._apply_level", "src/qutip_qtrl/dynamics.py:dumping", "src/qutip_qtrl/optimizer.py:dumping"]}
{"id": "C43", "title": "Dump summary files hold exactly the recorded history", "statement": "With writing to file enabled from the start, after any number of recorded items the summary / log file contains one header followed by one line per recorded item in order, indexed 0,1,2,..., nothing lost or duplicated, also after clear; and it equals what writeout produces.", "quantifier": "every number of items and clears", "why_tests_cant": "open-mode logic over unbounded histories", "anchors": ["src/qutip_qtrl/dump.py:OptimDump.add_iter_summary", "src/qutip_qtrl/dump.py:OptimDump.update_fid_err_log", "src/qutip_qtrl/dump.py:DynamicsDump.add_evo_comp_summary", "src/qutip_qtrl/dump.py:writeout"]}
{"id": "C44", "title": "Evolution dump files contain the operators they are labelled with", "statement": "Writing out an evolution dump writes, for each kind of operator that was dumped, the operators of that kind for every timeslot, whichever subset was selected.", "quantifier": "every subset of dump options and number of slots", "why_tests_cant": "2^6 subsets times sizes; only FULL is tested", "anchors": ["src/qutip_qtrl/dump.py:EvoCompDumpItem.writeout", "src/qutip_qtrl/dump.py:DynamicsDump.add_evo_dump"]}
{"id": "C45", "title": "Statistics are consistent with their counters", "statement": "After calculate, mean values times their denominators give back the totals, the total time parts add up, ratios with zero denominators are reported as nan rather than raising, and clear restores every counter.", "quantifier": "every counter state", "why_tests_cant": "zero denominators and subclass counters rarely tested", "anchors": ["src/qutip_qtrl/stats.py:Stats.calculate", "src/qutip_qtrl/stats.py:Stats.clear", "src/qutip_qtrl/stats.py:StatsDynTsUpdate"]}
{"id": "C46", "title": "Parameter files set exactly the attributes they name with the right type", "statement": "load_parameters sets, for each option of a section, the attribute of the same (lower-case) name converted to the type of the existing attribute; options naming no attribute are skipped; a bad value stops that section without undoing earlier options and without touching other sections; a missing file raises.", "quantifier": "every file content and attribute typing", "why_tests_cant": "combinations of types, order and errors", "anchors": ["src/qutip_qtrl/loadparams.py:load_parameters", "src/qutip_qtrl/loadparams.py:set_param"]}
{"id": "C47", "title": "Directory creation reports the truth", "statement": "create_dir returns success only if the directory exists afterwards, never removes or overwrites anything, and reports failure with a message when the path is a file or cannot be created.", "quantifier": "every file system state, including races where the directory appears concurrently", "why_tests_cant": "OS failures and races are hard to provoke", "anchors": ["src/qutip_qtrl/io.py:create_dir"]}
{"id": "C48", "title": "Dynamic timeslot update masks are sound", "statement": "With the dynamic update bookkeeping, a generator, propagator or evolution not marked for recalculation is current with respect to the amplitudes, after any sequence of amplitude updates and recomputations, and everything requested is current after recomputation.", "quantifier": "every history of updates, requests and recomputations", "why_tests_cant": "mask propagation over unbounded histories", "anchors": ["src/qutip_qtrl/tslotcomp.py:TSlotCompDynUpdate.compare_amps", "src/qutip_qtrl/tslotcomp.py:TSlotCompDynUpdate.recompute_evolution", "src/qutip_qtrl/tslotcomp.py:TSlotCompDynUpdate.get_timeslot_for_fidelity_calc"]}
{"id": "C49", "title": "Wrapper functions forward every option", "statement": "Every option accepted by optimize_pulse, optimize_pulse_unitary, opt_pulse_crab and opt_pulse_crab_unitary has the documented effect on the objects built: in particular tslot_type and tslot_params reach the timeslot computer, and deprecated parameters are used only if the corresponding dictionary key is absent.", "quantifier": "every combination of arguments", "why_tests_cant": "dozens of optional arguments", "anchors": ["src/qutip_qtrl/pulseoptim.py:optimize_pulse", "src/qutip_qtrl/pulseoptim.py:optimize_pulse_unitary", "src/qutip_qtrl/pulseoptim.py:opt_pulse_crab", "src/qutip_qtrl/pulseoptim.py:create_pulse_optimizer"]}
{"id": "C50", "title": "Callers' parameter dictionaries are not modified", "statement": "A parameter dictionary passed to the pulse optimisation functions is unchanged afterwards, so that reusing it in a later call with different keyword arguments gives the later call's settings.", "quantifier": "every dictionary and sequence of calls", "why_tests_cant": "needs two calls sharing a dictionary", "anchors": ["src/qutip_qtrl/pulseoptim.py:optimize_pulse_unitary", "src/qutip_qtrl/pulseoptim.py:opt_pulse_crab"]}
{"id": "C51", "title": "Algorithm and component selection is total and case-handling consistent", "statement": "For every alg / optim_method / dyn_type / prop_type / fid_type either the documented component classes are selected with the documented defaults or UsageError is raised, and a value accepted by create_pulse_optimizer behaves the same when passed to optimize_pulse.", "quantifier": "every combination of option strings", "why_tests_cant": "product of five option spaces and letter cases", "anchors": ["src/qutip_qtrl/pulseoptim.py:create_pulse_optimizer", "src/qutip_qtrl/pulseoptim.py:optimize_pulse", "src/qutip_qtrl/pulsegen.py:create_pulse_gen"]}
{"id": "C52", "title": "Constructor parameters take effect", "statement": "Every key in the params dictionary given to a Dynamics, Optimizer, fidelity / propagator / timeslot computer or pulse generator holds its value as an attribute after construction (attributes are created or overwritten).", "quantifier": "every class and every key", "why_tests_cant": "each class hierarchy writes attributes in its own order", "anchors": ["src/qutip_qtrl/dynamics.py:reset", "src/qutip_qtrl/optimizer.py:reset", "src/qutip_qtrl/fidcomp.py:reset", "src/qutip_qtrl/propcomp.py:reset", "src/qutip_qtrl/pulsegen.py:reset"]}
{"id": "C53", "title": "Amplitude bounds in force are those set when the run starts", "statement": "The bounds given to the minimiser by run_optimization are built from amp_lbound and amp_ubound as they are at that moment, also in a second or later run of the same optimiser.", "quantifier": "every optimiser class, bounds specification and earlier history of runs", "why_tests_cant": "needs several runs on one object with changed bounds", "anchors": ["src/qutip_qtrl/optimizer.py:run_optimization", "src/qutip_qtrl/optimizer.py:_build_bounds_list"]}
{"id": "C54", "title": "Gaussian pulses have the requested centre and width", "statement": "A GAUSSIAN pulse has in each slot the value scaling*exp(-(t-mean)^2/(2*variance)) + offset at the slot's start time t, with the mean and variance set on the generator or given to gen_pulse; with a positive variance it lies strictly above the offset and reaches scaling only at the mean.", "quantifier": "every timeslot division, mean, variance, scaling and offset", "why_tests_cant": "continuum of parameters; a mean of 0 is a corner no test visits", "anchors": ["src/qutip_qtrl/pulsegen.py:PulseGenGaussian.gen_pulse"]}
{"id": "C55", "title": "Gaussian-edge pulses ramp in and out symmetrically below full amplitude", "statement": "A GAUSSIAN_EDGE pulse has in each slot the value scaling*(1 - exp(-t^2/decay_time) - exp(-(pulse_time-t)^2/decay_time)) + offset, symmetric in time and never above scaling.", "quantifier": "every timeslot division, decay time, scaling and offset", "why_tests_cant": "continuum of parameters", "anchors": ["src/qutip_qtrl/pulsegen.py:PulseGenGaussianEdge.gen_pulse"]}
{"id": "C56", "title": "Random-wave pulses use the requested components", "statement": "An RNDWAVES pulse is the sum of num_comp_waves sine waves with wavelengths between min_wavelen and max_wavelen and is bounded by a fixed multiple of scaling; inconsistent wavelength limits are refused.", "quantifier": "every random sequence, number of waves and wavelength limits", "why_tests_cant": "random sampling never proves a bound", "anchors": ["src/qutip_qtrl/pulsegen.py:PulseGenRndWaves.gen_pulse"]}
{"id": "C57", "title": "A CRAB pulse is the truncated Fourier series it is documented to be", "statement": "After init_pulse, for every coefficient matrix set, a CRAB pulse has in each slot the value of the sum of c0*sin(w t)+c1*cos(w t) over the coefficients, combined with the guess pulse by its action, multiplied by the ramping pulse and squashed into the bounds; w is the i-th harmonic of the pulse duration, shifted by at most 1/2 if frequencies are randomised, or the third coefficient if frequencies are optimised. Initial coefficients are the scaling or at most that in size.", "quantifier": "every coefficient matrix, guess, ramping, bounds, duration, timeslot division and random sequence", "why_tests_cant": "continuum of coefficients and all random sequences", "anchors": ["src/qutip_qtrl/pulsegen.py:PulseGenCrabFourier.gen_pulse", "src/qutip_qtrl/pulsegen.py:PulseGenCrabFourier.init_freqs", "src/qutip_qtrl/pulsegen.py:PulseGenCrab.init_coeffs"]}
{"id": "C58", "title": "Hamiltonian dynamics is unitary for every exact propagator computer", "statement": "With Hermitian generators and the phase -i, every propagator reported after compute_evolution is unitary and equals exp(-i*H*tau) for the reported generator and slot duration, and the full evolution of an isometric initial operator (in particular a unitary or a normalised state) is isometric.", "quantifier": "every dimension, problem, propagator computer with exact gradients, caching option and history of calls", "why_tests_cant": "tests compare a few propagators numerically for small systems; unitarity must hold for every Hamiltonian, duration, slot count and every sequence of amplitude updates", "anchors": ["src/qutip_qtrl/dynamics.py: DynamicsUnitary, Dynamics.full_evo", "src/qutip_qtrl/propcomp.py: PropagatorComputer._compute_propagator, PropCompDiag, PropCompFrechet, PropCompAugMat"]}
{"id": "C59", "title": "The symplectic phase follows phase_application whatever was read before", "statement": "For DynamicsSymplectic, after any sequence of assigning drift_dyn_gen, reading dyn_gen_phase or omega, assigning phase_application and initialising controls, the phase applied to the generators is always a symplectic form on the correct dimension with the documented sign for the phase_application in force (+omega before the operator, -omega after).", "quantifier": "every sequence of accesses and assignments, every drift size", "why_tests_cant": "the phase is memoised on first read; whether it is right depends on the order of accesses, of which there are unboundedly many", "anchors": ["src/qutip_qtrl/dynamics.py:DynamicsSymplectic.omega", "src/qutip_qtrl/dynamics.py:DynamicsSymplectic.dyn_gen_phase", "src/qutip_qtrl/dynamics.py:Dynamics.phase_application", "src/qutip_qtrl/symplectic.py:calc_omega"]}
{"id": "C60", "title": "Columns of a summary table line up", "statement": "With the default separator, every line of a summary file has its fields at the columns announced by the header line: a missing value is written as None padded to the column's width, and a formatted value that fits its column occupies exactly that width.", "quantifier": "every list of columns, every item including ones with missing values, and every prefix of the columns", "why_tests_cant": "A test reads one written table; misalignment depends on which values are missing and on every combination of names and values.", "anchors": ["src/qutip_qtrl/dump.py: DumpSummaryItem.get_header_line, get_value_line, OptimIterSummary, EvoCompSummary"]}
{"id": "C61", "title": "Each evolution summary points to its own operators", "statement": "Whenever evolutions are dumped, switches changed and the dump cleared in any order, each stored evolution summary holds the values of one evolution, and its evo_dump_idx is the index of the stored operators of that same evolution, or absent if operators were not being dumped. Each successfully dumped evolution adds exactly one summary.", "quantifier": "every sequence of evolutions, switch changes and clears, including evolutions whose operators could not be written", "why_tests_cant": "Link errors show only in particular interleavings of switch changes, clears and failed writes.", "anchors": ["src/qutip_qtrl/dump.py: DynamicsDump.add_evo_dump, add_evo_comp_summary", "src/qutip_qtrl/tslotcomp.py: TimeslotComputer.dump_current"]}
{"id": "C62", "title": "Dynamic update does no unnecessary work", "statement": "With the dynamic timeslot computer, over any sequence of amplitude updates, requests and recomputations, the counted numbers of generator and propagator computations never exceed the counted number of timeslot changes; an amplitude update marks for recalculation the generators and propagators of exactly the timeslots whose amplitudes changed (and those already marked); and with nothing marked a recomputation changes no operator and no counter; the counters of updates, changed amplitudes and changed timeslots grow by exactly what each update changes.", "quantifier": "every number of timeslots, every history of updates, requests and recomputations including failing ones", "why_tests_cant": "Repeated work shows only for particular interleavings of updates and partial recomputations.", "anchors": ["src/qutip_qtrl/tslotcomp.py: TSlotCompDynUpdate.compare_amps, recompute_evolution", "src/qutip_qtrl/stats.py: StatsDynTsUpdate"]}
{"id": "C63", "title": "Changed amplitudes are noticed", "statement": "After update_ctrl_amps(a), the fidelity error returned is that of the values array a holds at that call, whatever arrays were given before and however they were modified in between.", "quantifier": "every history of array creation, in-place writes, amplitude updates and error and gradient requests", "why_tests_cant": "Whether a change is seen depends on which arrays share memory with the one kept.", "anchors": ["src/qutip_qtrl/dynamics.py: update_ctrl_amps, initialize_controls", "src/qutip_qtrl/tslotcomp.py: TSlotCompUpdateAll.compare_amps", "src/qutip_qtrl/fidcomp.py: get_fid_err"]}
{"id": "C64", "title": "Malformed problem descriptions are rejected", "statement": "The controls are accepted exactly when they are operators in a list, a list of rows of one length, or a two-dimensional array, and are then used as given; anything else is refused with TypeError or ValueError. The drift must be an operator or a list of operators.", "quantifier": "every container of controls and every drift", "why_tests_cant": "All shapes and mixtures of containers cannot be enumerated.", "anchors": ["src/qutip_qtrl/dynamics.py: _check_ctrls_container, _check_drift_dyn_gen"]}
{"id": "C65", "title": "Saved amplitude files hold the amplitudes", "statement": "save_amps writes one tab-separated line per timeslot with the start time of the slot (unless excluded) and its amplitudes in order; optimize_pulse with out_file_ext writes the amplitudes before and after the run. No other file is touched, no exception is raised after initialisation.", "quantifier": "every number of slots and controls, every durations, every file-system behaviour", "why_tests_cant": "Ranges over all amplitude tables, slot divisions and failures of the file system.", "anchors": ["src/qutip_qtrl/dynamics.py: save_amps, get_amp_times", "src/qutip_qtrl/pulseoptim.py: optimize_pulse (out_file_ext)"]}
{"id": "C66", "title": "The unitarity check reports exactly the non-unitary propagators", "statement": "With a positive unitarity_check_level, and with Dynamics.unitarity_check(), a warning is given for exactly those timeslots whose propagator is not unitary within the tolerance the user set; the check never changes the outcome of the computation.", "quantifier": "every list of propagators, dimension, tolerance and dynamics class", "why_tests_cant": "Ranges over all matrices and tolerances.", "anchors": ["src/qutip_qtrl/dynamics.py: check_unitarity, DynamicsUnitary.check_unitarity, unitarity_check", "src/qutip_qtrl/tslotcomp.py: recompute_evolution"]}
{"id": "C67", "title": "Adaptive GRAPE stops at the requested overlap", "statement": "grape_unitary_adaptive with overlap_terminate < 1 ends in the first iteration whose overlap exceeds it, and in no other before R-1 iterations; the result then reaches the requested overlap.", "quantifier": "every problem, step size, number of iterations and target", "why_tests_cant": "Ranges over all runs of the iteration.", "anchors": ["src/qutip_qtrl/grape.py: grape_unitary_adaptive"]}
{"id": "C68", "title": "The minimiser is given the true objective and its gradient", "statement": "Whenever the minimiser evaluates a vector of variables it gets the fidelity error that a new object with those amplitudes reports, and the gradient it gets has at each position the partial derivative of that error by the variable at that position, whatever was evaluated, run or changed before; a run is stopped instead exactly when the error is at the target, the calls are used up or the gradient norm is below the limit.", "quantifier": "every problem, every history of calls and runs, every sequence of points the minimiser asks for", "why_tests_cant": "The caches make each value depend on the whole history; the derivative is a limit.", "anchors": ["src/qutip_qtrl/optimizer.py: fid_err_func_wrapper, fid_err_grad_wrapper", "src/qutip_qtrl/fidcomp.py: get_fid_err, get_fid_err_gradient"]}
{"id": "C69", "title": "How a problem is given does not matter", "statement": "Two objects that have the same drift and controls in every timeslot, the same durations, start, target, phase and figure of merit report the same final operator, fidelity error and gradient for the same amplitudes, whichever exact propagator computer they use, whether operators are given once or per timeslot, as Hamiltonians or as generators, with any operator data type, rounding precision and caching, and whatever calls each has been through.", "quantifier": "every two such objects and histories of calls", "why_tests_cant": "Relates two runs for every problem, size and history; rounding hides small differences in tests.", "anchors": ["src/qutip_qtrl/dynamics.py: Dynamics, DynamicsUnitary, DynamicsGenMat, compute_evolution, full_evo", "src/qutip_qtrl/propcomp.py: PropCompDiag, PropCompFrechet, PropCompAugMat", "src/qutip_qtrl/fidcomp.py: get_fid_err, get_fid_err_gradient"]}
{"id": "C70", "title": "Hamiltonian or generator: the same results", "statement": "Multiplying the phase (such as -i) into the drift and the controls and giving no phase, possibly to another dynamics class and with another exact propagator computer, changes neither the final operator nor the fidelity error nor the gradient.", "quantifier": "every problem of matrices of any size, every phase given as a number or operator, every history", "why_tests_cant": "Relates two runs for every problem, size and history; rounding hides small differences in tests.", "anchors": ["src/qutip_qtrl/dynamics.py: Dynamics, DynamicsUnitary, DynamicsGenMat, compute_evolution, full_evo", "src/qutip_qtrl/propcomp.py: PropCompDiag, PropCompFrechet, PropCompAugMat", "src/qutip_qtrl/fidcomp.py: get_fid_err, get_fid_err_gradient"]}
{"id": "C71", "title": "Units of time do not matter", "statement": "Multiplying every timeslot duration by x and dividing drift and controls by x changes neither the final operator nor the fidelity error nor the gradient.", "quantifier": "every problem, every x other than 0, every history", "why_tests_cant": "Relates two runs for every problem, size and history; rounding hides small differences in tests.", "anchors": ["src/qutip_qtrl/dynamics.py: Dynamics, DynamicsUnitary, DynamicsGenMat, compute_evolution, full_evo", "src/qutip_qtrl/propcomp.py: PropCompDiag, PropCompFrechet, PropCompAugMat", "src/qutip_qtrl/fidcomp.py: get_fid_err, get_fid_err_gradient"]}
{"id": "C72", "title": "Cutting a timeslot into pieces changes nothing", "statement": "If every timeslot is cut into pieces that keep its amplitudes, the final operator and the fidelity error stay the same, and the gradient entries of the pieces of a timeslot add up to the entry of the timeslot.", "quantifier": "every problem, every way to cut, every history", "why_tests_cant": "Relates two runs for every problem, size and history; rounding hides small differences in tests.", "anchors": ["src/qutip_qtrl/dynamics.py: Dynamics, DynamicsUnitary, DynamicsGenMat, compute_evolution, full_evo", "src/qutip_qtrl/propcomp.py: PropCompDiag, PropCompFrechet, PropCompAugMat", "src/qutip_qtrl/fidcomp.py: get_fid_err, get_fid_err_gradient"]}
{"id": "C73", "title": "The order of the controls, and unused controls, do not matter", "statement": "Reordering the controls and the amplitudes alike keeps the final operator and the fidelity error and reorders the gradient; a further control with amplitude 0 keeps them and the other gradient entries.", "quantifier": "every problem, every permutation, every added operator, every history", "why_tests_cant": "Relates two runs for every problem, size and history; rounding hides small differences in tests.", "anchors": ["src/qutip_qtrl/dynamics.py: Dynamics, DynamicsUnitary, DynamicsGenMat, compute_evolution, full_evo", "src/qutip_qtrl/propcomp.py: PropCompDiag, PropCompFrechet, PropCompAugMat", "src/qutip_qtrl/fidcomp.py: get_fid_err, get_fid_err_gradient"]}
{"id": "C74", "title": "Another basis gives the same figures", "statement": "In coordinates changed by a unitary the final operator is the changed final operator, and the fidelity error and the gradient are the same.", "quantifier": "every problem, every two unitaries, every history", "why_tests_cant": "Relates two runs for every problem, size and history; rounding hides small differences in tests.", "anchors": ["src/qutip_qtrl/dynamics.py: Dynamics, DynamicsUnitary, DynamicsGenMat, compute_evolution, full_evo", "src/qutip_qtrl/propcomp.py: PropCompDiag, PropCompFrechet, PropCompAugMat", "src/qutip_qtrl/fidcomp.py: get_fid_err, get_fid_err_gradient"]}
{"id": "C75", "title": "With the PSU phase option the zero of energy does not matter", "statement": "Adding multiples of the identity to the Hamiltonian drift and controls, even different ones in each timeslot, changes the final operator by a phase and neither the PSU fidelity error nor its gradient.", "quantifier": "every Hamiltonian problem, every list of shifts, every history", "why_tests_cant": "Relates two runs for every problem, size and history; rounding hides small differences in tests.", "anchors": ["src/qutip_qtrl/dynamics.py: Dynamics, DynamicsUnitary, DynamicsGenMat, compute_evolution, full_evo", "src/qutip_qtrl/propcomp.py: PropCompDiag, PropCompFrechet, PropCompAugMat", "src/qutip_qtrl/fidcomp.py: get_fid_err, get_fid_err_gradient"]}
{"id": "C76", "title": "Conserved quantities and symmetries survive every pulse", "statement": "What the drift and all controls conserve (such as the trace, for Liouvillians) has the same value in the reported final operator as in the initial one; an initial state that none of the operators changes is reported unchanged; a map that turns the operators of one problem into those of another turns its reported evolution into the other's.", "quantifier": "every problem, every conserved linear quantity or intertwining map, every history of calls and every pulse", "why_tests_cant": "Relates runs for every problem, size and history; rounding hides small differences in tests.", "anchors": ["src/qutip_qtrl/dynamics.py: Dynamics, DynamicsUnitary, DynamicsGenMat, compute_evolution, full_evo", "src/qutip_qtrl/propcomp.py: PropCompDiag, PropCompFrechet, PropCompAugMat", "src/qutip_qtrl/fidcomp.py: get_fid_err, get_fid_err_gradient"]}
{"id": "C77", "title": "Running the pulse backwards returns to the start", "statement": "The problem with negated operators and the timeslots, durations and amplitudes reversed, started from the reported final operator, reports the initial operator.", "quantifier": "every problem, every pulse, every two histories", "why_tests_cant": "Relates runs for every problem, size and history; rounding hides small differences in tests.", "anchors": ["src/qutip_qtrl/dynamics.py: Dynamics, DynamicsUnitary, DynamicsGenMat, compute_evolution, full_evo", "src/qutip_qtrl/propcomp.py: PropCompDiag, PropCompFrechet, PropCompAugMat", "src/qutip_qtrl/fidcomp.py: get_fid_err, get_fid_err_gradient"]}
{"id": "C78", "title": "A pulse run in two stages equals the joined pulse", "statement": "Running one problem and then a second one started from the final operator of the first gives the final operator and the fidelity error of the problem with the timeslots of both; the gradient of the second stage is the corresponding part of the joined gradient.", "quantifier": "every two problems, numbers of timeslots, pulses and histories", "why_tests_cant": "Relates runs for every problem, size and history; rounding hides small differences in tests.", "anchors": ["src/qutip_qtrl/dynamics.py: Dynamics, DynamicsUnitary, DynamicsGenMat, compute_evolution, full_evo", "src/qutip_qtrl/propcomp.py: PropCompDiag, PropCompFrechet, PropCompAugMat", "src/qutip_qtrl/fidcomp.py: get_fid_err, get_fid_err_gradient"]}
{"id": "C79", "title": "The evolution is linear in the initial operator", "statement": "A superposition of initial operators is reported to evolve into the superposition of the results; picked or combined columns evolve into the picked or combined columns; with the trace difference fidelity the error and the gradient are the sums of those of the columns.", "quantifier": "every problem, all coefficients, every combination of columns, every history", "why_tests_cant": "Relates runs for every problem, size and history; rounding hides small differences in tests.", "anchors": ["src/qutip_qtrl/dynamics.py: Dynamics, DynamicsUnitary, DynamicsGenMat, compute_evolution, full_evo", "src/qutip_qtrl/propcomp.py: PropCompDiag, PropCompFrechet, PropCompAugMat", "src/qutip_qtrl/fidcomp.py: get_fid_err, get_fid_err_gradient"]}
{"id": "C80", "title": "Small deviations move the evolution and the error only a little", "statement": "For Hamiltonian problems: if the amplitudes are off, the reported final operators differ by at most the sum over slots and controls of duration times control bound times amplitude deviation, relative to the size of the initial operator; likewise if the operators are off (duration times the bounds of the deviations), or the durations (deviation times the bound of the Hamiltonian). For orthonormal initial and target columns the reported errors differ by at most that number for the unitary fidelities, and by at most 4 q |scale| times it for the trace difference.", "quantifier": "every Hamiltonian problem, size, number of slots, both amplitude arrays, all deviations, every history", "why_tests_cant": "A bound over all pulses, deviations and problem sizes.", "anchors": ["src/qutip_qtrl/dynamics.py: Dynamics, DynamicsUnitary, DynamicsGenMat, compute_evolution, full_evo", "src/qutip_qtrl/propcomp.py: PropCompDiag, PropCompFrechet, PropCompAugMat", "src/qutip_qtrl/fidcomp.py: get_fid_err, get_fid_err_gradient"]}
{"id": "C81", "title": "The error is nowhere steeper than durations and controls allow", "statement": "For Hamiltonian problems with orthonormal initial and target columns no entry of the reported gradient exceeds the duration of its slot times the bound of its control (times 4 q |scale| for the trace difference), at any amplitudes, including those at which the error is not differentiable.", "quantifier": "every Hamiltonian problem, all amplitudes, every slot and control, every history", "why_tests_cant": "A bound over all amplitudes and sizes; tests see single points.", "anchors": ["src/qutip_qtrl/dynamics.py: Dynamics, DynamicsUnitary, DynamicsGenMat, compute_evolution, full_evo", "src/qutip_qtrl/propcomp.py: PropCompDiag, PropCompFrechet, PropCompAugMat", "src/qutip_qtrl/fidcomp.py: get_fid_err, get_fid_err_gradient"]}
{"id": "C82", "title": "An interrupted call leaves an object that can go on being used", "statement": "If calls on a dynamics object are interrupted by an exception at any statement (keyboard interrupt, lack of memory, a failing routine) and the caller goes on using the object, it holds one of the amplitude arrays it was given and every later query (error, fidelity, gradient, generators, propagators, evolution) answers as a new object with those amplitudes would. Repeating an interrupted update brings the object to the new amplitudes, and grad_norm is the norm of the gradient returned.", "quantifier": "every problem, every list of calls, every statement at which each of them may be interrupted, any number of interruptions", "why_tests_cant": "Every statement of every call is a possible crash point, in every state a history can leave; tests inject a few.", "anchors": ["src/qutip_qtrl/dynamics.py: update_ctrl_amps, flag_system_changed, compute_evolution, _spectral_decomp", "src/qutip_qtrl/tslotcomp.py: compare_amps, recompute_evolution", "src/qutip_qtrl/fidcomp.py: get_fid_err, get_fidelity, get_fidelity_prenorm, get_fid_err_gradient, flag_system_changed"]}
{"id": "C83", "title": "The figures of merit agree with each other", "statement": "For a Hamiltonian problem that takes orthonormal columns to orthonormal columns, the reported error is the figure asked for (SU, PSU or trace difference) of the reported evolution. Objects that differ only in the figure report the same evolution, the PSU error lies between 0 and 1 and is at most the SU error, which is at most 2, and the trace difference is 2 q scale times the SU error (q columns). The PSU error is the least SU error over all targets that differ from the given one by a phase, and is attained.", "quantifier": "every dimension, number of columns, number of timeslots and controls, operators, amplitudes, propagator computers, call histories", "why_tests_cant": "The comparison has to hold for every evolution and every phase of the target.", "anchors": ["src/qutip_qtrl/fidcomp.py: FidCompUnitary.get_fid_err, FidCompTraceDiff.get_fid_err", "src/qutip_qtrl/dynamics.py: compute_evolution, full_evo, fidelity computer"]}
{"id": "C84", "title": "When everything commutes, only the areas of the pulse matter", "statement": "If drift and controls are the same in every timeslot and commute with each other, then two objects with the same total time and the same area (sum of duration times amplitude) of every control report the same evolution and error, whatever the form of the pulses, the number of timeslots and their durations.", "quantifier": "every dimension, commuting operators, pairs of timeslot lists and pulses with equal areas, figure, call histories", "why_tests_cant": "Pulses of any form and any pair of time grids must agree.", "anchors": ["src/qutip_qtrl/dynamics.py: combine_dyn_gen, _combine_dyn_gen", "src/qutip_qtrl/propcomp.py: compute_propagators", "src/qutip_qtrl/tslotcomp.py: recompute_evolution"]}
{"id": "C85", "title": "A pulse reaches no further than its strength and duration allow", "statement": "For a Hamiltonian problem, the reported evolution is no further from the initial operator than the sum over timeslots of duration times (bound of the drift + sum of bound times |amplitude|), and the reported error differs from the error of doing nothing by no more than the corresponding limit. So a pulse whose reported error is at most g has at least this strength: the error of doing nothing minus g.", "quantifier": "every dimension, operators with given bounds, timeslots, amplitudes, figure, call histories", "why_tests_cant": "A limit on what any pulse can reach cannot be shown by trying pulses.", "anchors": ["src/qutip_qtrl/fidcomp.py: FidCompUnitary.get_fid_err, FidCompTraceDiff.get_fid_err", "src/qutip_qtrl/dynamics.py: compute_evolution, full_evo, fidelity computer", "src/qutip_qtrl/propcomp.py: compute_propagators"]}
{"id": "C86", "title": "Memory options are kept as assigned, follow the level otherwise, and change no result", "statement": "Initialising the timeslots keeps every memory option that was assigned and derives the others from memory_optimization (nothing cached and Qobj from level 1 on, sparse eigenvectors from level 2 on; at level 0 ndarray unless the dimension exceeds 400 and at most one entry in a hundred is stored). It is refused exactly for sparse eigenvectors with dimension at most 2, an unknown data type, or operators of the first timeslot missing. Whatever the options, the object reports the same evolution, error and gradient; and a later change of level is taken into account by the next initialisation.", "quantifier": "every assignment of options, level, operators, dimension and sparsity, every later history of assignments and initialisations", "why_tests_cant": "The choices depend on sizes beyond test problems and on every earlier initialisation.", "anchors": ["src/qutip_qtrl/dynamics.py: _set_memory_optimizations, _choose_oper_dtype, _init_evo, memory_optimization, oper_dtype, sparse_eigen_decomp"]}
{"id": "C87", "title": "phase_option shows the figure of merit in force", "statement": "phase_option accepts PSU and SU and refuses everything else with UsageError; after any history of accepted and refused assignments, fidelity and gradient use the same figure, that of the last accepted value (PSU at first), and phase_option shows it.", "quantifier": "every history of assignments of any values", "why_tests_cant": "Every sequence of good and bad assignments, in any order.", "anchors": ["src/qutip_qtrl/fidcomp.py: FidCompUnitary.phase_option, set_phase_option, init_comp"]}
{"id": "C88", "title": "Dump files go to the directory and the names in force", "statement": "A log entry is written into the directory dump_dir reads as, under the file name base and extension in force when it is written; a directory that cannot be created is replaced by the default one and writing is turned off until it is turned on again.", "quantifier": "every history of assignments of directory, base, extension and write_to_file, of optimisation starts and of log entries, every outcome of creating directories", "why_tests_cant": "Where a file goes depends on the whole history of assignments and on outcomes of the file system.", "anchors": ["src/qutip_qtrl/dump.py: Dump.dump_dir, create_dump_dir, fname_base, summary_file, OptimDump.fid_err_file, grad_norm_file, update_grad_log", "src/qutip_qtrl/optimizer.py: dump_dir, init_optim"]}
{"id": "C89", "title": "Writing a dynamics dump out at the end gives the files that writing on the way gives", "statement": "DynamicsDump.writeout() puts every part of every stored evolution, complete, into the file of its kind and number, and the table of the stored summaries into the summary file, and touches no other file; the result is what writing at every evolution would have left. Writing to one stream gives the table followed by each stored evolution under its number, in order. An evolution that cannot be written ends it, with those before it written and those after it untouched. The files of one number belong to one evolution.", "quantifier": "every history of evolutions, switch changes and clears, every directory, base name and extension, every state of the evolved object", "why_tests_cant": "It must hold for any number of evolutions with any parts switched on or off in between.", "anchors": ["src/qutip_qtrl/dump.py: DynamicsDump.writeout, add_evo_dump, add_evo_comp_summary, clear, EvoCompDumpItem.writeout"]}
{"id": "C90", "title": "Logging changes no result", "statement": "Whatever the log levels, a call on a Dynamics object or its fidelity computer returns the same value and leaves the object in the same state as with logging off, and raises no exception of its own; the entry functions start the same way at every level, and at INFO show the drift, the controls, the initial and the target operator of the problem.", "quantifier": "every problem, every choice of classes and caching, every log level of every module, every history of updates, queries and accesses", "why_tests_cant": "Tests run at one level; the statement compares every level on every problem and history.", "anchors": ["src/qutip_qtrl/tslotcomp.py: TslotCompUpdateAll.recompute_evolution", "src/qutip_qtrl/dynamics.py: Dynamics._init_evo, DynamicsUnitary.check_unitarity", "src/qutip_qtrl/pulseoptim.py: optimize_pulse", "src/qutip_qtrl/logging_utils.py"]}
{"id": "C91", "title": "A pulse generator is of the type asked for and starts from the documented values", "statement": "create_pulse_gen gives a generator of the named type, and a ValueError for any other name. Each parameter in pulse_params is the value of the attribute of that name; an attribute without parameter has its documented default, with timeslots, duration, scaling and offset taken over from the Dynamics object if there is one and defaults that depend on the duration following the duration in force. reset() brings any generator back to this state, and apply_params changes exactly the attributes it names.", "quantifier": "every text given as type, every Dynamics object or none, every list of parameters, every attribute, every state a generator may be in when it is reset", "why_tests_cant": "Tests create a few types with a few parameters; the statement is for every type with every parameter list, and for resets from any state.", "anchors": ["src/qutip_qtrl/pulsegen.py: create_pulse_gen, PulseGen.reset, PulseGen.apply_params, PulseGenCrabFourier.__init__"]}
