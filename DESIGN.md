# Formal model of qutip-qtrl in Rocq (Coq 8.16.1)

This file was started before the proofs and is updated with each milestone. It
says what is modelled, how, what is trusted, and what was found.

## Modelling conventions

* The model is shallow Gallina, one definition per Python function or block,
  each with a comment citing the file and lines in /repo.
* Exceptions are values (`Ok v | Raise e`; in the stateful models the state at
  the time of the exception is kept where the caller could go on using the
  object). Loops are structural recursion or folds; a loop without an obvious
  bound uses fuel with an explicit out-of-fuel value.
* Python floats are real numbers (`R`), Python complex numbers are Coquelicot
  `C`; rounding, overflow and NaN are not modelled except where the code
  branches on them (infinite bounds, NaN results; Model/Float.v), which is then
  explicit.
* numpy arrays are lists or index functions; Qobj and ndarray operators are
  elements of an abstract algebra (`Alg` in Model/Dyn.v), instantiated with
  complex matrices of every size (Spec/MatAlg.v) where a property speaks of
  matrices, and with complex numbers (Spec/Scalar.v) for examples.
* Whether scipy's expm / eigh / expm_frechet compute what they promise is an
  hypothesis of the theorem that needs it, never an axiom.
* External behaviour (scipy minimisers, clock, random numbers, file system) is
  universally quantified: a minimiser is an arbitrary list of calls ended by a
  return or an exception.

## Layout

* `theories/Lib`    proof infrastructure (sums, complex matrices, calculus).
* `theories/Model`  the model of the code; no proofs.
* `theories/Spec`   small independent specifications.
* `theories/Proofs` lemmas.
* `theories/Props`  the property theorems (`Cxx_...`), each with `Print
  Assumptions`, and `Example`s showing concrete cases that meet the hypotheses.
  `_refuted`: the property, or the named part of it, is false of the code, with
  a witness. `_partial`: a proved part of a property that is not proved in full.

## Trusted base

* Coq 8.16.1's kernel (and coqchk, which vcheck runs).
* What Print Assumptions lists for each theorem: /verif/ASSUMPTIONS.txt, one
  line per theorem. Only the standard library's axioms occur:
  `ClassicalDedekindReals.sig_not_dec`, `ClassicalDedekindReals.sig_forall_dec`
  (the construction of the reals),
  `FunctionalExtensionality.functional_extensionality_dep` (index functions as
  matrices, and Coquelicot) and `Classical_Prop.classic` (from Coquelicot's and
  the standard library's analysis). No axiom, parameter, or section-less
  variable is declared here; coqchk also lists the opaque module fields through
  which the standard library seals the reals and ssreflect's `Under_rel`.
* That the Gallina definitions say what the Python code does. This is by
  reading: nothing is extracted from, or run against, the code.
* Libraries used: the standard library, Coquelicot, coq-record-update. No
  mathcomp, Iris or Flocq.

## What is modelled

| source | model | what |
|---|---|---|
| dynamics.py | Model/Dyn.v, Timeslots.v, Symplectic.v | setters, timeslots, memory options, initialisation, generators, evolution getters, amplitude updates |
| dynamics.py, tslotcomp.py, fidcomp.py | Model/Fault.v | the same functions statement by statement, each of which may be the last one executed |
| dynamics.py | Model/Memory.v | memory options, the choice of the data type, over a history of initialisations |
| fidcomp.py | Model/PhaseOption.v | assignments of phase_option |
| dump.py, optimizer.py | Model/DumpDir.v | dump directory, file names, cached paths |
| dump.py | Model/DumpOut.v | DynamicsDump.writeout |
| tslotcomp.py, dynamics.py, pulseoptim.py | Model/Verbose.v | what log levels switch on: the propagator message, the unitarity check, the configuration message |
| dynamics.py, pulseoptim.py | Model/Setup.v | checks of controls and drift, save_amps and out_file_ext, unitarity checks |
| tslotcomp.py | Model/Dyn.v (TSlotCompUpdateAll), DynUpd.v (TSlotCompDynUpdate) | change detection, recomputation, masks |
| propcomp.py | Model/Dyn.v, Approx.v | the four propagator computers |
| fidcomp.py | Model/Dyn.v, Approx.v | the three fidelity computers and their gradients |
| optimizer.py | Model/OptVars.v, OptRun.v, Options.v, Alias.v, Crab.v | variables, bounds, options, wrappers, callbacks, results, the five optimiser classes |
| optimresult.py, termcond.py | Model/OptRun.v, Options.v | result fields, limits |
| pulsegen.py | Model/PulseGen.v, Crab.v, Float.v, Str.v | every generator |
| pulseoptim.py | Model/Build.v, Values.v, Construct.v | the five entry points, selection of classes, dictionaries |
| grape.py, cy_grape.py | Model/Grape.v | grape_unitary, cy_grape_unitary, the Cython kernel, grape_unitary_adaptive |
| symplectic.py | Model/Symplectic.v | calc_omega |
| stats.py | Model/Stats.v | counters and reports |
| dump.py | Model/Dump.v, DumpEvo.v | levels, summaries, logs, operators |
| io.py, loadparams.py | Model/Io.v, LoadParams.v | directory creation, parameter files |

## What is not modelled

* logging_utils.py, family.py, `report` methods and log messages, except where
  the logging call itself raises.
* The numerical routines of numpy, scipy and qutip; sparse and dense storage
  except where they select a branch; IEEE rounding.
* Whether scipy calls its callbacks as documented: all theorems hold for every
  order of calls.
* save_amps beyond the columns and times it writes: the text format of numbers, and file system errors.
* Deprecated aliases that only forward.
* Concurrency: the code has none; the file system may change at any time in
  Model/Io.v.
* Simplifications of single functions are in the comments of their definitions.

## Plan per property

Status, theorem names and what is missing are in MANIFEST.json.

* **C01 Forward evolution is the time-ordered product.** Model/Dyn.v (recompute_evolution over an abstract operator algebra `Alg`); by induction on the loops against the ordered product of Spec/Evolution.v, for every history (Spec/History.v).
* **C02 Onward and onto-target evolutions compose with the forward evolution at every slot.** Same model; onward and onto loops run downwards; refuted for Qobj operators, whose public onwd_evo returns the forward list.
* **C03 Fidelity error and gradient are never stale with respect to the amplitudes.** Model/Dyn.v: Dynamics, timeslot computer, fidelity computer as one state machine with the code's cache flags; invariant over call lists; the specification is the answer of a fresh object given the last amplitudes.
* **C04 Changing a setting the fidelity depends on is reflected by the next query.** Same state machine extended with the setters; refuted by concrete histories; positive after re-initialisation.
* **C05 Amplitude change detection is exact.** Model of compare_amps over amplitude matrices; counts specified by counting differing entries/rows.
* **C06 The evolution is recomputed at most once per amplitude change.** Ghost counters in the state machine; potential-function invariant.
* **C07 Timeslot bookkeeping is consistent.** Model/Timeslots.v: setters/getters state machine over R; invariant.
* **C08 The combined generator is drift plus amplitude-weighted controls.** Model of _combine_dyn_gen and phase lookup; specification is a sum.
* **C09 Caching options never change results.** State machine parametrised by flags; equality of observations between any two flag settings. Eigenvector-adjoint flag included.
* **C10 Re-initialising picks up the new problem and options.** Two-problem run of the initialisation model (Props/PropsReinit.v); refuted for memoised fields; positive under `may_follow`.
* **C11 Trace-difference gradient is the derivative of the fidelity error.** Complex matrices (Lib/Mat.v, Lib/MCalc.v, Spec/MatAlg.v); derivative in the sense of Coquelicot's is_derive; expm and expm_frechet are oracles assumed exact.
* **C12 Unitary fidelity gradient is the derivative of the fidelity error.** As C11, SU and PSU.
* **C13 Approximate trace-difference gradient is the finite-difference quotient of the fidelity error.** Model/Approx.v; Spec/FinDiff.v; refuted for two non-commuting slots; proved for commuting operators and for one slot.
* **C14 PSU fidelity ignores global phase and is a normalised overlap.** Complex matrices, Cauchy-Schwarz for the trace inner product.
* **C15 Trace-difference fidelity error is a distance.** Complex matrices; sum of squared moduli.
* **C16 Diagonalisation propagators are unitary.** Complex matrices; eigen-solver as an oracle assumed to return a unitary diagonalisation.
* **C17 Diagonalisation propagator gradient is the exact derivative, including degenerate eigenvalues.** Lib/MExp.v (matrix exponential as a power series), Lib/MDiag.v (divided differences).
* **C18 The symplectic form is a symplectic form and both phase applications preserve it.** Model/Symplectic.v over complex matrices; Spec/Sympl.v.
* **C19 Flattening amplitudes for the minimiser and back is lossless and aligned with the bounds.** Model/OptVars.v: lists; round trip and index theorem.
* **C20 User supplied optimiser bounds are honoured.** Model of run_optimization bounds handling of each class; refuted for L-BFGS-B.
* **C21 The optimisation result reports one coherent final point.** Model/OptRun.v: minimiser = arbitrary trace of calls ended by return or exception; wrappers modelled; result fields.
* **C22 Termination reason and goal flag are truthful.** Same model.
* **C23 Evaluation and iteration counts are exact and bounded.** Same model; bound refuted at max (max+1 reached), proved max+1.
* **C24 Amplitudes are isolated from the minimiser's working memory.** Model/Alias.v: arrays as references to buffers on a heap, views and copies as in numpy; the minimiser may write any buffer of its own at any time; invariant over events and over runs. Refuted for the start vector and for the returned vector.
* **C25 Method parameters and options follow the documented precedence.** Model/Options.v over dictionaries as association lists; Spec/OptionRules.v.
* **C26 The fidelity goal set by the user is the one used.** Model of init_optim target logic; refuted for fid_goal.
* **C27 Generated initial pulses respect the amplitude bounds.** Model/PulseGen.v with Model/Float.v (reals with infinities and nan).
* **C28 CRAB pulses respect the amplitude bounds for every coefficient vector.** Model/Crab.v over R with tanh.
* **C29 Bounds given to the pulse optimisation functions reach the CRAB pulse generators.** Model/Build.v (the bound plumbing of create_pulse_optimizer).
* **C30 CRAB variables are partitioned among the controls without loss.** Model/Crab.v: lists of generators.
* **C31 Periodic waveforms have the documented range and shape.** Model/PulseGen.v over R with floor.
* **C32 Random-walk pulses have bounded increments.** Model/PulseGen.v; random numbers are an arbitrary sequence in [0,1).
* **C33 Linear pulses interpolate the requested values.** Model/PulseGen.v.
* **C34 Periodic pulse parameters are consistent and initialisation is idempotent.** Model/PulseGen.v.
* **C35 The random Fourier pulse generator terminates and is bounded.** Model/PulseGen.v with fuel and an explicit out-of-fuel value; termination bound.
* **C36 CRAB generator configuration survives construction and reset.** Model/PulseGen.v and Model/Crab.v: attribute writes in order.
* **C37 Simple GRAPE respects the amplitude limits.** Model/Grape.v.
* **C38 Simple GRAPE returns a final unitary matching the returned pulse.** Model/Grape.v; refuted; precise theorem: U_f is the product for the last but one pulse.
* **C39 The Cython and Python GRAPE updates agree.** Model/Grape.v; equality under the stated side conditions and refutation outside them.
* **C40 GRAPE forward and backward unitaries and gradient step.** Model/Grape.v over complex matrices.
* **C41 Adaptive GRAPE never accepts a worse pulse.** Model/Grape.v, adaptive loop.
* **C42 Dump levels behave as documented.** Model/Dump.v.
* **C43 Dump summary files hold exactly the recorded history.** Model/Dump.v with a file as a list of lines.
* **C44 Evolution dump files contain the operators they are labelled with.** Model/DumpEvo.v.
* **C45 Statistics are consistent with their counters.** Model/Stats.v.
* **C46 Parameter files set exactly the attributes they name with the right type.** Model/LoadParams.v.
* **C47 Directory creation reports the truth.** Model/Io.v with an arbitrary file-system oracle.
* **C48 Dynamic timeslot update masks are sound.** Model/DynUpd.v: masks, requests and the four loops; the two methods of Dynamics that the class calls but that do not exist are parameters which may be missing. Proved over all histories; the request for "all" and compute_evolution after a partial recomputation are refuted, as is any success with the methods missing.
* **C49 Wrapper functions forward every option.** Model/Build.v, Model/Values.v: the five entry points of pulseoptim.py with their dictionaries.
* **C50 Callers' parameter dictionaries are not modified.** Model/Build.v with the callers' dictionaries as part of the outcome.
* **C51 Algorithm and component selection is total and case-handling consistent.** Model/Build.v: the selection tables; Spec/Builds.v states them from the documentation.
* **C52 Constructor parameters take effect.** Model/Construct.v: each class's constructor and reset as a list of attribute writes.
* **C53 Amplitude bounds in force are those set when the run starts.** Model/OptRun.v: bounds over several runs.
* **C54 Gaussian pulses have the requested centre and width.** Model/PulseGen.v.
* **C55 Gaussian-edge pulses ramp in and out symmetrically below full amplitude.** Model/PulseGen.v.
* **C56 Random-wave pulses use the requested components.** Model/PulseGen.v.
* **C57 A CRAB pulse is the truncated Fourier series it is documented to be.** Model/PulseGen.v; the series is written out in Spec/Crabs.v.
* **C58 Hamiltonian dynamics is unitary for every exact propagator computer.** Spec/MatAlg.v, Lib/MExp.v: exponential of an anti-Hermitian matrix.
* **C59 The symplectic phase follows phase_application whatever was read before.** Model/Symplectic.v: history of reads and assignments.
* **C60 Columns of a summary table line up.** Model/Dump.v.
* **C61 Each evolution summary points to its own operators.** Model/Dump.v and Model/DumpEvo.v: invariant over histories.
* **C62 Dynamic update does no unnecessary work.** Model/DynUpd.v: counters against marks, over all histories.
* **C63 Changed amplitudes are noticed.** Model/Alias.v: the user writes arrays between calls.
* **C64 Malformed problem descriptions are rejected.** Model/Setup.v: containers as lists, rows or arrays of values; the check as code, the documented forms as the inductive relation `holds`.
* **C65 Saved amplitude files hold the amplitudes.** Model/Setup.v: save_amps over an arbitrary file system that may fail; the expected lines from the slot durations.
* **C66 The unitarity check reports exactly the non-unitary propagators.** Model/Setup.v on matrices (Lib/Mat.v): np.allclose as coded; `deviates` says which entry is off.
* **C67 Adaptive GRAPE stops at the requested overlap.** Model/Grape.v: loop invariant on the log and the stop flag.
* **C68 The minimiser is given the true objective and its gradient.** Model/OptRun.v + Model/Dyn.v: state before each call of the minimiser (Proofs/ObjFacts.v), then C11/C12 at that point; the variable vector is tied to the amplitudes by `concat`.
* **C69 How a problem is given does not matter.** Spec/Physics.v: `same_problem`; both objects report what Spec/Evolution.v prescribes for the same operators.
* **C70 Hamiltonian or generator: the same results.** `phase_folded`: propagators and their derivatives are equal slot by slot.
* **C71 Units of time do not matter.** `rescaled`: generator times duration is unchanged.
* **C72 Cutting a timeslot into pieces changes nothing.** `cut`: exp((t1+t2)X) = exp(t2 X) exp(t1 X), and its derivative by uniqueness of derivatives (Proofs/PhysCutGrad.v).
* **C73 The order of the controls, and unused controls, do not matter.** `reordered`, `extended`: sums over a permuted list; a zero term.
* **C74 Another basis gives the same figures.** `rotated`: exp and its derivative commute with conjugation by a unitary; traces are cyclic.
* **C75 With the PSU phase option the zero of energy does not matter.** `shifted_problem`: exp(X + zI) = e^z exp X; the phases cancel in PSU.
* **C76 Conserved quantities and symmetries survive every pulse.** `conserved`, `stationary`, `carries`: w X = Y w implies w exp X = exp Y w, by the exponential series; induction over the timeslots.
* **C77 Running the pulse backwards returns to the start.** `backwards`: exp(-X) exp X = 1, from the last timeslot to the first.
* **C78 A pulse run in two stages equals the joined pulse.** `joined`: propagators of the joined problem are those of the two, appended; the gradient entries compared one by one.
* **C79 The evolution is linear in the initial operator.** `starting`, `combined`, `unit_column`: evolution is linear; tr(X^* Y) is the sum over columns.
* **C80 Small deviations move the evolution and the error only a little.** `Spec/Robust.v`: size (Frobenius), bounds, pulse/model/timing error; mean value inequality for exp(-iHt), telescoping over unitary slots, Cauchy-Schwarz for the errors.
* **C81 The error is nowhere steeper than durations and controls allow.** derivative of a Lipschitz function is bounded by its constant; unitary slots keep sizes.
* **C82 An interrupted call leaves an object that can go on being used.** Model/Fault.v replays every function with a budget of statements; invariants that hold between any two statements (Hoare rules), and agreement with Model/Dyn.v when nothing is interrupted.
* **C83 The figures of merit agree with each other.** Spec/Compare.v writes the figures out; the overlap of two isometries is at most q in modulus; the best phase is that of the overlap.
* **C84 When everything commutes, only the areas of the pulse matter.** Induction over the slots: exponentials of commuting matrices multiply (Lib/MComm.v); the sum of the slot generators is the combination by areas.
* **C85 A pulse reaches no further than its strength and duration allow.** The problem compared with the same one whose durations are all 0 (C80), which reports the initial operator.
* **C86 Memory options are kept as assigned, follow the level otherwise, and change no result.** Model/Memory.v, a history of assignments and initialisations; case analysis of one initialisation, induction over the history; results by C69.
* **C87 phase_option shows the figure of merit in force.** Model/PhaseOption.v, induction over the assignments.
* **C88 Dump files go to the directory and the names in force.** Model/DumpDir.v, the outcomes of create_dir as an oracle; invariants of the cached paths over the history.
* **C89 Writing a dynamics dump out at the end gives the files that writing on the way gives.** Model/DumpOut.v; an invariant relating the run that writes on the way and the one that does not, and injectivity of the file names in kind and number.
* **C90 Logging changes no result.** Model/Verbose.v repeats the evolution and fidelity functions with the statements that only logging carries out; an order on results (returns the same or raises) for any state, and the invariant of Proofs/DynHist.v for the exact characterisation over histories.
* **C91 A pulse generator is of the type asked for and starts from the documented values.** Model/PulseGen.v against the tables of names and defaults in Spec/PulseNew.v; every reset is brought to the form base values, parameters, values of the class, parameters, and assignments to different names commute.

## Findings

What the model shows to be wrong, or surprising, in the code. Those with a
`_refuted` theorem carry its name; the others were met while modelling.

Dynamics, timeslots, evolution
* `onwd_evo` returns the forward evolution for Qobj operators (dynamics.py:1387-1388; C02).
* Changing `phase_option`, `tau` or an operator in place after a fidelity query leaves the old value (C04).
* Re-initialising keeps the number of controls, the drift of `drift_ham`, caches switched off since, and memory options (C10). After Diag, another propagator computer and more timeslots, a shorter `_decomp_curr` gives IndexError.
* `onto_evo_target` as Qobj is memoised and never cleared.
* The public operator lists are stale between `update_ctrl_amps` and `compute_evolution`.
* `update_ctrl_amps` stores the new amplitudes before it clears the flags: interrupted between the two, repeating the update is taken as no change, and the old results are reported for the new amplitudes (C82). An interrupted gradient query can leave an old `grad_norm` for good (C82).
* The first initialisation turns the derived memory options into assigned ones: a later `memory_optimization` is ignored, and level 2 with a two-level system goes on being refused after the level is lowered (C86).
* A refused `phase_option` is shown although the former one stays in force (C87).
* `num_tslots = 0` keeps the old `evo_time` with an empty `tau` (C07).
* An array edited in place and passed again to `update_ctrl_amps` is not seen to have changed (C63).
* TSlotCompDynUpdate calls `compute_dyn_gen` and `_compute_propagator`, which Dynamics does not have; `flag_all_calc_now` misses two evolutions; `compute_evolution` does nothing after a partial recomputation (C48).
* `get_timeslot_for_fidelity_calc` (deprecated) returns the method itself; `compute_prop_grad` passes self twice.
* `unitarity_check` calls a method the base class does not have.
* `dumping` among the constructor parameters raises AttributeError because parameters are applied before the fidelity computer exists.
* Symplectic: reading `dyn_gen_phase` before switching `phase_application` keeps the old sign; capitals are accepted, then rejected at initialisation; omega is not resized with the drift (C59).

Propagators and fidelity
* TDAPPROX multiplies forward, perturbed propagator and onward in the wrong order, so its gradient is wrong as soon as two slots do not commute; with the default propagator computer it raises UsageError (C13).
* FidCompUnitary with a propagator computer that is not exact and `cache_prop_grad` raises TypeError.
* Diag uses the derivative for phases closer than `fact_mat_round_prec` (C17).

* A list of control rows may contain rows of one operator, which are repeated to the length of the first row (C64).
* `save_amps` repeats a single given time on every line (C65).
* The tolerances of the unitarity checks are not the ones set: np.allclose adds a relative tolerance of 1e-5. Without PropCompDiag a non-unitary propagator ends the computation with TypeError; outside DynamicsUnitary a positive `unitarity_check_level` always raises AttributeError (C66).

Optimiser
* L-BFGS-B and BFGS ignore bounds assigned by the user (C20); the base class keeps the bounds of the first run (C53); -inf as an upper bound is taken as none.
* The function-call limit is exceeded by one; iteration counts in the statistics start at 1 and miss the iteration ended by the clock (C23).
* Runs ended by the wall time or the call limit return the last, not the best, amplitudes.
* `grad_norm_final` is that of the last gradient evaluated, not of the final amplitudes (C21).
* BFGS can leave "not started yet" as the reason; BFGS and L-BFGS-B set `grad_norm_min_reached` without the limit being crossed (C22).
* `fid_goal` is ignored because `fid_err_targ` has a default (C26).
* `method_options` persist: a second run keeps the first run's limits; the fixed-signature routines ignore explicit maxiter, gtol, maxfev (C25).
* The vector the minimiser starts from is a view of `dynamics.ctrl_amps`; the vector it returns is kept without a copy and shared with `final_amps` (C24).
* Constructor parameters `max_metric_corr`, `xtol`, `ftol`, `num_optim_vars` are overwritten (C52).

Pulse generators
* An infinite lower bound with RND or ZERO gives infinite amplitudes; bound lists under GRAPE give ValueError (C27).
* LIN never uses its gradient argument; one slot gives nan (C33). `num_waves` is inconsistent when derived (C34). RNDWALK2 is not scaled (C32). RNDFOURIER and RNDWAVES reach sqrt 8 times the scaling (C35).
* A mean, variance or decay of 0 given to `gen_pulse` is ignored (C54); GAUSSIAN_EDGE starts below 0 (C55).
* `fix_freqs` and `randomize_freqs` are overwritten by the constructor; a reset breaks generators with free frequencies (C36). `gen_pulse(coeffs)` cannot be used. After a failed `init_pulse` the generator counts as initialised. A guess generator shared by the controls keeps the bound of the first. A guess function stays after the guess is removed. An unknown guess action raises AttributeError (`logger.WARN`).
* One-sided CRAB bounds that do not contain zero make the bound map discontinuous.

GRAPE
* Without `u_start`, u[0] is zero whatever the limits; a numpy `u_start` with limits raises ValueError (C37). `U_f` is that of u[R-2]; R <= 1 raises UnboundLocalError (C38). The Cython penalty is quadratic and ignores negative alpha (C39). The step is not the gradient when the control does not commute with the slot Hamiltonian (C40). Adaptive: any beta raises, use_interp raises, `U_f` may be of a rejected iteration (C41); when the target overlap is reached the returned H_t and u are those of the iteration before (C67).

Entry points
* `tslot_params` and `tslot_type` have no effect; `fid_err_scale_factor` overrides an explicit `scale_factor`; pulse scaling in `init_pulse_params` is overridden; `amp_update_mode="DYNAMIC"` gives plain Stats (C49). Callers' dictionaries are modified (C50). `alg="crab"` is accepted, then fails; "TD_APPROX" is documented but "TDAPPROX" coded (C51). A CRAB bound of 0 is dropped, array bounds are rejected (C29).

Files, dumps, statistics
* CUSTOM cannot be assigned; FULL without a fidelity computer fails half way (C42). Logs are reformatted by writeout, a clear leaves the old file, renaming loses the header (C43). Onward and onto sections hold forward operators, the last forward operator is missing, subsets without generators raise TypeError (C44).
* The summary and log files stay in the directory of their first entry when `dump_dir` is assigned; after a directory that could not be made, writing stays off also with a good one (C88).
* After `clear()` of a dynamics dump the file numbers start again: files of kinds no longer switched on keep the number but belong to an earlier evolution (C89).
* At tslotcomp level DEBUG_INTENSE the message with each propagator reads `self._prop`, which a timeslot computer does not have; at dynamics level DEBUG the unitarity check is switched on, and fails on a non-unitary propagator unless PropCompDiag is used; at INFO optimize_pulse shows rows of slots as controls, and raises IndexError if controls given slot by slot outnumber the slots (C90).
* reset() of a PulseGenCrabFourier made with fix_freqs=False sets num_basis_funcs back to 2 while the frequencies stay free (C91).
* StatsDynTsUpdate divides by zero and is not fully cleared (C45). Parameter files may turn text and floats into other types (C46). `create_dir` reports success for special nodes, dangling links and races (C47).
