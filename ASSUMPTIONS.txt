What Print Assumptions lists for each theorem in theories/Props.
Every axiom is the standard library's: Coq.Reals.ClassicalDedekindReals.sig_not_dec
and sig_forall_dec, Coq.Logic.FunctionalExtensionality.functional_extensionality_dep
and Coq.Logic.Classical_Prop.classic.

PropsAdaptive.C41_kept_partial: ClassicalDedekindReals.sig_not_dec, ClassicalDedekindReals.sig_forall_dec, FunctionalExtensionality.functional_extensionality_dep
PropsAdaptive.C41_unitary_refuted: ClassicalDedekindReals.sig_not_dec, ClassicalDedekindReals.sig_forall_dec, FunctionalExtensionality.functional_extensionality_dep
PropsAdaptive.C41_beta_refuted: ClassicalDedekindReals.sig_not_dec, ClassicalDedekindReals.sig_forall_dec, FunctionalExtensionality.functional_extensionality_dep
PropsAdaptive.C41_interp_refuted: ClassicalDedekindReals.sig_not_dec, ClassicalDedekindReals.sig_forall_dec, FunctionalExtensionality.functional_extensionality_dep
PropsAdaptive.C67_stop: ClassicalDedekindReals.sig_not_dec, ClassicalDedekindReals.sig_forall_dec, FunctionalExtensionality.functional_extensionality_dep
PropsAdaptive.C67_target: ClassicalDedekindReals.sig_not_dec, ClassicalDedekindReals.sig_forall_dec, FunctionalExtensionality.functional_extensionality_dep
PropsAdaptive.C67_pulse_refuted: ClassicalDedekindReals.sig_not_dec, ClassicalDedekindReals.sig_forall_dec, FunctionalExtensionality.functional_extensionality_dep
PropsAlias.C24_calls: ClassicalDedekindReals.sig_forall_dec, FunctionalExtensionality.functional_extensionality_dep
PropsAlias.C24_stored: ClassicalDedekindReals.sig_forall_dec, FunctionalExtensionality.functional_extensionality_dep
PropsAlias.C24_recorded: ClassicalDedekindReals.sig_forall_dec, FunctionalExtensionality.functional_extensionality_dep
PropsAlias.C24_recorded_during: ClassicalDedekindReals.sig_forall_dec, FunctionalExtensionality.functional_extensionality_dep
PropsAlias.C24_returned: ClassicalDedekindReals.sig_forall_dec, FunctionalExtensionality.functional_extensionality_dep
PropsAlias.C24_crab_start: ClassicalDedekindReals.sig_forall_dec, FunctionalExtensionality.functional_extensionality_dep
PropsAlias.C63_fresh_partial: ClassicalDedekindReals.sig_forall_dec, FunctionalExtensionality.functional_extensionality_dep
PropsAlias.C63_reinit: ClassicalDedekindReals.sig_forall_dec, FunctionalExtensionality.functional_extensionality_dep
PropsAlias.C24_x0_refuted: ClassicalDedekindReals.sig_forall_dec, FunctionalExtensionality.functional_extensionality_dep
PropsAlias.C24_returned_refuted: ClassicalDedekindReals.sig_forall_dec, FunctionalExtensionality.functional_extensionality_dep
PropsAlias.C63_refuted: ClassicalDedekindReals.sig_forall_dec, FunctionalExtensionality.functional_extensionality_dep
PropsApprox.C13_commuting_partial: ClassicalDedekindReals.sig_not_dec, ClassicalDedekindReals.sig_forall_dec, FunctionalExtensionality.functional_extensionality_dep
PropsApprox.C13_one_slot_partial: ClassicalDedekindReals.sig_not_dec, ClassicalDedekindReals.sig_forall_dec, FunctionalExtensionality.functional_extensionality_dep
PropsApprox.C13_default_propagators_refuted: ClassicalDedekindReals.sig_not_dec, ClassicalDedekindReals.sig_forall_dec, FunctionalExtensionality.functional_extensionality_dep
PropsApprox.C13_order_refuted: ClassicalDedekindReals.sig_not_dec, ClassicalDedekindReals.sig_forall_dec, FunctionalExtensionality.functional_extensionality_dep
PropsBuild.C29_bounds_partial: ClassicalDedekindReals.sig_forall_dec, FunctionalExtensionality.functional_extensionality_dep
PropsBuild.C29_zero_refuted: ClassicalDedekindReals.sig_forall_dec, FunctionalExtensionality.functional_extensionality_dep
PropsBuild.C29_array_refuted: ClassicalDedekindReals.sig_forall_dec, FunctionalExtensionality.functional_extensionality_dep
PropsBuild.C49_fid: ClassicalDedekindReals.sig_forall_dec, FunctionalExtensionality.functional_extensionality_dep
PropsBuild.C49_prop: ClassicalDedekindReals.sig_forall_dec, FunctionalExtensionality.functional_extensionality_dep
PropsBuild.C49_tslot: ClassicalDedekindReals.sig_forall_dec, FunctionalExtensionality.functional_extensionality_dep
PropsBuild.C49_dyn: ClassicalDedekindReals.sig_forall_dec, FunctionalExtensionality.functional_extensionality_dep
PropsBuild.C49_system: ClassicalDedekindReals.sig_forall_dec, FunctionalExtensionality.functional_extensionality_dep
PropsBuild.C49_controls: ClassicalDedekindReals.sig_forall_dec, FunctionalExtensionality.functional_extensionality_dep
PropsBuild.C49_timeslots: ClassicalDedekindReals.sig_forall_dec, FunctionalExtensionality.functional_extensionality_dep
PropsBuild.C49_optim: ClassicalDedekindReals.sig_forall_dec, FunctionalExtensionality.functional_extensionality_dep
PropsBuild.C49_limits: ClassicalDedekindReals.sig_forall_dec, FunctionalExtensionality.functional_extensionality_dep
PropsBuild.C49_method: ClassicalDedekindReals.sig_forall_dec, FunctionalExtensionality.functional_extensionality_dep
PropsBuild.C49_pulse: ClassicalDedekindReals.sig_forall_dec, FunctionalExtensionality.functional_extensionality_dep
PropsBuild.C49_crab: ClassicalDedekindReals.sig_forall_dec, FunctionalExtensionality.functional_extensionality_dep
PropsBuild.C49_optimize_same: ClassicalDedekindReals.sig_forall_dec, FunctionalExtensionality.functional_extensionality_dep
PropsBuild.C49_tslot_params_refuted: ClassicalDedekindReals.sig_forall_dec, FunctionalExtensionality.functional_extensionality_dep
PropsBuild.C49_tslot_type_refuted: ClassicalDedekindReals.sig_forall_dec, FunctionalExtensionality.functional_extensionality_dep
PropsBuild.C49_scale_refuted: ClassicalDedekindReals.sig_forall_dec, FunctionalExtensionality.functional_extensionality_dep
PropsBuild.C49_init_scaling_refuted: ClassicalDedekindReals.sig_forall_dec, FunctionalExtensionality.functional_extensionality_dep
PropsBuild.C49_stats: ClassicalDedekindReals.sig_forall_dec, FunctionalExtensionality.functional_extensionality_dep
PropsBuild.C49_dynamic_stats_refuted: ClassicalDedekindReals.sig_forall_dec, FunctionalExtensionality.functional_extensionality_dep
PropsCompare.C83_value: ClassicalDedekindReals.sig_not_dec, ClassicalDedekindReals.sig_forall_dec, FunctionalExtensionality.functional_extensionality_dep
PropsCompare.C83_order: ClassicalDedekindReals.sig_not_dec, ClassicalDedekindReals.sig_forall_dec, FunctionalExtensionality.functional_extensionality_dep
PropsCompare.C83_phase: ClassicalDedekindReals.sig_not_dec, ClassicalDedekindReals.sig_forall_dec, FunctionalExtensionality.functional_extensionality_dep
PropsCompare.C84_areas: ClassicalDedekindReals.sig_not_dec, ClassicalDedekindReals.sig_forall_dec, FunctionalExtensionality.functional_extensionality_dep
PropsCompare.C85_reach: ClassicalDedekindReals.sig_not_dec, ClassicalDedekindReals.sig_forall_dec, FunctionalExtensionality.functional_extensionality_dep, Classical_Prop.classic
PropsCompare.C85_needed: ClassicalDedekindReals.sig_not_dec, ClassicalDedekindReals.sig_forall_dec, FunctionalExtensionality.functional_extensionality_dep, Classical_Prop.classic
PropsConstruct.C52_effect_partial: ClassicalDedekindReals.sig_forall_dec, FunctionalExtensionality.functional_extensionality_dep
PropsConstruct.C52_effect: ClassicalDedekindReals.sig_forall_dec, FunctionalExtensionality.functional_extensionality_dep
PropsConstruct.C52_overwritten_refuted: ClassicalDedekindReals.sig_forall_dec, FunctionalExtensionality.functional_extensionality_dep
PropsConstruct.C52_named_refuted: ClassicalDedekindReals.sig_forall_dec, FunctionalExtensionality.functional_extensionality_dep
PropsCrab.C28_within_bounds: ClassicalDedekindReals.sig_not_dec, ClassicalDedekindReals.sig_forall_dec, FunctionalExtensionality.functional_extensionality_dep
PropsCrab.C28_uninitialised: ClassicalDedekindReals.sig_not_dec, ClassicalDedekindReals.sig_forall_dec, FunctionalExtensionality.functional_extensionality_dep
PropsCrab.C57_formula: ClassicalDedekindReals.sig_not_dec, ClassicalDedekindReals.sig_forall_dec, FunctionalExtensionality.functional_extensionality_dep
PropsCrab.C57_start: ClassicalDedekindReals.sig_not_dec, ClassicalDedekindReals.sig_forall_dec, FunctionalExtensionality.functional_extensionality_dep
PropsCrab.C30_concatenation: ClassicalDedekindReals.sig_not_dec, ClassicalDedekindReals.sig_forall_dec, FunctionalExtensionality.functional_extensionality_dep
PropsCrab.C30_partition: ClassicalDedekindReals.sig_not_dec, ClassicalDedekindReals.sig_forall_dec, FunctionalExtensionality.functional_extensionality_dep
PropsCrab.C30_round_trip: ClassicalDedekindReals.sig_not_dec, ClassicalDedekindReals.sig_forall_dec, FunctionalExtensionality.functional_extensionality_dep
PropsCrab.C30_short: ClassicalDedekindReals.sig_not_dec, ClassicalDedekindReals.sig_forall_dec, FunctionalExtensionality.functional_extensionality_dep
PropsCrab.C30_other_slots: ClassicalDedekindReals.sig_not_dec, ClassicalDedekindReals.sig_forall_dec, FunctionalExtensionality.functional_extensionality_dep
PropsCrab.C30_coding: ClassicalDedekindReals.sig_not_dec, ClassicalDedekindReals.sig_forall_dec, FunctionalExtensionality.functional_extensionality_dep
PropsCrab.C36_params_partial: ClassicalDedekindReals.sig_forall_dec, FunctionalExtensionality.functional_extensionality_dep
PropsCrab.C36_freqs_refuted: ClassicalDedekindReals.sig_forall_dec, FunctionalExtensionality.functional_extensionality_dep
PropsCrab.C36_works: ClassicalDedekindReals.sig_not_dec, ClassicalDedekindReals.sig_forall_dec, FunctionalExtensionality.functional_extensionality_dep
PropsCrab.C36_construct: ClassicalDedekindReals.sig_not_dec, ClassicalDedekindReals.sig_forall_dec, FunctionalExtensionality.functional_extensionality_dep
PropsCrab.C36_reset: ClassicalDedekindReals.sig_not_dec, ClassicalDedekindReals.sig_forall_dec, FunctionalExtensionality.functional_extensionality_dep
PropsCrab.C36_reset_refuted: ClassicalDedekindReals.sig_not_dec, ClassicalDedekindReals.sig_forall_dec, FunctionalExtensionality.functional_extensionality_dep
PropsDump.C42_optim_reports: closed under the global context
PropsDump.C42_optim_assign_partial: closed under the global context
PropsDump.C42_optim_reject: closed under the global context
PropsDump.C42_optim_custom_refuted: closed under the global context
PropsDump.C42_optim_custom_partial: closed under the global context
PropsDump.C42_optim_switches: closed under the global context
PropsDump.C42_dynamics_reports: closed under the global context
PropsDump.C42_dynamics_assign_partial: closed under the global context
PropsDump.C42_dynamics_reject: closed under the global context
PropsDump.C42_dynamics_custom_refuted: closed under the global context
PropsDump.C42_dynamics_custom_partial: closed under the global context
PropsDump.C42_dynamics_full_refuted: closed under the global context
PropsDump.C43_summary: closed under the global context
PropsDump.C43_columns: closed under the global context
PropsDump.C43_logs: closed under the global context
PropsDump.C43_writeout: closed under the global context
PropsDump.C43_log_format_refuted: closed under the global context
PropsDump.C43_after_clear_refuted: closed under the global context
PropsDump.C43_rename_refuted: closed under the global context
PropsDump.C43_dynamics: closed under the global context
PropsDump.C61_links: closed under the global context
PropsDump.C61_one_each: closed under the global context
PropsDump.C60_aligned: closed under the global context
PropsDump.C61_cleared: closed under the global context
PropsDump.C44_evolution_partial: ClassicalDedekindReals.sig_not_dec, ClassicalDedekindReals.sig_forall_dec, FunctionalExtensionality.functional_extensionality_dep
PropsDump.C44_files: closed under the global context
PropsDump.C44_failed: closed under the global context
PropsDump.C44_last_refuted: closed under the global context
PropsDump.C44_onto_refuted: ClassicalDedekindReals.sig_not_dec, ClassicalDedekindReals.sig_forall_dec, FunctionalExtensionality.functional_extensionality_dep
PropsDump.C44_subset_refuted: closed under the global context
PropsDumpOut.C89_later: closed under the global context
PropsDumpOut.C89_files: closed under the global context
PropsDumpOut.C89_stops: closed under the global context
PropsDumpOut.C89_stream: closed under the global context
PropsDumpOut.C89_mixed_refuted: closed under the global context
PropsEvolution.C01_forward_evolution: ClassicalDedekindReals.sig_not_dec, ClassicalDedekindReals.sig_forall_dec, FunctionalExtensionality.functional_extensionality_dep
PropsEvolution.C02_onto_composes: ClassicalDedekindReals.sig_not_dec, ClassicalDedekindReals.sig_forall_dec, FunctionalExtensionality.functional_extensionality_dep
PropsEvolution.C02_onwd_composes_partial: ClassicalDedekindReals.sig_not_dec, ClassicalDedekindReals.sig_forall_dec, FunctionalExtensionality.functional_extensionality_dep
PropsEvolution.C02_onwd_qobj_refuted: ClassicalDedekindReals.sig_not_dec, ClassicalDedekindReals.sig_forall_dec, FunctionalExtensionality.functional_extensionality_dep
PropsEvolution.C03_fid_err_not_stale: ClassicalDedekindReals.sig_not_dec, ClassicalDedekindReals.sig_forall_dec, FunctionalExtensionality.functional_extensionality_dep
PropsEvolution.C03_fidelity_not_stale: ClassicalDedekindReals.sig_not_dec, ClassicalDedekindReals.sig_forall_dec, FunctionalExtensionality.functional_extensionality_dep
PropsEvolution.C03_gradient_not_stale: ClassicalDedekindReals.sig_not_dec, ClassicalDedekindReals.sig_forall_dec, FunctionalExtensionality.functional_extensionality_dep
PropsEvolution.C03_gradient_value: ClassicalDedekindReals.sig_not_dec, ClassicalDedekindReals.sig_forall_dec, FunctionalExtensionality.functional_extensionality_dep
PropsEvolution.C05_update_exact: ClassicalDedekindReals.sig_forall_dec, FunctionalExtensionality.functional_extensionality_dep
PropsEvolution.C05_first_update: ClassicalDedekindReals.sig_forall_dec, FunctionalExtensionality.functional_extensionality_dep
PropsEvolution.C06_recompute_once: ClassicalDedekindReals.sig_not_dec, ClassicalDedekindReals.sig_forall_dec, FunctionalExtensionality.functional_extensionality_dep
PropsEvolution.C06_repeated_query: ClassicalDedekindReals.sig_not_dec, ClassicalDedekindReals.sig_forall_dec, FunctionalExtensionality.functional_extensionality_dep
PropsEvolution.C08_generator: ClassicalDedekindReals.sig_not_dec, ClassicalDedekindReals.sig_forall_dec, FunctionalExtensionality.functional_extensionality_dep
PropsEvolution.C09_caching_irrelevant: ClassicalDedekindReals.sig_not_dec, ClassicalDedekindReals.sig_forall_dec, FunctionalExtensionality.functional_extensionality_dep
PropsEvolution.C09_memory_level: closed under the global context
PropsFault.C82_same: ClassicalDedekindReals.sig_not_dec, ClassicalDedekindReals.sig_forall_dec, FunctionalExtensionality.functional_extensionality_dep
PropsFault.C82_interrupted: ClassicalDedekindReals.sig_not_dec, ClassicalDedekindReals.sig_forall_dec, FunctionalExtensionality.functional_extensionality_dep
PropsFault.C82_window: ClassicalDedekindReals.sig_not_dec, ClassicalDedekindReals.sig_forall_dec, FunctionalExtensionality.functional_extensionality_dep
PropsFault.C82_torn: ClassicalDedekindReals.sig_not_dec, ClassicalDedekindReals.sig_forall_dec, FunctionalExtensionality.functional_extensionality_dep
PropsFault.C82_repair: ClassicalDedekindReals.sig_not_dec, ClassicalDedekindReals.sig_forall_dec, FunctionalExtensionality.functional_extensionality_dep
PropsFault.C82_norm: ClassicalDedekindReals.sig_not_dec, ClassicalDedekindReals.sig_forall_dec, FunctionalExtensionality.functional_extensionality_dep
PropsFault.C82_repeat_refuted: ClassicalDedekindReals.sig_not_dec, ClassicalDedekindReals.sig_forall_dec, FunctionalExtensionality.functional_extensionality_dep, Classical_Prop.classic
PropsFault.C82_norm_refuted: ClassicalDedekindReals.sig_not_dec, ClassicalDedekindReals.sig_forall_dec, FunctionalExtensionality.functional_extensionality_dep, Classical_Prop.classic
PropsGrape.C37_limits_partial: ClassicalDedekindReals.sig_not_dec, ClassicalDedekindReals.sig_forall_dec, FunctionalExtensionality.functional_extensionality_dep
PropsGrape.C37_start_refuted: ClassicalDedekindReals.sig_not_dec, ClassicalDedekindReals.sig_forall_dec, FunctionalExtensionality.functional_extensionality_dep, Classical_Prop.classic
PropsGrape.C37_array_start_rejected: ClassicalDedekindReals.sig_not_dec, ClassicalDedekindReals.sig_forall_dec, FunctionalExtensionality.functional_extensionality_dep
PropsGrape.C38_previous_partial: ClassicalDedekindReals.sig_not_dec, ClassicalDedekindReals.sig_forall_dec, FunctionalExtensionality.functional_extensionality_dep
PropsGrape.C38_last_refuted: ClassicalDedekindReals.sig_not_dec, ClassicalDedekindReals.sig_forall_dec, FunctionalExtensionality.functional_extensionality_dep, Classical_Prop.classic
PropsGrape.C38_single_refuted: ClassicalDedekindReals.sig_not_dec, ClassicalDedekindReals.sig_forall_dec, FunctionalExtensionality.functional_extensionality_dep
PropsGrape.C39_agree_partial: ClassicalDedekindReals.sig_not_dec, ClassicalDedekindReals.sig_forall_dec, FunctionalExtensionality.functional_extensionality_dep
PropsGrape.C39_beta_refuted: ClassicalDedekindReals.sig_not_dec, ClassicalDedekindReals.sig_forall_dec, FunctionalExtensionality.functional_extensionality_dep
PropsGrape.C39_alpha_refuted: ClassicalDedekindReals.sig_not_dec, ClassicalDedekindReals.sig_forall_dec, FunctionalExtensionality.functional_extensionality_dep
PropsGrape.C40_interpolated: ClassicalDedekindReals.sig_forall_dec
PropsGrape.C40_lists: ClassicalDedekindReals.sig_not_dec, ClassicalDedekindReals.sig_forall_dec, FunctionalExtensionality.functional_extensionality_dep
PropsGrape.C40_python: ClassicalDedekindReals.sig_not_dec, ClassicalDedekindReals.sig_forall_dec, FunctionalExtensionality.functional_extensionality_dep
PropsGrape.C40_cython: ClassicalDedekindReals.sig_not_dec, ClassicalDedekindReals.sig_forall_dec, FunctionalExtensionality.functional_extensionality_dep
PropsGrape.C40_gradient_partial: ClassicalDedekindReals.sig_not_dec, ClassicalDedekindReals.sig_forall_dec, FunctionalExtensionality.functional_extensionality_dep
PropsGrape.C40_gradient_refuted: ClassicalDedekindReals.sig_not_dec, ClassicalDedekindReals.sig_forall_dec, FunctionalExtensionality.functional_extensionality_dep
PropsIo.C47_success_partial: closed under the global context
PropsIo.C47_keeps: closed under the global context
PropsIo.C47_makes_only: closed under the global context
PropsIo.C47_file: closed under the global context
PropsIo.C47_failure: closed under the global context
PropsIo.C47_message: closed under the global context
PropsIo.C47_refuted: closed under the global context
PropsLaws.C76_conserved: ClassicalDedekindReals.sig_not_dec, ClassicalDedekindReals.sig_forall_dec, FunctionalExtensionality.functional_extensionality_dep
PropsLaws.C76_stationary: ClassicalDedekindReals.sig_not_dec, ClassicalDedekindReals.sig_forall_dec, FunctionalExtensionality.functional_extensionality_dep
PropsLaws.C76_carried: ClassicalDedekindReals.sig_not_dec, ClassicalDedekindReals.sig_forall_dec, FunctionalExtensionality.functional_extensionality_dep
PropsLaws.C77_backwards: ClassicalDedekindReals.sig_not_dec, ClassicalDedekindReals.sig_forall_dec, FunctionalExtensionality.functional_extensionality_dep
PropsLaws.C78_joined: ClassicalDedekindReals.sig_not_dec, ClassicalDedekindReals.sig_forall_dec, FunctionalExtensionality.functional_extensionality_dep
PropsLaws.C79_superposition: ClassicalDedekindReals.sig_not_dec, ClassicalDedekindReals.sig_forall_dec, FunctionalExtensionality.functional_extensionality_dep
PropsLaws.C79_combined: ClassicalDedekindReals.sig_not_dec, ClassicalDedekindReals.sig_forall_dec, FunctionalExtensionality.functional_extensionality_dep
PropsLaws.C79_columns: ClassicalDedekindReals.sig_not_dec, ClassicalDedekindReals.sig_forall_dec, FunctionalExtensionality.functional_extensionality_dep
PropsMasks.C48_unmarked_current: ClassicalDedekindReals.sig_forall_dec, FunctionalExtensionality.functional_extensionality_dep
PropsMasks.C48_update: ClassicalDedekindReals.sig_forall_dec, FunctionalExtensionality.functional_extensionality_dep
PropsMasks.C48_slot: ClassicalDedekindReals.sig_forall_dec, FunctionalExtensionality.functional_extensionality_dep
PropsMasks.C48_all_partial: ClassicalDedekindReals.sig_forall_dec, FunctionalExtensionality.functional_extensionality_dep
PropsMasks.C48_exceptions: ClassicalDedekindReals.sig_forall_dec, FunctionalExtensionality.functional_extensionality_dep
PropsMasks.C62_work: ClassicalDedekindReals.sig_forall_dec, FunctionalExtensionality.functional_extensionality_dep
PropsMasks.C62_marks: ClassicalDedekindReals.sig_forall_dec, FunctionalExtensionality.functional_extensionality_dep
PropsMasks.C62_counted: ClassicalDedekindReals.sig_forall_dec, FunctionalExtensionality.functional_extensionality_dep
PropsMasks.C62_counted_first: ClassicalDedekindReals.sig_forall_dec, FunctionalExtensionality.functional_extensionality_dep
PropsMasks.C62_idle: closed under the global context
PropsMasks.C48_missing_refuted: ClassicalDedekindReals.sig_forall_dec, FunctionalExtensionality.functional_extensionality_dep
PropsMasks.C48_all_refuted: ClassicalDedekindReals.sig_not_dec, ClassicalDedekindReals.sig_forall_dec, FunctionalExtensionality.functional_extensionality_dep
PropsMasks.C48_evolution_refuted: ClassicalDedekindReals.sig_not_dec, ClassicalDedekindReals.sig_forall_dec, FunctionalExtensionality.functional_extensionality_dep
PropsMatrix.C11_trace_gradient: ClassicalDedekindReals.sig_not_dec, ClassicalDedekindReals.sig_forall_dec, FunctionalExtensionality.functional_extensionality_dep
PropsMatrix.C12_unitary_gradient: ClassicalDedekindReals.sig_not_dec, ClassicalDedekindReals.sig_forall_dec, FunctionalExtensionality.functional_extensionality_dep
PropsMatrix.C14_psu_target_phase: ClassicalDedekindReals.sig_not_dec, ClassicalDedekindReals.sig_forall_dec, FunctionalExtensionality.functional_extensionality_dep
PropsMatrix.C14_psu_evolution_phase: ClassicalDedekindReals.sig_not_dec, ClassicalDedekindReals.sig_forall_dec, FunctionalExtensionality.functional_extensionality_dep
PropsMatrix.C14_psu_normalised: ClassicalDedekindReals.sig_not_dec, ClassicalDedekindReals.sig_forall_dec, FunctionalExtensionality.functional_extensionality_dep
PropsMatrix.C14_su_normalised: ClassicalDedekindReals.sig_not_dec, ClassicalDedekindReals.sig_forall_dec, FunctionalExtensionality.functional_extensionality_dep
PropsMatrix.C15_trace_distance: ClassicalDedekindReals.sig_not_dec, ClassicalDedekindReals.sig_forall_dec, FunctionalExtensionality.functional_extensionality_dep
PropsMatrix.C58_unitary_evolution: ClassicalDedekindReals.sig_not_dec, ClassicalDedekindReals.sig_forall_dec, FunctionalExtensionality.functional_extensionality_dep
PropsMatrix.C16_diag_unitary: ClassicalDedekindReals.sig_not_dec, ClassicalDedekindReals.sig_forall_dec, FunctionalExtensionality.functional_extensionality_dep
PropsMatrix.C17_prop_gradient: ClassicalDedekindReals.sig_not_dec, ClassicalDedekindReals.sig_forall_dec, FunctionalExtensionality.functional_extensionality_dep
PropsMatrix.C17_rounding_error: ClassicalDedekindReals.sig_not_dec, ClassicalDedekindReals.sig_forall_dec, FunctionalExtensionality.functional_extensionality_dep, Classical_Prop.classic
PropsMatrix.C17_threshold_matters: ClassicalDedekindReals.sig_not_dec, ClassicalDedekindReals.sig_forall_dec, FunctionalExtensionality.functional_extensionality_dep, Classical_Prop.classic
PropsMemory.C86_explicit: closed under the global context
PropsMemory.C86_flags: closed under the global context
PropsMemory.C86_dtype: closed under the global context
PropsMemory.C86_first_slot: closed under the global context
PropsMemory.C86_dense: closed under the global context
PropsMemory.C86_refused: closed under the global context
PropsMemory.C86_sticky: closed under the global context
PropsMemory.C86_stuck_refuted: closed under the global context
PropsMemory.C86_unstuck: closed under the global context
PropsMemory.C86_results: ClassicalDedekindReals.sig_not_dec, ClassicalDedekindReals.sig_forall_dec, FunctionalExtensionality.functional_extensionality_dep
PropsObjective.C68_objective: ClassicalDedekindReals.sig_not_dec, ClassicalDedekindReals.sig_forall_dec, FunctionalExtensionality.functional_extensionality_dep
PropsObjective.C68_start: ClassicalDedekindReals.sig_not_dec, ClassicalDedekindReals.sig_forall_dec, FunctionalExtensionality.functional_extensionality_dep
PropsObjective.C68_start_any: ClassicalDedekindReals.sig_not_dec, ClassicalDedekindReals.sig_forall_dec, FunctionalExtensionality.functional_extensionality_dep
PropsObjective.C68_gradient: ClassicalDedekindReals.sig_not_dec, ClassicalDedekindReals.sig_forall_dec, FunctionalExtensionality.functional_extensionality_dep
PropsOptCases.C20_bounds_honoured_partial: ClassicalDedekindReals.sig_not_dec, ClassicalDedekindReals.sig_forall_dec, FunctionalExtensionality.functional_extensionality_dep
PropsOptCases.C20_lbfgsb_refuted: ClassicalDedekindReals.sig_not_dec, ClassicalDedekindReals.sig_forall_dec, FunctionalExtensionality.functional_extensionality_dep
PropsOptCases.C20_bfgs_refuted: ClassicalDedekindReals.sig_not_dec, ClassicalDedekindReals.sig_forall_dec, FunctionalExtensionality.functional_extensionality_dep
PropsOptCases.C53_bounds_current_partial: ClassicalDedekindReals.sig_not_dec, ClassicalDedekindReals.sig_forall_dec, FunctionalExtensionality.functional_extensionality_dep
PropsOptCases.C53_second_run_refuted: ClassicalDedekindReals.sig_not_dec, ClassicalDedekindReals.sig_forall_dec, FunctionalExtensionality.functional_extensionality_dep
PropsOptCases.C21_grad_norm_refuted: ClassicalDedekindReals.sig_not_dec, ClassicalDedekindReals.sig_forall_dec, FunctionalExtensionality.functional_extensionality_dep, Classical_Prop.classic
PropsOptCases.C22_reason_refuted: ClassicalDedekindReals.sig_not_dec, ClassicalDedekindReals.sig_forall_dec, FunctionalExtensionality.functional_extensionality_dep, Classical_Prop.classic
PropsOptCases.C22_grad_flag_refuted: ClassicalDedekindReals.sig_not_dec, ClassicalDedekindReals.sig_forall_dec, FunctionalExtensionality.functional_extensionality_dep, Classical_Prop.classic
PropsOptCases.C23_limit_refuted: ClassicalDedekindReals.sig_not_dec, ClassicalDedekindReals.sig_forall_dec, FunctionalExtensionality.functional_extensionality_dep, Classical_Prop.classic
PropsOptCases.C23_stats_refuted: ClassicalDedekindReals.sig_not_dec, ClassicalDedekindReals.sig_forall_dec, FunctionalExtensionality.functional_extensionality_dep, Classical_Prop.classic
PropsOptCases.C26_goal_ignored_refuted: ClassicalDedekindReals.sig_not_dec, ClassicalDedekindReals.sig_forall_dec, FunctionalExtensionality.functional_extensionality_dep, Classical_Prop.classic
PropsOptimise.C19_round_trip: closed under the global context
PropsOptimise.C19_position: closed under the global context
PropsOptimise.C19_bounds: closed under the global context
PropsOptimise.C19_bounds_built: closed under the global context
PropsOptimise.C21_run_ends: ClassicalDedekindReals.sig_not_dec, ClassicalDedekindReals.sig_forall_dec, FunctionalExtensionality.functional_extensionality_dep
PropsOptimise.C21_coherent_result: ClassicalDedekindReals.sig_not_dec, ClassicalDedekindReals.sig_forall_dec, FunctionalExtensionality.functional_extensionality_dep
PropsOptimise.C21_grad_norm_partial: ClassicalDedekindReals.sig_not_dec, ClassicalDedekindReals.sig_forall_dec, FunctionalExtensionality.functional_extensionality_dep
PropsOptimise.C22_goal_flag: ClassicalDedekindReals.sig_not_dec, ClassicalDedekindReals.sig_forall_dec, FunctionalExtensionality.functional_extensionality_dep
PropsOptimise.C22_stopped_flags: ClassicalDedekindReals.sig_not_dec, ClassicalDedekindReals.sig_forall_dec, FunctionalExtensionality.functional_extensionality_dep
PropsOptimise.C22_flags_partial: ClassicalDedekindReals.sig_not_dec, ClassicalDedekindReals.sig_forall_dec, FunctionalExtensionality.functional_extensionality_dep
PropsOptimise.C23_counts_exact: ClassicalDedekindReals.sig_not_dec, ClassicalDedekindReals.sig_forall_dec, FunctionalExtensionality.functional_extensionality_dep
PropsOptimise.C23_stats_iterations_partial: ClassicalDedekindReals.sig_not_dec, ClassicalDedekindReals.sig_forall_dec, FunctionalExtensionality.functional_extensionality_dep
PropsOptimise.C26_target: ClassicalDedekindReals.sig_not_dec, ClassicalDedekindReals.sig_forall_dec, FunctionalExtensionality.functional_extensionality_dep
PropsOptimise.C26_default: ClassicalDedekindReals.sig_not_dec, ClassicalDedekindReals.sig_forall_dec, FunctionalExtensionality.functional_extensionality_dep
PropsOptions.C25_dispatch: ClassicalDedekindReals.sig_forall_dec, FunctionalExtensionality.functional_extensionality_dep
PropsOptions.C25_options: ClassicalDedekindReals.sig_forall_dec, FunctionalExtensionality.functional_extensionality_dep
PropsOptions.C25_run: ClassicalDedekindReals.sig_forall_dec, FunctionalExtensionality.functional_extensionality_dep
PropsOptions.C25_lbfgsb_args: ClassicalDedekindReals.sig_forall_dec
PropsOptions.C25_maxiter_refuted: ClassicalDedekindReals.sig_forall_dec
PropsOptions.C25_second_run_refuted: ClassicalDedekindReals.sig_forall_dec, FunctionalExtensionality.functional_extensionality_dep
PropsParams.C46_load: closed under the global context
PropsParams.C46_missing: closed under the global context
PropsParams.C46_types_partial: closed under the global context
PropsParams.C46_float_refuted: closed under the global context
PropsParams.C46_text_refuted: closed under the global context
PropsParams.C46_bad_value: closed under the global context
PropsParams.C46_lower_case: closed under the global context
PropsParams.C46_case: closed under the global context
PropsParams.C46_case_text: closed under the global context
PropsParams.C46_booleans: closed under the global context
PropsPhysics.C69_same_problem: ClassicalDedekindReals.sig_not_dec, ClassicalDedekindReals.sig_forall_dec, FunctionalExtensionality.functional_extensionality_dep
PropsPhysics.C69_same_gradient: ClassicalDedekindReals.sig_not_dec, ClassicalDedekindReals.sig_forall_dec, FunctionalExtensionality.functional_extensionality_dep
PropsPhysics.C70_phase_folded: ClassicalDedekindReals.sig_not_dec, ClassicalDedekindReals.sig_forall_dec, FunctionalExtensionality.functional_extensionality_dep
PropsPhysics.C71_time_units: ClassicalDedekindReals.sig_not_dec, ClassicalDedekindReals.sig_forall_dec, FunctionalExtensionality.functional_extensionality_dep
PropsPhysics.C72_cut_slots: ClassicalDedekindReals.sig_not_dec, ClassicalDedekindReals.sig_forall_dec, FunctionalExtensionality.functional_extensionality_dep
PropsPhysics.C72_cut_gradient: ClassicalDedekindReals.sig_not_dec, ClassicalDedekindReals.sig_forall_dec, FunctionalExtensionality.functional_extensionality_dep
PropsPhysics.C73_reordered: ClassicalDedekindReals.sig_not_dec, ClassicalDedekindReals.sig_forall_dec, FunctionalExtensionality.functional_extensionality_dep
PropsPhysics.C73_unused: ClassicalDedekindReals.sig_not_dec, ClassicalDedekindReals.sig_forall_dec, FunctionalExtensionality.functional_extensionality_dep
PropsPhysics.C74_basis: ClassicalDedekindReals.sig_not_dec, ClassicalDedekindReals.sig_forall_dec, FunctionalExtensionality.functional_extensionality_dep
PropsPhysics.C75_energy_shift: ClassicalDedekindReals.sig_not_dec, ClassicalDedekindReals.sig_forall_dec, FunctionalExtensionality.functional_extensionality_dep
PropsPulse.C27_within_bounds: ClassicalDedekindReals.sig_not_dec, ClassicalDedekindReals.sig_forall_dec, FunctionalExtensionality.functional_extensionality_dep
PropsPulse.C27_finite: ClassicalDedekindReals.sig_not_dec, ClassicalDedekindReals.sig_forall_dec, FunctionalExtensionality.functional_extensionality_dep
PropsPulse.C27_infinite_amplitudes: ClassicalDedekindReals.sig_not_dec, ClassicalDedekindReals.sig_forall_dec, FunctionalExtensionality.functional_extensionality_dep
PropsPulse.C27_list_bounds: ClassicalDedekindReals.sig_not_dec, ClassicalDedekindReals.sig_forall_dec, FunctionalExtensionality.functional_extensionality_dep
PropsPulse.C31_waveform: ClassicalDedekindReals.sig_not_dec, ClassicalDedekindReals.sig_forall_dec, FunctionalExtensionality.functional_extensionality_dep
PropsPulse.C31_shapes: ClassicalDedekindReals.sig_not_dec, ClassicalDedekindReals.sig_forall_dec, FunctionalExtensionality.functional_extensionality_dep
PropsPulse.C31_succeeds: ClassicalDedekindReals.sig_not_dec, ClassicalDedekindReals.sig_forall_dec, FunctionalExtensionality.functional_extensionality_dep
PropsPulse.C32_walk1: ClassicalDedekindReals.sig_not_dec, ClassicalDedekindReals.sig_forall_dec, FunctionalExtensionality.functional_extensionality_dep
PropsPulse.C32_walk2_partial: ClassicalDedekindReals.sig_not_dec, ClassicalDedekindReals.sig_forall_dec, FunctionalExtensionality.functional_extensionality_dep
PropsPulse.C32_walk2_scaled_refuted: ClassicalDedekindReals.sig_not_dec, ClassicalDedekindReals.sig_forall_dec, FunctionalExtensionality.functional_extensionality_dep
PropsPulse.C33_interpolates: ClassicalDedekindReals.sig_not_dec, ClassicalDedekindReals.sig_forall_dec, FunctionalExtensionality.functional_extensionality_dep
PropsPulse.C33_on_dynamics: ClassicalDedekindReals.sig_not_dec, ClassicalDedekindReals.sig_forall_dec, FunctionalExtensionality.functional_extensionality_dep
PropsPulse.C33_gradient_refuted: ClassicalDedekindReals.sig_not_dec, ClassicalDedekindReals.sig_forall_dec, FunctionalExtensionality.functional_extensionality_dep
PropsPulse.C33_one_slot: ClassicalDedekindReals.sig_not_dec, ClassicalDedekindReals.sig_forall_dec, FunctionalExtensionality.functional_extensionality_dep
PropsPulse.C34_wavelength: ClassicalDedekindReals.sig_not_dec, ClassicalDedekindReals.sig_forall_dec, FunctionalExtensionality.functional_extensionality_dep
PropsPulse.C34_idempotent_partial: ClassicalDedekindReals.sig_not_dec, ClassicalDedekindReals.sig_forall_dec, FunctionalExtensionality.functional_extensionality_dep
PropsPulse.C34_refuted: ClassicalDedekindReals.sig_not_dec, ClassicalDedekindReals.sig_forall_dec, FunctionalExtensionality.functional_extensionality_dep
PropsPulse.C35_terminates: ClassicalDedekindReals.sig_not_dec, ClassicalDedekindReals.sig_forall_dec, FunctionalExtensionality.functional_extensionality_dep
PropsPulse.C35_bounded_by_scaling_refuted: ClassicalDedekindReals.sig_not_dec, ClassicalDedekindReals.sig_forall_dec, FunctionalExtensionality.functional_extensionality_dep
PropsPulse.C54_gaussian: ClassicalDedekindReals.sig_not_dec, ClassicalDedekindReals.sig_forall_dec, FunctionalExtensionality.functional_extensionality_dep
PropsPulse.C54_range: ClassicalDedekindReals.sig_not_dec, ClassicalDedekindReals.sig_forall_dec, FunctionalExtensionality.functional_extensionality_dep, Classical_Prop.classic
PropsPulse.C54_zero_mean_refuted: ClassicalDedekindReals.sig_not_dec, ClassicalDedekindReals.sig_forall_dec, FunctionalExtensionality.functional_extensionality_dep, Classical_Prop.classic
PropsPulse.C55_edge: ClassicalDedekindReals.sig_not_dec, ClassicalDedekindReals.sig_forall_dec, FunctionalExtensionality.functional_extensionality_dep
PropsPulse.C55_range: ClassicalDedekindReals.sig_not_dec, ClassicalDedekindReals.sig_forall_dec, FunctionalExtensionality.functional_extensionality_dep, Classical_Prop.classic
PropsPulse.C55_start_below_zero: ClassicalDedekindReals.sig_not_dec, ClassicalDedekindReals.sig_forall_dec, FunctionalExtensionality.functional_extensionality_dep
PropsPulse.C56_components: ClassicalDedekindReals.sig_not_dec, ClassicalDedekindReals.sig_forall_dec, FunctionalExtensionality.functional_extensionality_dep
PropsPulse.C56_checks: ClassicalDedekindReals.sig_not_dec, ClassicalDedekindReals.sig_forall_dec, FunctionalExtensionality.functional_extensionality_dep
PropsPulseNew.C91_kind: ClassicalDedekindReals.sig_forall_dec, FunctionalExtensionality.functional_extensionality_dep
PropsPulseNew.C91_one_class: closed under the global context
PropsPulseNew.C91_given: ClassicalDedekindReals.sig_forall_dec, FunctionalExtensionality.functional_extensionality_dep
PropsPulseNew.C91_default: ClassicalDedekindReals.sig_forall_dec, FunctionalExtensionality.functional_extensionality_dep
PropsPulseNew.C91_given_refuted: ClassicalDedekindReals.sig_forall_dec, FunctionalExtensionality.functional_extensionality_dep
PropsPulseNew.C91_reset: ClassicalDedekindReals.sig_forall_dec, FunctionalExtensionality.functional_extensionality_dep
PropsPulseNew.C91_apply: closed under the global context
PropsPulseNew.C91_free_frequencies: ClassicalDedekindReals.sig_forall_dec, FunctionalExtensionality.functional_extensionality_dep
PropsPulseNew.C91_reset_refuted: ClassicalDedekindReals.sig_forall_dec, FunctionalExtensionality.functional_extensionality_dep
PropsPulseNew.C91_later_time_refuted: ClassicalDedekindReals.sig_forall_dec, FunctionalExtensionality.functional_extensionality_dep
PropsReinit.C04_phase_option_refuted: ClassicalDedekindReals.sig_not_dec, ClassicalDedekindReals.sig_forall_dec, FunctionalExtensionality.functional_extensionality_dep
PropsReinit.C04_tau_refuted: ClassicalDedekindReals.sig_not_dec, ClassicalDedekindReals.sig_forall_dec, FunctionalExtensionality.functional_extensionality_dep, Classical_Prop.classic
PropsReinit.C04_in_place_refuted: ClassicalDedekindReals.sig_not_dec, ClassicalDedekindReals.sig_forall_dec, FunctionalExtensionality.functional_extensionality_dep, Classical_Prop.classic
PropsReinit.C04_assign_and_initialise_partial: ClassicalDedekindReals.sig_not_dec, ClassicalDedekindReals.sig_forall_dec, FunctionalExtensionality.functional_extensionality_dep
PropsReinit.C10_reinitialise_partial: ClassicalDedekindReals.sig_not_dec, ClassicalDedekindReals.sig_forall_dec, FunctionalExtensionality.functional_extensionality_dep
PropsReinit.C10_num_ctrls_refuted: ClassicalDedekindReals.sig_not_dec, ClassicalDedekindReals.sig_forall_dec, FunctionalExtensionality.functional_extensionality_dep, Classical_Prop.classic
PropsReinit.C10_drift_ham_refuted: ClassicalDedekindReals.sig_not_dec, ClassicalDedekindReals.sig_forall_dec, FunctionalExtensionality.functional_extensionality_dep, Classical_Prop.classic
PropsReinit.C10_cache_off_refuted: ClassicalDedekindReals.sig_not_dec, ClassicalDedekindReals.sig_forall_dec, FunctionalExtensionality.functional_extensionality_dep, Classical_Prop.classic
PropsReinit.C10_memory_level_refuted: closed under the global context
PropsRobust.C80_pulse: ClassicalDedekindReals.sig_not_dec, ClassicalDedekindReals.sig_forall_dec, FunctionalExtensionality.functional_extensionality_dep, Classical_Prop.classic
PropsRobust.C80_model: ClassicalDedekindReals.sig_not_dec, ClassicalDedekindReals.sig_forall_dec, FunctionalExtensionality.functional_extensionality_dep, Classical_Prop.classic
PropsRobust.C80_timing: ClassicalDedekindReals.sig_not_dec, ClassicalDedekindReals.sig_forall_dec, FunctionalExtensionality.functional_extensionality_dep, Classical_Prop.classic
PropsRobust.C81_slope: ClassicalDedekindReals.sig_not_dec, ClassicalDedekindReals.sig_forall_dec, FunctionalExtensionality.functional_extensionality_dep, Classical_Prop.classic
PropsSelect.C50_partial: ClassicalDedekindReals.sig_forall_dec, FunctionalExtensionality.functional_extensionality_dep
PropsSelect.C50_same: ClassicalDedekindReals.sig_forall_dec, FunctionalExtensionality.functional_extensionality_dep
PropsSelect.C50_refuted: ClassicalDedekindReals.sig_forall_dec, FunctionalExtensionality.functional_extensionality_dep
PropsSelect.C51_selected: ClassicalDedekindReals.sig_forall_dec, FunctionalExtensionality.functional_extensionality_dep
PropsSelect.C51_total: ClassicalDedekindReals.sig_forall_dec, FunctionalExtensionality.functional_extensionality_dep
PropsSelect.C51_case_refuted: ClassicalDedekindReals.sig_forall_dec, FunctionalExtensionality.functional_extensionality_dep
PropsSelect.C51_td_approx_refuted: ClassicalDedekindReals.sig_forall_dec, FunctionalExtensionality.functional_extensionality_dep
PropsSetup.C64_accepted: closed under the global context
PropsSetup.C64_used_partial: closed under the global context
PropsSetup.C64_foreign_partial: closed under the global context
PropsSetup.C64_exceptions: closed under the global context
PropsSetup.C64_drift: closed under the global context
PropsSetup.C64_rows_refuted: closed under the global context
PropsSetup.C64_foreign_refuted: closed under the global context
PropsSetup.C65_saved: ClassicalDedekindReals.sig_forall_dec, FunctionalExtensionality.functional_extensionality_dep
PropsSetup.C65_given: ClassicalDedekindReals.sig_forall_dec, FunctionalExtensionality.functional_extensionality_dep
PropsSetup.C65_without_times: ClassicalDedekindReals.sig_forall_dec, FunctionalExtensionality.functional_extensionality_dep
PropsSetup.C65_safe: ClassicalDedekindReals.sig_forall_dec, FunctionalExtensionality.functional_extensionality_dep
PropsSetup.C65_misfit: ClassicalDedekindReals.sig_forall_dec, FunctionalExtensionality.functional_extensionality_dep
PropsSetup.C65_one_time: ClassicalDedekindReals.sig_forall_dec, FunctionalExtensionality.functional_extensionality_dep
PropsSetup.C65_initial_final: ClassicalDedekindReals.sig_forall_dec, FunctionalExtensionality.functional_extensionality_dep
PropsSetup.C66_warned: ClassicalDedekindReals.sig_not_dec, ClassicalDedekindReals.sig_forall_dec, FunctionalExtensionality.functional_extensionality_dep
PropsSetup.C66_no_false_alarm: ClassicalDedekindReals.sig_not_dec, ClassicalDedekindReals.sig_forall_dec, FunctionalExtensionality.functional_extensionality_dep
PropsSetup.C66_recompute: ClassicalDedekindReals.sig_not_dec, ClassicalDedekindReals.sig_forall_dec, FunctionalExtensionality.functional_extensionality_dep
PropsSetup.C66_details: ClassicalDedekindReals.sig_not_dec, ClassicalDedekindReals.sig_forall_dec, FunctionalExtensionality.functional_extensionality_dep
PropsSetup.C66_details_logged: ClassicalDedekindReals.sig_not_dec, ClassicalDedekindReals.sig_forall_dec, FunctionalExtensionality.functional_extensionality_dep
PropsSetup.C66_others_partial: ClassicalDedekindReals.sig_not_dec, ClassicalDedekindReals.sig_forall_dec, FunctionalExtensionality.functional_extensionality_dep
PropsSetup.C66_others_refuted: ClassicalDedekindReals.sig_not_dec, ClassicalDedekindReals.sig_forall_dec, FunctionalExtensionality.functional_extensionality_dep
PropsSetup.C66_class_refuted: ClassicalDedekindReals.sig_not_dec, ClassicalDedekindReals.sig_forall_dec, FunctionalExtensionality.functional_extensionality_dep
PropsSetup.C66_tolerance_refuted: ClassicalDedekindReals.sig_not_dec, ClassicalDedekindReals.sig_forall_dec, FunctionalExtensionality.functional_extensionality_dep
PropsStats.C45_calculate: ClassicalDedekindReals.sig_forall_dec, FunctionalExtensionality.functional_extensionality_dep
PropsStats.C45_clear: ClassicalDedekindReals.sig_forall_dec
PropsStats.C45_dynamic_partial: ClassicalDedekindReals.sig_forall_dec, FunctionalExtensionality.functional_extensionality_dep
PropsStats.C45_dynamic_nan_refuted: ClassicalDedekindReals.sig_forall_dec, FunctionalExtensionality.functional_extensionality_dep
PropsStats.C45_dynamic_clear_refuted: ClassicalDedekindReals.sig_forall_dec
PropsStats.C45_counters: ClassicalDedekindReals.sig_not_dec, ClassicalDedekindReals.sig_forall_dec, FunctionalExtensionality.functional_extensionality_dep
PropsSymplectic.C18_omega: ClassicalDedekindReals.sig_forall_dec, FunctionalExtensionality.functional_extensionality_dep
PropsSymplectic.C18_generators: ClassicalDedekindReals.sig_forall_dec, FunctionalExtensionality.functional_extensionality_dep
PropsSymplectic.C18_products: ClassicalDedekindReals.sig_forall_dec, FunctionalExtensionality.functional_extensionality_dep
PropsSymplectic.C18_evolution: ClassicalDedekindReals.sig_not_dec, ClassicalDedekindReals.sig_forall_dec, FunctionalExtensionality.functional_extensionality_dep
PropsSymplectic.C59_always_symplectic: ClassicalDedekindReals.sig_forall_dec, FunctionalExtensionality.functional_extensionality_dep
PropsSymplectic.C59_documented_partial: ClassicalDedekindReals.sig_forall_dec, FunctionalExtensionality.functional_extensionality_dep, Classical_Prop.classic
PropsSymplectic.C59_read_first_refuted: ClassicalDedekindReals.sig_forall_dec, FunctionalExtensionality.functional_extensionality_dep
PropsSymplectic.C59_capitals_refuted: ClassicalDedekindReals.sig_forall_dec, FunctionalExtensionality.functional_extensionality_dep
PropsSymplectic.C59_resize_refuted: ClassicalDedekindReals.sig_forall_dec, FunctionalExtensionality.functional_extensionality_dep
PropsTimeslots.C07_consistent: ClassicalDedekindReals.sig_forall_dec, FunctionalExtensionality.functional_extensionality_dep
PropsTimeslots.C07_explicit_kept: ClassicalDedekindReals.sig_forall_dec, FunctionalExtensionality.functional_extensionality_dep
PropsTimeslots.C07_equal_slots: ClassicalDedekindReals.sig_forall_dec, FunctionalExtensionality.functional_extensionality_dep
PropsTimeslots.C07_before_reading: ClassicalDedekindReals.sig_forall_dec, FunctionalExtensionality.functional_extensionality_dep
PropsTimeslots.C07_zero_slots: ClassicalDedekindReals.sig_forall_dec, FunctionalExtensionality.functional_extensionality_dep
PropsVerbose.C90_quiet: ClassicalDedekindReals.sig_not_dec, ClassicalDedekindReals.sig_forall_dec, FunctionalExtensionality.functional_extensionality_dep
PropsVerbose.C90_answers: ClassicalDedekindReals.sig_not_dec, ClassicalDedekindReals.sig_forall_dec, FunctionalExtensionality.functional_extensionality_dep
PropsVerbose.C90_exactly: ClassicalDedekindReals.sig_not_dec, ClassicalDedekindReals.sig_forall_dec, FunctionalExtensionality.functional_extensionality_dep
PropsVerbose.C90_harmless: ClassicalDedekindReals.sig_not_dec, ClassicalDedekindReals.sig_forall_dec, FunctionalExtensionality.functional_extensionality_dep
PropsVerbose.C90_intense: ClassicalDedekindReals.sig_not_dec, ClassicalDedekindReals.sig_forall_dec, FunctionalExtensionality.functional_extensionality_dep
PropsVerbose.C90_debug: ClassicalDedekindReals.sig_not_dec, ClassicalDedekindReals.sig_forall_dec, FunctionalExtensionality.functional_extensionality_dep
PropsVerbose.C90_intense_refuted: ClassicalDedekindReals.sig_not_dec, ClassicalDedekindReals.sig_forall_dec, FunctionalExtensionality.functional_extensionality_dep
PropsVerbose.C90_debug_refuted: ClassicalDedekindReals.sig_not_dec, ClassicalDedekindReals.sig_forall_dec, FunctionalExtensionality.functional_extensionality_dep, Classical_Prop.classic
PropsVerbose.C90_start: ClassicalDedekindReals.sig_not_dec, ClassicalDedekindReals.sig_forall_dec, FunctionalExtensionality.functional_extensionality_dep
PropsVerbose.C90_message_constant: ClassicalDedekindReals.sig_not_dec, ClassicalDedekindReals.sig_forall_dec, FunctionalExtensionality.functional_extensionality_dep
PropsVerbose.C90_message_rows: ClassicalDedekindReals.sig_not_dec, ClassicalDedekindReals.sig_forall_dec, FunctionalExtensionality.functional_extensionality_dep
PropsVerbose.C90_message_refuted: ClassicalDedekindReals.sig_not_dec, ClassicalDedekindReals.sig_forall_dec, FunctionalExtensionality.functional_extensionality_dep
PropsWhere.C87_values: closed under the global context
PropsWhere.C87_in_force: closed under the global context
PropsWhere.C87_shown_partial: closed under the global context
PropsWhere.C87_shown_refuted: closed under the global context
PropsWhere.C88_dir: closed under the global context
PropsWhere.C88_first_partial: closed under the global context
PropsWhere.C88_renamed_partial: closed under the global context
PropsWhere.C88_gradients: closed under the global context
PropsWhere.C88_moved_refuted: closed under the global context
PropsWhere.C88_off: closed under the global context
