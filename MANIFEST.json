{
 "claims": [
  {
   "property": "C01",
   "status": "proved",
   "theorems": [
    "C01_program_weight",
    "C01_program_returns",
    "C01_statements"
   ],
   "note": ""
  },
  {
   "property": "C02",
   "status": "proved",
   "theorems": [
    "C02_unconditioned",
    "C02_statements"
   ],
   "note": ""
  },
  {
   "property": "C03",
   "status": "proved",
   "theorems": [
    "C03_substitution",
    "C03_provenance",
    "C03_nothing_reused_without_substitution"
   ],
   "note": ""
  },
  {
   "property": "C04",
   "status": "proved",
   "theorems": [
    "C04_full_substitution",
    "C04_statements"
   ],
   "note": ""
  },
  {
   "property": "C05",
   "status": "proved",
   "theorems": [
    "C05_compose_law",
    "C05_compose_propagates_errors"
   ],
   "note": ""
  },
  {
   "property": "C06",
   "status": "proved",
   "theorems": [
    "C06_compose_overlap"
   ],
   "note": ""
  },
  {
   "property": "C07",
   "status": "proved",
   "theorems": [
    "C07_extend_law"
   ],
   "note": ""
  },
  {
   "property": "C08",
   "status": "proved",
   "theorems": [
    "C08_extend_contract"
   ],
   "note": ""
  },
  {
   "property": "C09",
   "status": "proved",
   "theorems": [
    "C09_propose_weight",
    "C09_propose_law",
    "C09_propose_returns",
    "C09_transformed"
   ],
   "note": ""
  },
  {
   "property": "C10",
   "status": "proved",
   "theorems": [
    "C10_importance_weight"
   ],
   "note": ""
  },
  {
   "property": "C11",
   "status": "proved",
   "theorems": [
    "C11_target_not_extend",
    "C11_target_extend"
   ],
   "note": ""
  },
  {
   "property": "C12",
   "status": "proved",
   "theorems": [
    "C12_objective_data",
    "C12_forward_trace"
   ],
   "note": ""
  },
  {
   "property": "C13",
   "status": "proved",
   "theorems": [
    "C13_no_gradient"
   ],
   "note": ""
  },
  {
   "property": "C14",
   "status": "proved",
   "theorems": [
    "C14_scoped"
   ],
   "note": ""
  },
  {
   "property": "C15",
   "status": "proved",
   "theorems": [
    "C15_history_free"
   ],
   "note": ""
  },
  {
   "property": "C16",
   "status": "partial",
   "theorems": [
    "C16_sharing_refuted",
    "C16_sharing_partial",
    "C16_distinct_instances_partial"
   ],
   "note": "REFUTED as stated: C16_sharing_refuted gives Propose(p=Extend(Extend(A,B),B)) with one instance B, whose second use runs unconditioned because leaving the inner Extend resets B's conditioning to None instead of restoring it. C16_sharing_partial and C16_distinct_instances_partial prove the property for all programs in which, in an Extend that may run under substitution, neither part is a component of the other."
  },
  {
   "property": "C17",
   "status": "proved",
   "theorems": [
    "C17_positional",
    "C17_kwargs_reach",
    "C17_reported_index"
   ],
   "note": ""
  },
  {
   "property": "C18",
   "status": "proved",
   "theorems": [
    "C18_dispatch"
   ],
   "note": ""
  },
  {
   "property": "C19",
   "status": "proved",
   "theorems": [
    "C19_same_run",
    "C19_loss"
   ],
   "note": ""
  },
  {
   "property": "C20",
   "status": "proved",
   "theorems": [
    "C20_debug_neutral",
    "C20_debug_adds"
   ],
   "note": ""
  },
  {
   "property": "C21",
   "status": "proved",
   "theorems": [
    "C21_addresses",
    "C21_first_write_wins",
    "C21_last_write_wins",
    "C21_no_overlaps"
   ],
   "note": ""
  },
  {
   "property": "C22",
   "status": "proved",
   "theorems": [
    "C22_copy_identity"
   ],
   "note": ""
  },
  {
   "property": "C23",
   "status": "proved",
   "theorems": [
    "C23_rerun"
   ],
   "note": ""
  },
  {
   "property": "C24",
   "status": "proved",
   "theorems": [
    "C24_valeq",
    "C24_pairs_rejected"
   ],
   "note": ""
  },
  {
   "property": "C25",
   "status": "partial",
   "theorems": [
    "C25_check_exist_refuted",
    "C25_check_exist_ignored"
   ],
   "note": "REFUTED: the property is false of the code. C25_check_exist_refuted gives a witness and C25_check_exist_ignored shows that the flag is ignored on every input."
  },
  {
   "property": "C26",
   "status": "proved",
   "theorems": [
    "C26_whole_particles",
    "C26_addresses"
   ],
   "note": ""
  },
  {
   "property": "C27",
   "status": "proved",
   "theorems": [
    "C27_output_checked",
    "C27_not_a_dict",
    "C27_default_resampler",
    "C27_default_raises"
   ],
   "note": ""
  },
  {
   "property": "C28",
   "status": "proved",
   "theorems": [
    "C28_ancestors_valid",
    "C28_vector_never_fails",
    "C28_matrix_never_fails"
   ],
   "note": ""
  },
  {
   "property": "C29",
   "status": "partial",
   "theorems": [
    "C29_floor_ceil_refuted",
    "C29_floor_ceil_partial",
    "C29_within_one"
   ],
   "note": "REFUTED as stated at the single offset u=0 (which torch.rand can return): C29_floor_ceil_refuted. C29_floor_ceil_partial proves floor-or-ceiling for every 0<u<1, and C29_within_one proves 'within 1' for every offset."
  },
  {
   "property": "C30",
   "status": "proved",
   "theorems": [
    "C30_expected_copies",
    "C30_unbiased"
   ],
   "note": ""
  },
  {
   "property": "C31",
   "status": "partial",
   "theorems": [
    "C31_weightless_refuted",
    "C31_weightless_die_partial",
    "C31_weight_zero"
   ],
   "note": "REFUTED as stated at the single offset u=0 for particle 0: C31_weightless_refuted. C31_weightless_die_partial proves it for every other offset or particle."
  },
  {
   "property": "C32",
   "status": "proved",
   "theorems": [
    "C32_mean_weight",
    "C32_normalised"
   ],
   "note": ""
  },
  {
   "property": "C33",
   "status": "partial",
   "theorems": [
    "C33_shape_partial",
    "C33_shape_without_batch",
    "C33_shape_refuted"
   ],
   "note": "REFUTED without batch_dim: C33_shape_refuted, and C33_shape_without_batch shows that a dimension of size 1 is always appended. C33_shape_partial proves the property with batch_dim."
  },
  {
   "property": "C34",
   "status": "proved",
   "theorems": [
    "C34_ess",
    "C34_bounds",
    "C34_maximal",
    "C34_shift"
   ],
   "note": ""
  },
  {
   "property": "C35",
   "status": "proved",
   "theorems": [
    "C35_log_mean",
    "C35_bounds",
    "C35_shift"
   ],
   "note": ""
  },
  {
   "property": "C36",
   "status": "partial",
   "theorems": [
    "C36_attributes_refuted",
    "C36_missing_refuted",
    "C36_attributes_partial"
   ],
   "note": "REFUTED for names of dict methods (pd.items = v is not read back by pd.items); the positive version, over all histories on all other names, is proved (C36_attributes_partial)"
  },
  {
   "property": "C37",
   "status": "proved",
   "theorems": [
    "C37_unpack",
    "C37_unpack_general",
    "C37_items"
   ],
   "note": ""
  },
  {
   "property": "C38",
   "status": "proved",
   "theorems": [
    "C38_resample_calls_hook",
    "C38_default",
    "C38_get",
    "C38_set",
    "C38_bypass",
    "C38_set_hook",
    "C38_installed",
    "C38_resample_update"
   ],
   "note": ""
  },
  {
   "property": "C39",
   "status": "proved",
   "theorems": [
    "C39_key_injective",
    "C39_no_model_lost",
    "C39_names_checked",
    "C39_restore",
    "C39_missing",
    "C39_mismatch"
   ],
   "note": ""
  },
  {
   "property": "C40",
   "status": "partial",
   "theorems": [
    "C40_bare_program_refuted"
   ],
   "note": "REFUTED: the property is false of the code. C40_bare_program_refuted shows that no call of Propose with a Program as proposal ever returns; C09_propose_returns is the positive version for combinator proposals."
  },
  {
   "property": "C41",
   "status": "proved",
   "theorems": [
    "C41_annealed_weight"
   ],
   "note": ""
  },
  {
   "property": "C42",
   "status": "proved",
   "theorems": [
    "C42_stats_in_order",
    "C42_needs_debug",
    "C42_no_steps"
   ],
   "note": "With resampling the call itself must pass _debug=True (C42_needs_debug shows it fails otherwise); with no step at all it raises NameError (C42_no_steps)."
  },
  {
   "property": "C43",
   "status": "partial",
   "theorems": [
    "C43_only_forward_node_refuted",
    "C43_exactly",
    "C43_only_forward_node_partial",
    "C43_applied"
   ],
   "note": "REFUTED for arbitrary traces: the exclusion is a substring test, so stl_trace(tr, 9) drops g1 (C43_only_forward_node_refuted). C43_exactly says what it does on every trace; C43_only_forward_node_partial proves the property for the traces vsmc hands to it."
  },
  {
   "property": "C44",
   "status": "proved",
   "theorems": [
    "C44_tempered_path",
    "C44_too_few",
    "C44_trained",
    "C44_binary32"
   ],
   "note": ""
  },
  {
   "property": "C45",
   "status": "proved",
   "theorems": [
    "C45_eval0",
    "C45_eval1",
    "C45_avo",
    "C45_rkl",
    "C45_rkl_nonneg",
    "C45_loss_is"
   ],
   "note": ""
  },
  {
   "property": "C46",
   "status": "proved",
   "theorems": [
    "C46_addresses"
   ],
   "note": ""
  },
  {
   "property": "C47",
   "status": "proved",
   "theorems": [
    "C47_runs",
    "C47_steps",
    "C47_total",
    "C47_systematic"
   ],
   "note": ""
  },
  {
   "property": "C48",
   "status": "proved",
   "theorems": [
    "C48_store_follows",
    "C48_after_resample",
    "C48_weak_only"
   ],
   "note": ""
  },
  {
   "property": "C49",
   "status": "proved",
   "theorems": [
    "C49_moments",
    "C49_reverse_order",
    "C49_symmetric",
    "C49_semidefinite",
    "C49_definite"
   ],
   "note": "Exact arithmetic, unbatched tensors."
  },
  {
   "property": "C50",
   "status": "proved",
   "theorems": [
    "C50_properly_weighted",
    "C50_normalising_constant",
    "C50_extend_alone_refuted",
    "C50_well_formed_weighted"
   ],
   "note": "For any abstract integral (finite sums and counting measures are instances), scalar log-weights, and executions that do not raise. Resample is covered by C59. C50_extend_alone_refuted shows that Extend run outside a Propose is not properly weighted."
  },
  {
   "property": "C51",
   "status": "proved",
   "theorems": [
    "C51_mixture",
    "C51_ring"
   ],
   "note": ""
  },
  {
   "property": "C52",
   "status": "partial",
   "theorems": [
    "C52_prior_chain_partial",
    "C52_later_times",
    "C52_prior_chain_refuted"
   ],
   "note": "REFUTED with three or more frames: C52_prior_chain_refuted (at times after ix.t+1 the code centres the prior at time ix.t, C52_later_times). C52_prior_chain_partial proves the property for all times up to ix.t+1, in particular in the initial importance sampling and in every digit step."
  },
  {
   "property": "C53",
   "status": "partial",
   "theorems": [
    "C53_rkl_mod_refuted"
   ],
   "note": "REFUTED: the property is false of the code. C53_rkl_mod_refuted shows that no call returns: it reads a name that is never bound (NameError)."
  },
  {
   "property": "C54",
   "status": "proved",
   "theorems": [
    "C54_bounces",
    "C54_inside",
    "C54_leaving_velocity_refuted",
    "C54_start_apart",
    "C54_all_apart_refuted",
    "C54_too_few_objects"
   ],
   "note": "C54_leaving_velocity_refuted and C54_all_apart_refuted are the witnesses for the two negative remarks in the statement."
  },
  {
   "property": "C55",
   "status": "proved",
   "theorems": [
    "C55_chunks",
    "C55_chunk_size_must_be_positive",
    "C55_shapes_distinct",
    "C55_too_few_shapes",
    "C55_load_once"
   ],
   "note": ""
  },
  {
   "property": "C56",
   "status": "partial",
   "theorems": [
    "C56_all_found",
    "C56_exactly",
    "C56_only_requested_partial",
    "C56_only_requested_refuted",
    "C56_nothing"
   ],
   "note": "REFUTED as stated: the file filter is a substring test, so asking for 3 objects also reads files with 30 (C56_only_requested_refuted). C56_exactly characterises what is read, C56_only_requested_partial proves the property when no stored simulation has ten times as many objects, C56_all_found proves that nothing requested is missed, C56_nothing the ValueError."
  },
  {
   "property": "C57",
   "status": "proved",
   "theorems": [
    "C57_batches",
    "C57_all_used_refuted",
    "C57_all_used",
    "C57_budget"
   ],
   "note": "C57_all_used_refuted shows that the remainder really is left out."
  },
  {
   "property": "C58",
   "status": "proved",
   "theorems": [
    "C58_round_trip",
    "C58_patch_inside",
    "C58_drawn_there"
   ],
   "note": ""
  },
  {
   "property": "C59",
   "status": "proved",
   "theorems": [
    "C59_population_weighted",
    "C59_normalising_constant",
    "C59_well_formed_weighted"
   ],
   "note": "Abstract integrals as in C50; the single-particle program is tied to the vectorised one by 'copies'. C59_well_formed_weighted has no hypothesis about executions."
  },
  {
   "property": "C60",
   "status": "proved",
   "theorems": [
    "C60_never_raises",
    "C60_any_library",
    "C60_populations",
    "C60_systematic"
   ],
   "note": "C60_never_raises for any sorts of tensors; C60_any_library for unrestricted draws, C60_populations for particle populations with Systematic. C50_well_formed_weighted and C59_well_formed_weighted use it."
  },
  {
   "property": "C61",
   "status": "proved",
   "theorems": [
    "C61_annealed_population",
    "C61_normalising_constant",
    "C61_never_raises"
   ],
   "note": "Abstract integrals as in C50; Systematic resampling; log-densities finite."
  },
  {
   "property": "C62",
   "status": "partial",
   "theorems": [
    "C62_observations_stay",
    "C62_gibbs_stays",
    "C62_population_refuted"
   ],
   "note": "REFUTED: Systematic leaves observed variables, with their log-probabilities, where they are, and Propose charges them; C62_population_refuted is a program with one observation and two particles whose expected average weight is 23/32 instead of 20/32. C62_observations_stay says exactly what is charged, for every program, C62_gibbs_stays that the Gibbs sweeps do this with the likelihood of the frames. C59 proves the property when nothing is observed before a Resample."
  },
  {
   "property": "C63",
   "status": "partial",
   "theorems": [
    "C63_result",
    "C63_loss",
    "C63_annealing",
    "C63_no_gradient",
    "C63_hierarchical_refuted",
    "C63_default_refuted"
   ],
   "note": "REFUTED as stated: with the default _no_reruns=True the outer objective's gradient reaches the inner proposal (C63_default_refuted), and with _no_reruns=False it still does when the inner target is hierarchical (C63_hierarchical_refuted), because rerun_with_detached_values keeps the distributions, which were built from values that are not detached. C63_result and C63_loss prove, for every nesting and every library obeying the laws of autograd, which programs are reached: level/exposed in SpecGradient.v say it exactly; with _no_reruns=False and kept targets whose distributions do not depend on other variables the property holds. C63_annealing proves it for vsmc, whose targets are of this kind. C63_no_gradient: in the model of tensors as functions of the parameters, not depending means partial derivative 0."
  },
  {
   "property": "C64",
   "status": "proved",
   "theorems": [
    "C64_ancestors_valid",
    "C64_copies",
    "C64_weightless_die"
   ],
   "note": "Flocq's binary32/binary64 rounding (no largest number, no NaN); the CPU's sequential cumulative sum in binary64; one batch entry."
  },
  {
   "property": "C65",
   "status": "proved",
   "theorems": [
    "C65_evaluation"
   ],
   "note": ""
  },
  {
   "property": "C66",
   "status": "proved",
   "theorems": [
    "C66_run_name",
    "C66_model_version",
    "C66_last_checkpoint",
    "C66_never_saved"
   ],
   "note": ""
  },
  {
   "property": "C67",
   "status": "partial",
   "theorems": [
    "C67_flags",
    "C67_flag_refuted",
    "C67_budget_ignored",
    "C67_budget_refuted",
    "C67_plan"
   ],
   "note": "REFUTED: C67_flag_refuted (`--resample False` resamples: type=bool turns every nonempty string into True; C67_flags says exactly when a flag is on, for every command line) and C67_budget_refuted (main.py:178 rebinds the budget to 288, so that the budget given names the run's files but never changes the number of samples: C67_budget_ignored, for every command line)."
  },
  {
   "property": "C68",
   "status": "partial",
   "theorems": [
    "C68_sampler",
    "C68_complete",
    "C68_fresh_directory_refuted",
    "C68_existing_directory",
    "C68_smoketest_directory",
    "C68_training",
    "C68_smoketest"
   ],
   "note": "The loop part is proved (C68_training, C68_smoketest). REFUTED for a working directory without ./results: C68_fresh_directory_refuted (the log file is opened before its directory is created, so training stops with FileNotFoundError and leaves the directory as it was); C68_existing_directory and C68_smoketest_directory give the cases that work."
  },
  {
   "property": "C69",
   "status": "partial",
   "theorems": [
    "C69_iid_partial",
    "C69_shape",
    "C69_shape_refuted"
   ],
   "note": "The distribution for one-dimensional sample shapes is proved in full (C69_iid_partial). REFUTED for every other sample shape: C69_shape (the result has the requested shape exactly when that has one dimension) and C69_shape_refuted (sample((2,3)) returns shape (6), sample((2,3,4)) returns 72 values instead of 24)."
  },
  {
   "property": "C70",
   "status": "partial",
   "theorems": [
    "C70_agreement_partial",
    "C70_rerun",
    "C70_alike",
    "C70_resample_refuted"
   ],
   "note": "Proved for all programs whose resamplers keep agreement, in particular all without Resample (C70_agreement_partial, C70_rerun), and for resampled variables whose distribution treats all particles alike (C70_alike). REFUTED with Resample in general: C70_resample_refuted (Systematic permutes value and log_prob but keeps the distribution object, so a variable whose parameters differ between particles carries the distribution of another particle; rerunning the resampled trace turns a log-density ln 3/4 into ln 1/4)."
  },
  {
   "property": "C71",
   "status": "partial",
   "theorems": [
    "C71_training",
    "C71_weights",
    "C71_batch_refuted"
   ],
   "note": "Proved for all programs, objectives and numbers of iterations (C71_training: whatever returns; C71_weights: never raises on a batch of one, without resampling). REFUTED for sample_shape with more than one batch element: C71_batch_refuted (.item() of the effective sample size raises ValueError in the first iteration, after the parameters have been changed). The metrics are taken along dimension 0 of each slice whatever sample_dims is."
  },
  {
   "property": "C72",
   "status": "proved",
   "theorems": [
    "C72_step_weight",
    "C72_initial_weight",
    "C72_in_step",
    "C72_systematic"
   ],
   "note": "The joint uses the position prior the code uses (position_prior), which C52 shows is not the chain prior within a sweep. keeps_observed is proved for the systematic resampler (C72_systematic)."
  },
  {
   "property": "C73",
   "status": "partial",
   "theorems": [
    "C73_initial_kernel",
    "C73_arguments_refuted",
    "C73_always_normal",
    "C73_paper_model",
    "C73_untrained_weight"
   ],
   "note": "REFUTED: C73_arguments_refuted: the offset and the off-diagonal covariance given to the constructor are silently ignored. Everything else in the statement is proved."
  },
  {
   "property": "C74",
   "status": "proved",
   "theorems": [
    "C74_positions",
    "C74_sequential",
    "C74_digits",
    "C74_reconstruction"
   ],
   "note": ""
  },
  {
   "property": "C75",
   "status": "proved",
   "theorems": [
    "C75_annealing",
    "C75_gibbs"
   ],
   "note": ""
  },
  {
   "property": "C76",
   "status": "proved",
   "theorems": [
    "C76_distribution_draws",
    "C76_kernel_draws",
    "C76_substituted",
    "C76_refuses"
   ],
   "note": ""
  },
  {
   "property": "C77",
   "status": "partial",
   "theorems": [
    "C77_report",
    "C77_smoke_refuted",
    "C77_batch",
    "C77_log_p",
    "C77_ess_constant",
    "C77_ess_refuted",
    "C77_training"
   ],
   "note": "REFUTED for ess and for the smoke test: the reported ess is computed from the incoming weights of the last step, which were just resampled and normalised, and is always the number of particles (C77_ess_constant, and a run whose particles have effective sample size 8/5 while 2 is printed, C77_ess_refuted); a smoke test divides by the number of all batches (C77_smoke_refuted). The averages (C77_report) and log_p (C77_log_p) are proved."
  },
  {
   "property": "C78",
   "status": "proved",
   "theorems": [
    "C78_adam",
    "C78_adam_refuses",
    "C78_annealing",
    "C78_apg",
    "C78_checkpoints"
   ],
   "note": ""
  },
  {
   "property": "C79",
   "status": "partial",
   "theorems": [
    "C79_repr",
    "C79_repr_refuted",
    "C79_entries",
    "C79_leaves",
    "C79_show_refuted",
    "C79_variable",
    "C79_showall",
    "C79_delimiter_refuted",
    "C79_ppr",
    "C79_ppr_refuted",
    "C79_parentheses_refuted",
    "C79_columns",
    "C79_format_refuted",
    "C79_tensor",
    "C79_gradient",
    "C79_ndarray_refuted"
   ],
   "note": "REFUTED: displaying fails on empty PropertyDicts, show fails on every non-empty trace, showall and ppr with distributions fail on variables without one, the text of distributions has unbalanced parentheses and formatting arguments are ignored; what is displayed when it succeeds is proved complete (C79_repr, C79_entries, C79_showall)"
  },
  {
   "property": "C80",
   "status": "partial",
   "theorems": [
    "C80_plan",
    "C80_flag_refuted",
    "C80_test",
    "C80_test_file_refuted",
    "C80_test_untrained_refuted",
    "C80_test_budget_refuted",
    "C80_checkpoint_names",
    "C80_overwrite_refuted"
   ],
   "note": "REFUTED: flags given as False are on; the test mode never loads a checkpoint (C80_test_untrained_refuted), reads the first data file of any kind and accepts an empty population; trainings that differ in layer sizes, seed or learning rate share their checkpoint. What the arguments do is proved in full (C80_plan, C80_test, C80_checkpoint_names)."
  },
  {
   "property": "C81",
   "status": "partial",
   "theorems": [
    "C81_autodevice",
    "C81_kw_autodevice",
    "C81_kw_device_refuted"
   ],
   "note": "REFUTED only for torch.device preferences of kw_autodevice (TypeError); everything else is proved (C81_autodevice, C81_kw_autodevice)"
  },
  {
   "property": "C82",
   "status": "proved",
   "theorems": [
    "C82_sweeps_properly_weighted",
    "C82_evidence",
    "C82_initial_properly_weighted"
   ],
   "note": "The hypothesis idle says that the resampler returns what it is given; C62 shows that the resampler of the code breaks proper weighting. Densities are positive in the model (exp of a real log-density)."
  },
  {
   "property": "C83",
   "status": "proved",
   "theorems": [
    "C83_any_nesting",
    "C83_associative",
    "C83_unit_last",
    "C83_unit_first"
   ],
   "note": ""
  },
  {
   "property": "C84",
   "status": "partial",
   "theorems": [
    "C84_first_weight",
    "C84_rkl_first_step",
    "C84_rkl_first_step_sign",
    "C84_rkl_average_partial",
    "C84_average_refuted"
   ],
   "note": "REFUTED: C84_average_refuted. In the first step nvo_rkl sums over the particles instead of averaging. Proved: the average where every particle has its own incoming weight (C84_rkl_average_partial), and the exact value and gradient of the first step."
  },
  {
   "property": "C85",
   "status": "partial",
   "theorems": [
    "C85_divergence_gradient",
    "C85_expected_gradient",
    "C85_unbiased_partial",
    "C85_unbiased_refuted"
   ],
   "note": "REFUTED: C85_unbiased_refuted: at a minimum of the divergence the expected gradient is 1/2 for every number of particles, because nvo_rkl never subtracts the gradient of the proposal's log normalising constant (nvo_rkl_mod tries to, but raises NameError, C53). C85_expected_gradient says exactly what the expectation is; C85_unbiased_partial proves the property for learned reverse kernels. Forward kernels are fixed in the model of this property."
  },
  {
   "property": "C86",
   "status": "proved",
   "theorems": [
    "C86_single",
    "C86_importance",
    "C86_resampled",
    "C86_sampler",
    "C86_log_Z_hat"
   ],
   "note": ""
  },
  {
   "property": "C87",
   "status": "proved",
   "theorems": [
    "C87_loss",
    "C87_bounded",
    "C87_bound"
   ],
   "note": ""
  },
  {
   "property": "C88",
   "status": "proved",
   "theorems": [
    "C88_interrupted",
    "C88_finished",
    "C88_steps"
   ],
   "note": ""
  },
  {
   "property": "C89",
   "status": "partial",
   "theorems": [
    "C89_figure_refuted",
    "C89_before_figure",
    "C89_results",
    "C89_metrics_apart"
   ],
   "note": "REFUTED: plotting.py uses torch without importing it, so every run in the configuration of the paper ends with an exception, draws no figure and never says it is done (C89_figure_refuted); model and metrics have been saved by then (C89_before_figure); for all other runs the property holds (C89_results), and metric files never collide (C89_metrics_apart)."
  },
  {
   "property": "C90",
   "status": "partial",
   "theorems": [
    "C90_images",
    "C90_rectangles",
    "C90_objects",
    "C90_colors",
    "C90_saved_refuted"
   ],
   "note": "REFUTED in one part: with save=True only the figure of the last sequence is saved (C90_saved_refuted). The rest is proved: C90_images, C90_rectangles, C90_objects, C90_colors."
  },
  {
   "property": "C91",
   "status": "partial",
   "theorems": [
    "C91_equal",
    "C91_equal_refuted",
    "C91_order",
    "C91_twice",
    "C91_twice_refuted"
   ],
   "note": "Proved for every offset in (0,1) and with a batch dimension (C91_equal, C91_order, C91_twice). REFUTED at the offset 0, which torch.rand can return (C91_equal_refuted: the first particle is doubled and the last lost), and without a batch dimension (C91_twice_refuted: a second Resample always raises, because the first appends a dimension to the weights). Arithmetic is exact; for floating point see C64."
  },
  {
   "property": "C92",
   "status": "proved",
   "theorems": [
    "C92_one_more",
    "C92_tighter"
   ],
   "note": ""
  },
  {
   "property": "C93",
   "status": "proved",
   "theorems": [
    "C93_natural",
    "C93_rename",
    "C93_resampler"
   ],
   "note": ""
  },
  {
   "property": "C94",
   "status": "proved",
   "theorems": [
    "C94_separate"
   ],
   "note": ""
  },
  {
   "property": "C95",
   "status": "proved",
   "theorems": [
    "C95_numbers"
   ],
   "note": ""
  },
  {
   "property": "C96",
   "status": "proved",
   "theorems": [
    "C96_vectorised"
   ],
   "note": ""
  },
  {
   "property": "C97",
   "status": "proved",
   "theorems": [
    "C97_chosen"
   ],
   "note": ""
  },
  {
   "property": "C98",
   "status": "proved",
   "theorems": [
    "C98_resampler",
    "C98_batches"
   ],
   "note": ""
  },
  {
   "property": "C99",
   "status": "proved",
   "theorems": [
    "C99_rkl_rescaled",
    "C99_avo_rescaled",
    "C99_loss_is_rescaled",
    "C99_rkl_order",
    "C99_avo_order",
    "C99_loss_is_order",
    "C99_metrics_order",
    "C99_evidence_order"
   ],
   "note": ""
  },
  {
   "property": "C100",
   "status": "proved",
   "theorems": [
    "C100_replay",
    "C100_whole_trace",
    "C100_extend"
   ],
   "note": ""
  },
  {
   "property": "C101",
   "status": "proved",
   "theorems": [
    "C101_extended",
    "C101_own_trace",
    "C101_itself"
   ],
   "note": ""
  }
 ]
}