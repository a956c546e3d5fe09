{
 "claims": [
  {
   "property": "C01",
   "status": "proved",
   "theorems": [
    "C01_sync_chunks_tile",
    "C01_huge_batch_size_refuted"
   ],
   "note": "Tiling for every B >= 1 and batch_size() < 2^63; from 2^63 on the code violates it (refuted)."
  },
  {
   "property": "C02",
   "status": "proved",
   "theorems": [
    "C02_slice_cat",
    "C02_slice_entries",
    "C02_select_scatter_self",
    "C02_select_scatter_rows"
   ],
   "note": ""
  },
  {
   "property": "C03",
   "status": "proved",
   "theorems": [
    "C03_forward"
   ],
   "note": "Row independence of the Model is the hypothesis, as in the statement; C25 discharges it for chains of row-wise graphs."
  },
  {
   "property": "C04",
   "status": "proved",
   "theorems": [
    "C04_jvp"
   ],
   "note": ""
  },
  {
   "property": "C05",
   "status": "proved",
   "theorems": [
    "C05_jacobian"
   ],
   "note": ""
  },
  {
   "property": "C06",
   "status": "proved",
   "theorems": [
    "C06_param_jacobian",
    "C06_chunk_parameters"
   ],
   "note": "forward with batched parameters is C03_forward (its hypothesis forward_rows ranges over the chunk's parameter rows)."
  },
  {
   "property": "C07",
   "status": "partial",
   "theorems": [
    "C07_param_vjp",
    "C07_size_one_parameter_refuted",
    "C07_binary64_regrouping_refuted"
   ],
   "note": "Positive theorem whenever the Model's gradient is per element exactly for parameters with a leading axis of the batch size and additive otherwise; as stated (every stored shape, IEEE addition) the property is false: two counterexamples."
  },
  {
   "property": "C17",
   "status": "proved",
   "theorems": [
    "C17_greedy",
    "C17_wraparound_refuted"
   ],
   "note": "For tables whose load + batch_size fits 64 bits; beyond that the sum wraps around (refuted)."
  },
  {
   "property": "C18",
   "status": "proved",
   "theorems": [
    "C18_accepts_iff",
    "C18_idle_pool_has_room",
    "C18_device_alias_refuted"
   ],
   "note": "Distinctness is of device strings, as the code documents; two names of one GPU are accepted (finding)."
  },
  {
   "property": "C19",
   "status": "partial",
   "theorems": [
    "C19_load_bound",
    "C19_capacity_refuted"
   ],
   "note": "False as stated with two or more callers (refuted); the exact bound capacity + (k-1) batch_size is proved and attained."
  },
  {
   "property": "C09",
   "status": "proved",
   "theorems": [
    "C09_results_in_batch_order",
    "C09_forward",
    "C09_jvp",
    "C09_jacobian",
    "C09_param_jacobian",
    "C09_param_vjp"
   ],
   "note": "Labelled transition system of the dispatch thread and the device workers, any number of calls, arbitrary evaluation outcomes; equality with the undivided call for row-independent Models, and throws-iff-throws when evaluations are deterministic and the dispatch thread does not run out of memory."
  },
  {
   "property": "C10",
   "status": "proved",
   "theorems": [
    "C10_capacity_respected",
    "C10_accepted_pool"
   ],
   "note": "For every reachable state of the transition system; C10_accepted_pool says which accepted configurations are covered (distinct devices, sizes below the 64-bit limits). A scheduler shared by two dispatchers is C19."
  },
  {
   "property": "C11",
   "status": "proved",
   "theorems": [
    "C11_load_exact",
    "C11_clean_at_end",
    "C11_no_terminate"
   ],
   "note": ""
  },
  {
   "property": "C12",
   "status": "proved",
   "theorems": [
    "C12_no_deadlock",
    "C12_can_finish"
   ],
   "note": "Assumes chunk evaluations end."
  },
  {
   "property": "C13",
   "status": "proved",
   "theorems": [
    "C13_call_steps_bounded"
   ],
   "note": "A spurious wake-up costs at most two extra steps."
  },
  {
   "property": "C14",
   "status": "proved",
   "theorems": [
    "C14_failures_reported",
    "C14_recoverable_iff_all"
   ],
   "note": ""
  },
  {
   "property": "C15",
   "status": "proved",
   "theorems": [
    "C15_stops_after_failure"
   ],
   "note": ""
  },
  {
   "property": "C16",
   "status": "proved",
   "theorems": [
    "C16_fifo_once",
    "C16_drained",
    "C16_exited",
    "C16_no_deadlock",
    "C16_shutdown_bounded"
   ],
   "note": ""
  },
  {
   "property": "C47",
   "status": "proved",
   "theorems": [
    "C47_guarded",
    "C47_recoverable_iff",
    "C47_fatal_dominates",
    "C47_message_parts",
    "C47_message_complete"
   ],
   "note": ""
  },
  {
   "property": "C21",
   "status": "proved",
   "theorems": [
    "C21_every_device_up_to_date",
    "C21_copies_exact",
    "C21_retained_reference_refuted",
    "C21_erased_parameter_refuted"
   ],
   "note": "proved for histories whose writes happen at the access; the two refuted theorems show what a reference kept across an evaluation and an erased key do"
  },
  {
   "property": "C22",
   "status": "proved",
   "theorems": [
    "C22_overrides_scoped",
    "C22_restored",
    "C22_concurrent_refuted"
   ],
   "note": "proved for evaluations of one Model by one thread at a time (which is how the dispatcher drives it); the refuted theorem shows two threads sharing a Model"
  },
  {
   "property": "C23",
   "status": "proved",
   "theorems": [
    "C23_forward",
    "C23_jvp",
    "C23_jacobian",
    "C23_param_jacobian",
    "C23_param_vjp",
    "C23_parameters_loaded",
    "C23_parameters_resolve",
    "C23_clash_refuted",
    "C23_original_name_shadows_refuted"
   ],
   "note": ""
  },
  {
   "property": "C20",
   "status": "proved",
   "theorems": [
    "C20_round_robin",
    "C20_too_few_ranks",
    "C20_every_node",
    "C20_construction_raises",
    "C20_device_list",
    "C20_constructed",
    "C20_colliding_hosts_refuted"
   ],
   "note": "Per node this needs host names that do not share an MPI colour (hash modulo INT_MAX); C20_colliding_hosts_refuted shows what happens otherwise."
  },
  {
   "property": "C48",
   "status": "proved",
   "theorems": [
    "C48_resolution",
    "C48_one_level",
    "C48_environment_wins",
    "C48_reset"
   ],
   "note": "For the value of NEML2_LOGS last read, when well formed; C49 covers the malformed case."
  },
  {
   "property": "C49",
   "status": "partial",
   "theorems": [
    "C49_first_use_partial",
    "C49_apply_env_partial",
    "C49_later_uses_partial",
    "C49_consistent_refuted"
   ],
   "note": "False as stated: the first use raises, later uses silently apply the entries before the first invalid one (C49_consistent_refuted). The _partial theorems say exactly what happens instead."
  },
  {
   "property": "C51",
   "status": "proved",
   "theorems": [
    "C51_capture_flag"
   ],
   "note": ""
  },
  {
   "property": "C08",
   "status": "partial",
   "theorems": [
    "C08_leading_sizes_partial",
    "C08_lower_rank_refuted"
   ],
   "note": "False as stated: a batched input of lower rank gives a different answer without an error (C08_lower_rank_refuted). C08_leading_sizes_partial covers differing leading sizes for all five operations; C25_dispatched_forward covers aligned inputs."
  },
  {
   "property": "C24",
   "status": "proved",
   "theorems": [
    "C24_prepares",
    "C24_only_acceptable",
    "C24_one_batch",
    "C24_missing_or_wrong_raises",
    "C24_incompatible_raises",
    "C24_extras_ignored",
    "C24_missing_sub_axis_refuted"
   ],
   "note": "For inputs of at least their declared rank; C24_missing_sub_axis_refuted shows what happens to an input lacking its sub-batch axis."
  },
  {
   "property": "C25",
   "status": "proved",
   "theorems": [
    "C25_forward_rows",
    "C25_devices",
    "C25_dispatched_forward"
   ],
   "note": "For models of forward segments and inputs aligned on the batch axis."
  },
  {
   "property": "C30",
   "status": "proved",
   "theorems": [
    "C30_returned_converged",
    "C30_returned_first",
    "C30_otherwise_recoverable",
    "C30_infinite_start_refuted",
    "C30_exact_start_refuted"
   ],
   "note": "Findings: an overflowing initial residual makes the relative test vacuous (C30_infinite_start_refuted); atol = 0 refuses an exact start (C30_exact_start_refuted). An error raised by the system itself passes through."
  },
  {
   "property": "C31",
   "status": "proved",
   "theorems": [
    "C31_solve_cost",
    "C31_reported_count",
    "C31_iteration_cost",
    "C31_masked_cost"
   ],
   "note": ""
  },
  {
   "property": "C32",
   "status": "proved",
   "theorems": [
    "C32_admissible",
    "C32_first_accepted",
    "C32_cut_unique"
   ],
   "note": "Cuts reach k <= ls_max_iters - 2. Independence of rows is for systems whose rows are unrelated."
  },
  {
   "property": "C33",
   "status": "proved",
   "theorems": [
    "C33_never_raises",
    "C33_mask_exact",
    "C33_mask_meets_tolerance",
    "C33_frozen",
    "C33_solved_start_lost_refuted"
   ],
   "note": "Frozen means unchanged up to the sign of zero, for step lengths that stay finite. Finding: a row solved at the start point is not frozen in the first update and can be lost (C33_solved_start_lost_refuted)."
  },
  {
   "property": "C34",
   "status": "partial",
   "theorems": [
    "C34_independent_partial",
    "C34_solved_start_refuted",
    "C34_not_finite_refuted"
   ],
   "note": "False as stated for a row solved at the start (C34_solved_start_refuted) and for a row that stops being finite (C34_not_finite_refuted); C34_independent_partial covers the other rows."
  },
  {
   "property": "C52",
   "status": "proved",
   "theorems": [
    "C52_every_chunk_converged",
    "C52_rows_follow_own_iterates",
    "C52_same_count_same_row",
    "C52_bitwise_refuted"
   ],
   "note": "Bitwise equality across chunk sizes is refuted (C52_bitwise_refuted)."
  },
  {
   "property": "C41",
   "status": "proved",
   "theorems": [
    "C41_pack_unpack",
    "C41_unpack_pack",
    "C41_slots",
    "C41_slots_disjoint",
    "C41_slots_cover",
    "C41_missing_raises"
   ],
   "note": ""
  },
  {
   "property": "C40",
   "status": "partial",
   "theorems": [
    "C40_guess_partial",
    "C40_solve_gets_guess",
    "C40_substepping_ignores_guess",
    "C40_substepped_refuted"
   ],
   "note": "Proved for the plain solve; false with substepping, where nothing but the givens is read (C40_substepped_refuted, C40_substepping_ignores_guess)."
  },
  {
   "property": "C50",
   "status": "proved",
   "theorems": [
    "C50_feedback_rounds",
    "C50_other_inputs",
    "C50_last_outputs",
    "C50_without_feedback",
    "C50_bounded",
    "C50_runs"
   ],
   "note": "That the last outputs are the guess: C40_guess_partial, third part."
  },
  {
   "property": "C53",
   "status": "partial",
   "theorems": [
    "C53_capture_same",
    "C53_capture_transparent",
    "C53_one_row_marked",
    "C53_some_row_marked_refuted"
   ],
   "note": "That the mask marks some row is proved for one row and false for several (C53_some_row_marked_refuted); what a mask bit means is C33."
  },
  {
   "property": "C35",
   "status": "proved",
   "theorems": [
    "C35_tiling",
    "C35_dyadic"
   ],
   "note": "Tiling by at most level halvings for every failure pattern and the solve bound are proved for any arithmetic; that halvings of [0,1] are dyadic intervals is proved in exact rationals."
  },
  {
   "property": "C36",
   "status": "proved",
   "theorems": [
    "C36_rows",
    "C36_one_row_batch"
   ],
   "note": "Batches of any shape; against a row-level specification and against the driver on a one-row batch."
  },
  {
   "property": "C37",
   "status": "proved",
   "theorems": [
    "C37_all_or_raise",
    "C37_failing_row_raises",
    "C37_solve_error_passes"
   ],
   "note": ""
  },
  {
   "property": "C38",
   "status": "partial",
   "theorems": [
    "C38_inputs",
    "C38_unchained",
    "C38_shared_endpoint",
    "C38_ends",
    "C38_float_end_refuted",
    "C38_float_start_refuted"
   ],
   "note": "Inputs per role and the shared endpoint hold for any arithmetic. Reaching the prescribed value holds in exact arithmetic; in binary64 it is false (C38_float_end_refuted, C38_float_start_refuted)."
  },
  {
   "property": "C26",
   "status": "proved",
   "theorems": [
    "C26_composed",
    "C26_single_forward",
    "C26_single_forward_exact",
    "C26_forward_mode",
    "C26_no_path",
    "C26_implicit",
    "C26_iterative"
   ],
   "note": "Composition for any value type and any inner product; that it is forward differentiation, vanishes without a path and satisfies the implicit function theorem in any commutative ring. Requested inputs without sub-batch axes. Segments the exporter marks off the derivative path are taken to contribute nothing."
  },
  {
   "property": "C27",
   "status": "proved",
   "theorems": [
    "C27_partition",
    "C27_order",
    "C27_fails",
    "C27_unlisted"
   ],
   "note": ""
  },
  {
   "property": "C28",
   "status": "partial",
   "theorems": [
    "C28_contracts",
    "C28_exact",
    "C28_linear",
    "C28_repeated_pair_refuted"
   ],
   "note": "Proved for pairs without repetition; a repeated pair is counted twice by jvp (C28_repeated_pair_refuted)."
  },
  {
   "property": "C29",
   "status": "partial",
   "theorems": [
    "C29_composed",
    "C29_single_forward",
    "C29_single_implicit",
    "C29_single_exact",
    "C29_forward_mode",
    "C29_implicit",
    "C29_contracts",
    "C29_adjoint",
    "C29_adjoint_graph",
    "C29_missing_cotangent",
    "C29_cotangent_shape_refuted",
    "C29_stored_shape_refuted",
    "C29_repeated_pair_refuted",
    "C29_substepping_refuted"
   ],
   "note": "Proved for cotangents of the outputs' shapes, pairs without repetition and segments without substepping; false otherwise (the four _refuted theorems): permuted cotangents are accepted, a size-1 batch axis is not reduced, repeated pairs count twice, and substepping is ignored."
  },
  {
   "property": "C39",
   "status": "proved",
   "theorems": [
    "C39_values",
    "C39_chain",
    "C39_product",
    "C39_tangent_rows",
    "C39_segment"
   ],
   "note": "The chain of tangents in any arithmetic; the product form in exact arithmetic."
  },
  {
   "property": "C42",
   "status": "proved",
   "theorems": [
    "C42_roundtrip",
    "C42_inverse",
    "C42_elements",
    "C42_block_refused"
   ],
   "note": "For non-empty lists of dense groups over one batch shape and device."
  },
  {
   "property": "C43",
   "status": "partial",
   "theorems": [
    "C43_bicgstab_bound",
    "C43_gmres_bound",
    "C43_bicgstab_exact",
    "C43_gmres_exact",
    "C43_returns",
    "C43_zero_restart",
    "C43_empty",
    "C43_budget_refuted"
   ],
   "note": "False as stated: BiCGStab applies the operator twice per iteration and GMRES runs full cycles past max_its (C43_budget_refuted). The true bounds, the exact cost of every returning solve and termination are proved; restart = 0 is undefined behaviour."
  },
  {
   "property": "C44",
   "status": "partial",
   "theorems": [
    "C44_bicgstab_rows",
    "C44_bicgstab_iters",
    "C44_bicgstab_frozen",
    "C44_gmres_rows_partial",
    "C44_gmres_same_iters_partial",
    "C44_gmres_refuted"
   ],
   "note": "Proved in full for BiCGStab. For GMRES flags and counts are independent of the other rows and solutions depend on them through the total iteration count only; the full claim is false (C44_gmres_refuted)."
  },
  {
   "property": "C45",
   "status": "partial",
   "theorems": [
    "C45_columns",
    "C45_tolerance_partial",
    "C45_gmres_partial",
    "C45_stops_partial",
    "C45_refuted"
   ],
   "note": "False as stated: the convergence flags are dropped (C45_refuted). Proved: the column structure, in exact arithmetic the tolerance for BiCGStab and GMRES solves that stopped before the budget, and for every GMRES solve whose cycles are as long as a row (C45_stops_partial)."
  },
  {
   "property": "C46",
   "status": "proved",
   "theorems": [
    "C46_policy",
    "C46_state",
    "C46_no_preconditioner"
   ],
   "note": ""
  },
  {
   "property": "C54",
   "status": "partial",
   "theorems": [
    "C54_bicgstab",
    "C63_unpreconditioned",
    "C54_gmres_preconditioned_refuted",
    "C54_gmres_singular_refuted"
   ],
   "note": "Proved for BiCGStab in exact arithmetic (flag true exactly if within tolerance); false for GMRES with a preconditioner and for a singular operator; for GMRES without preconditioner and a well-posed operator C63_unpreconditioned."
  },
  {
   "property": "C55",
   "status": "proved",
   "theorems": [
    "C55_jvp_values",
    "C55_jacobian_values",
    "C55_single_values",
    "C55_single_outputs_refuted"
   ],
   "note": "Values agree for all segment mixtures. On a single forward segment jacobian() returns the segment's outputs instead of the declared ones (C55_single_outputs_refuted); their values still agree."
  },
  {
   "property": "C56",
   "status": "partial",
   "theorems": [
    "C56_param_values_partial",
    "C56_substepping_refuted",
    "C56_sub_batch_refuted"
   ],
   "note": "False as stated: param_jacobian() takes one step where forward() substeps, and broadcasts parameters to the dynamic axes only. Proved without substepped segments and with a first input without sub-batch axes."
  },
  {
   "property": "C57",
   "status": "proved",
   "theorems": [
    "C57_segment_solved",
    "C57_masked_segment_solved",
    "C57_forward_solved",
    "C57_jvp_solved",
    "C57_jacobian_solved"
   ],
   "note": ""
  },
  {
   "property": "C58",
   "status": "proved",
   "theorems": [
    "C58_substeps_solved",
    "C58_no_row_unmarked",
    "C58_forward_solved"
   ],
   "note": ""
  },
  {
   "property": "C59",
   "status": "proved",
   "theorems": [
    "C59_step",
    "C59_bicgstab",
    "C59_gmres",
    "C59_stops"
   ],
   "note": "C59_step covers all methods and any arithmetic; C59_bicgstab holds over any ring, C59_gmres and C59_stops over the reals."
  },
  {
   "property": "C60",
   "status": "proved",
   "theorems": [
    "C60_roundtrip",
    "C60_settings",
    "C60_sensitivity"
   ],
   "note": ""
  },
  {
   "property": "C61",
   "status": "partial",
   "theorems": [
    "C61_sound",
    "C61_values",
    "C61_missing_refuted",
    "C61_accepts_refuted"
   ],
   "note": "What loads is sound. Not everything else raises: a missing required key is undefined behaviour, unknown solver kinds and out-of-range integers are accepted."
  },
  {
   "property": "C62",
   "status": "partial",
   "theorems": [
    "C62_recoverable",
    "C62_message",
    "C62_taxonomy",
    "C62_facade",
    "C62_context",
    "C62_context_refuted"
   ],
   "note": "The captured failure survives the translators but is dropped by the eager model's guard."
  },
  {
   "property": "C63",
   "status": "proved",
   "theorems": [
    "C63_gmres",
    "C63_unpreconditioned",
    "C63_row_stops",
    "C63_stops",
    "C63_short_cycle"
   ],
   "note": "Over the real numbers (standard library axioms of the reals). Rounding is not covered."
  },
  {
   "property": "C64",
   "status": "proved",
   "theorems": [
    "C64_discipline",
    "C64_completes",
    "C64_failed_setup_refuted"
   ],
   "note": "If setting up the streams raises, the GIL stays with the failed thread and other threads wait for ever (C64_failed_setup_refuted)."
  },
  {
   "property": "C65",
   "status": "partial",
   "theorems": [
    "C65_once",
    "C65_usable",
    "C65_alone",
    "C65_python_first",
    "C65_cpp_first_refuted",
    "C65_race_refuted",
    "C65_kernel_refuted"
   ],
   "note": "The last clause is false: an import after a construction always raises (C65_cpp_first_refuted, for all runs). A construction racing with an import can raise (C65_race_refuted), and after a failed kernel registration the next construction returns without a kernel (C65_kernel_refuted)."
  },
  {
   "property": "C66",
   "status": "proved",
   "theorems": [
    "C66_segment",
    "C66_masked"
   ],
   "note": "The hypothesis faithful (matrix-free segments only) says that the compiled graphs answer on one device and in the shapes of the metadata; the graphs themselves are arbitrary functions."
  },
  {
   "property": "C67",
   "status": "proved",
   "theorems": [
    "C67_linear",
    "C67_programs",
    "C67_delivery",
    "C67_sinks",
    "C67_no_deadlock",
    "C67_ends"
   ],
   "note": ""
  },
  {
   "property": "C68",
   "status": "proved",
   "theorems": [
    "C68_transparent",
    "C68_throwing_sink",
    "C68_history",
    "C68_masked_history",
    "C68_summary",
    "C68_empty_batch_refuted"
   ],
   "note": "the statement excludes empty batches; C68_empty_batch_refuted shows why"
  },
  {
   "property": "C69",
   "status": "proved",
   "theorems": [
    "C69_forward",
    "C69_forward_complete",
    "C69_jvp",
    "C69_jacobian",
    "C69_described",
    "C69_param_jacobian",
    "C69_param_described"
   ],
   "note": "consistent asks for what the exporter ensures: non-negative sizes, distinct names, the packages the solver needs; graphs_agree asks that the derivative package of a forward segment returns the values of the value package. For parameter derivatives the values need plain_values (no substepping segment, no sub-batch axes of the first input), see C56 for why; that the derivatives are those of the model described is C29."
  },
  {
   "property": "C70",
   "status": "proved",
   "theorems": [
    "C70_bundle",
    "C70_portable",
    "C70_computes",
    "C70_sound",
    "C70_refused",
    "C70_adopt",
    "C70_device_refuted",
    "C70_adopt_refuted"
   ],
   "note": "the statement is restricted to cpu and cuda devices: C70_device_refuted shows that any other device silently loads the cpu packages; C70_adopt_refuted: a model may be wrapped for another device of the same kind. Symbolic links are outside."
  },
  {
   "property": "C71",
   "status": "proved",
   "theorems": [
    "C71_same",
    "C71_result",
    "C71_masked",
    "C71_settings",
    "C71_linear",
    "C71_ls_type_refuted",
    "C71_unconverged_refuted"
   ],
   "note": "That module and graph compute the same function is the hypothesis same_model: the exporter is outside. Names of line searches are not checked by the binding (C71_ls_type_refuted); unconverged linear solves return on both routes (C71_unconverged_refuted, C45)."
  },
  {
   "property": "C72",
   "status": "proved",
   "theorems": [
    "C72_forward",
    "C72_pool",
    "C72_overrides",
    "C72_no_inputs"
   ],
   "note": "About calls that return a result; what follows a call that throws is C11, C14 and C22. What packages compute on a device is the argument graph, the same for chunked and unchunked rows of its input."
  },
  {
   "property": "C73",
   "status": "proved",
   "theorems": [
    "C73_said",
    "C73_said_jacobian",
    "C73_same",
    "C73_same_jacobian",
    "C73_context",
    "C73_context_jacobian",
    "C73_rows"
   ],
   "note": "A line is the numbers in it; the two numbers of the error and what is attached to it are kept beside it. Capture is covered for segments that answer for every row of a well-formed batch."
  },
  {
   "property": "C74",
   "status": "proved",
   "theorems": [
    "C74_jvp",
    "C74_jacobian",
    "C74_param_jacobian",
    "C74_param_vjp",
    "C74_pool_jvp",
    "C74_pool_jacobian",
    "C74_pool_param_jacobian",
    "C74_pool_param_vjp",
    "C74_overrides",
    "C74_no_inputs"
   ],
   "note": "About calls that return a result. The values of param_jacobian() unless a segment substeps or the first input has sub-batch axes (C56). Rows are placed where the parts are well formed and have a row per batch element; what the model of a part computes is C26, C28 and C29."
  },
  {
   "property": "C75",
   "status": "proved",
   "theorems": [
    "C75_watched",
    "C75_unwatched",
    "C75_numbered",
    "C75_last",
    "C75_bicgstab",
    "C75_gmres",
    "C75_step",
    "C75_summary",
    "C75_true_residual_refuted"
   ],
   "note": "C75_gmres is over the reals, for rows in which no norm was floored. C75_true_residual_refuted: with a preconditioner a GMRES line is not about b - A x, though its ratio is to |b|."
  },
  {
   "property": "C76",
   "status": "proved",
   "theorems": [
    "C76_prepared",
    "C76_takes",
    "C76_refused",
    "C76_forward",
    "C76_forward_error",
    "C76_jacobian",
    "C76_jvp",
    "C76_twin",
    "C76_parameter",
    "C76_jvp_batched_parameter_refuted"
   ],
   "note": "The chain rule of the model in Python is a hypothesis (carries): it pushes any stack of seed directions through its linearisation. Blocks are compared with compiled models of more than one segment (a single forward segment may return blocks with axes of size 1 dropped, C26_single_forward). C76_jvp_batched_parameter_refuted: with a parameter of larger batch than the inputs jvp() raises or returns a tangent of another shape than the output. param_jacobian() and param_vjp() (autograd) are not modelled."
  },
  {
   "property": "C77",
   "status": "proved",
   "theorems": [
    "C77_own_directory",
    "C77_no_collision",
    "C77_loads",
    "C77_rooted",
    "C77_restored",
    "C77_destroy",
    "C77_no_deadlock",
    "C77_search_ends",
    "C77_refused_directory_refuted",
    "C77_visible_refuted",
    "C77_host_sets_refuted",
    "C77_failed_load_refuted"
   ],
   "note": "The _refuted theorems are about what the code does outside the statement: a temp directory in which nothing can be made loops for ever with the mutex held; other threads see the override; what the host sets during a load is lost and two loaders may then share a directory; a failed load leaves its directory. torch's part is what the comment in the code says of it."
  },
  {
   "property": "C78",
   "status": "proved",
   "theorems": [
    "C78_param_jacobian",
    "C78_param_vjp",
    "C78_adjoint",
    "C78_restored",
    "C78_swapped",
    "C78_refused",
    "C78_cotangents",
    "C78_constant_output_refuted",
    "C78_knots_refuted",
    "C78_knots_mixed_refuted"
   ],
   "note": "Reverse-mode autograd is a hypothesis (it applies the transposed derivative to a cotangent). The _refuted theorems are about what the property excludes and the documentation does not: an output that depends on no parameter makes param_jacobian() raise, a parameter with sub-batch axes makes it raise or mixes the entries of the batch."
  },
  {
   "property": "C79",
   "status": "proved",
   "theorems": [
    "C79_built",
    "C79_provided",
    "C79_defined",
    "C79_raises",
    "C79_thrown",
    "C79_gone",
    "C79_construction_ends",
    "C79_thread_refuted",
    "C79_later_thread_refuted"
   ],
   "note": "Sequentially consistent memory. The _refuted theorems are about std::terminate when a later thread cannot be made, where a caller would expect the exception."
  },
  {
   "property": "C80",
   "status": "proved",
   "theorems": [
    "C80_same",
    "C80_same_dispatched",
    "C80_context",
    "C80_thrown",
    "C80_true",
    "C80_always",
    "C80_dispatched",
    "C80_arrives",
    "C80_pool",
    "C80_leaves",
    "C80_where_refuted",
    "C80_device_refuted",
    "C80_several_refuted"
   ],
   "note": "The context of a substepped segment is C73's. The _refuted theorems are what a reader of Exception.h would expect besides: the context does not tell the rows of the batch it is about, is not moved to the device of the inputs, and cannot be read from an aggregate."
  },
  {
   "property": "C81",
   "status": "proved",
   "theorems": [
    "C81_loaded",
    "C81_in_place",
    "C81_isolated",
    "C81_storage",
    "C81_set_shares",
    "C81_set_copies",
    "C81_up_to_date",
    "C81_copies_exact",
    "C81_by_value",
    "C81_forward",
    "C81_pool",
    "C81_operations",
    "C81_kept_tensor_refuted",
    "C81_owned_refuted"
   ],
   "note": "Storages are lists of elements and a tensor is the list of positions it views. The _refuted theorems are findings about sentences of the headers: a write through a tensor kept across an evaluation, or through the caller's own tensor after set_parameter, reaches the master and not the other devices."
  },
  {
   "property": "C82",
   "status": "proved",
   "theorems": [
    "C82_operations",
    "C82_pool",
    "C82_forward",
    "C82_binding"
   ],
   "note": "collect_log is not among the settings modelled: it decides what a solve records, not what it returns (NewtonLog.v). Calls that race with an evaluation are not modelled."
  },
  {
   "property": "C83",
   "status": "proved",
   "theorems": [
    "C83_forward",
    "C83_missing",
    "C83_leaf",
    "C83_order_refuted"
   ],
   "note": "The casters of pybind11 and at::Device of a string are not modelled; the latter is a parameter. The _refuted theorem is about jvp() and jacobian(), whose outputs come sorted by name and not in the order of forward()."
  }
 ]
}