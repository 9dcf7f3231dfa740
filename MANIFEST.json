{
 "claims": [
  {
   "property": "C01",
   "status": "proved",
   "theorems": [
    "C01_tiling_round_trip",
    "C01_rows_round_trip"
   ],
   "note": ""
  },
  {
   "property": "C02",
   "status": "proved",
   "theorems": [
    "C02_rows_are_tiles",
    "C02_each_position_once"
   ],
   "note": ""
  },
  {
   "property": "C03",
   "status": "proved",
   "theorems": [
    "C03_parameter_count",
    "C03_tile_compatible"
   ],
   "note": ""
  },
  {
   "property": "C04",
   "status": "proved",
   "theorems": [
    "C04_granularity_recovery",
    "C04_nondividing_refuted"
   ],
   "note": "For every tile that divides the data. Outside that domain (a non-dividing tile, which strict_blocks=False accepts) the docstring's promise fails: C04_nondividing_refuted."
  },
  {
   "property": "C05",
   "status": "proved",
   "theorems": [
    "C05_rounding_is_nearest_even",
    "C05_codes_in_range",
    "C05_elementwise_total_in_range"
   ],
   "note": ""
  },
  {
   "property": "C06",
   "status": "proved",
   "theorems": [
    "C06_rounding_error",
    "C06_saturation",
    "C06_fractional_offset_refuted"
   ],
   "note": "Error bound for every offset; saturation to the reported range ends for integral offsets (for fractional offsets see C06_fractional_offset_refuted)."
  },
  {
   "property": "C07",
   "status": "proved",
   "theorems": [
    "C07_grid_fixpoint",
    "C07_idempotent"
   ],
   "note": ""
  },
  {
   "property": "C08",
   "status": "proved",
   "theorems": [
    "C08_monotone"
   ],
   "note": ""
  },
  {
   "property": "C09",
   "status": "proved",
   "theorems": [
    "C09_range_covered",
    "C09_total",
    "C09_one_bit_symmetric_refuted",
    "C09_set_range_then_quantize"
   ],
   "note": "Upper end exact when the range is not narrower than float32 eps * (2^b-1); otherwise a superset. One-bit symmetric ranges divide by zero (C09_one_bit_symmetric_refuted)."
  },
  {
   "property": "C10",
   "status": "partial",
   "theorems": [
    "C10_set_then_get",
    "C10_get_then_set",
    "C10_narrow_range_refuted"
   ],
   "note": "Holds when max-min >= eps32*(2^b-1) (resp. scale >= eps32); a narrower range is widened by the eps floor: C10_narrow_range_refuted."
  },
  {
   "property": "C11",
   "status": "partial",
   "theorems": [
    "C11_dynamic_half_step_partial",
    "C11_dynamic_asymmetric_total",
    "C11_zero_tile_refuted"
   ],
   "note": "Half-step accuracy whenever the result is finite, which always holds in asymmetric mode; symmetric mode on data with an all-zero tile yields NaN (C11_zero_tile_refuted)."
  },
  {
   "property": "C12",
   "status": "proved",
   "theorems": [
    "C12_quantize_elementwise",
    "C12_dequantize_elementwise"
   ],
   "note": ""
  },
  {
   "property": "C13",
   "status": "proved",
   "theorems": [
    "C13_straight_through_gradients",
    "C13_input_gradient_mask"
   ],
   "note": ""
  },
  {
   "property": "C14",
   "status": "partial",
   "theorems": [
    "C14_reshape",
    "C14_transpose",
    "C14_getitem",
    "C14_expand",
    "C14_take_along",
    "C14_contiguous",
    "C14_getitem_per_channel",
    "C14_unsqueeze_per_tensor",
    "C14_unsqueeze_per_tile_partial",
    "C14_unsqueeze_per_channel_refuted",
    "C14_scalar_multiply",
    "C14_cat_partial",
    "C14_cat_refuted",
    "C14_topk_partial",
    "C14_topk_refuted"
   ],
   "note": "Proved for reshape/view, transpose, indexing (per tensor and per channel), expand, take_along_dim, contiguous, scalar multiply, unsqueeze (per tensor, per tile). Not true of the code: unsqueeze on per-channel data (C14_unsqueeze_per_channel_refuted), cat of a tensor without and one with an offset (C14_cat_refuted), topk with a negative scale (C14_topk_refuted)."
  },
  {
   "property": "C15",
   "status": "proved",
   "theorems": [
    "C15_strict_never_dequantizes",
    "C15_lenient_dequantizes_everything"
   ],
   "note": ""
  },
  {
   "property": "C16",
   "status": "proved",
   "theorems": [
    "C16_newest_best_priority",
    "C16_with_removals",
    "C16_with_unambiguous_removals",
    "C16_duplicate_removal_refuted",
    "C16_predicate_operators"
   ],
   "note": "For histories that register each kernel/predicate pair at most once; removing one of two identical registrations removes the other one (C16_duplicate_removal_refuted)."
  },
  {
   "property": "C17",
   "status": "proved",
   "theorems": [
    "C17_with_block_restores",
    "C17_active_inside",
    "C17_reachable_tables_sorted"
   ],
   "note": ""
  },
  {
   "property": "C18",
   "status": "proved",
   "theorems": [
    "C18_block_restores",
    "C18_value_inside",
    "C18_blocks_are_lexical",
    "C18_reused_context_refuted"
   ],
   "note": "Holds for with-blocks. A stored context object entered a second time does not give its value inside (C18_reused_context_refuted)."
  },
  {
   "property": "C19",
   "status": "partial",
   "theorems": [
    "C19_forward_is_decorated",
    "C19_second_call_refuted"
   ],
   "note": "Holds for overrides that call their callback at most once per call; an override that calls it twice bypasses the remaining overrides the second time (C19_second_call_refuted)."
  },
  {
   "property": "C20",
   "status": "proved",
   "theorems": [
    "C20_program_restores",
    "C20_blocks_are_lexical",
    "C20_disabled_passes_through"
   ],
   "note": ""
  },
  {
   "property": "C21",
   "status": "partial",
   "theorems": [
    "C21_ends_refuted",
    "C21_activation_refuted",
    "C21_frozen_partial"
   ],
   "note": "Refuted: the overrides are never removed (C21_ends_refuted) and activation quantizers become stubs too (C21_activation_refuted). The frozen value itself is right: C21_frozen_partial."
  },
  {
   "property": "C22",
   "status": "partial",
   "theorems": [
    "C22_scoped_to_forward_partial",
    "C22_exception_refuted",
    "C22_reentrant_refuted",
    "C22_two_handles_refuted"
   ],
   "note": "Holds for non-re-entrant calls that return, with one handle per module; refuted for exceptions, re-entrant calls and two handles on a module."
  },
  {
   "property": "C23",
   "status": "proved",
   "theorems": [
    "C23_running_is_global",
    "C23_running_extends_range",
    "C23_split_independent"
   ],
   "note": ""
  },
  {
   "property": "C24",
   "status": "proved",
   "theorems": [
    "C24_smoothed_is_weighted_average",
    "C24_weights_convex",
    "C24_between_extremes",
    "C24_smoothed_from_range"
   ],
   "note": ""
  },
  {
   "property": "C25",
   "status": "partial",
   "theorems": [
    "C25_grid_search_best",
    "C25_uniform_grid_rows_partial",
    "C25_uneven_grid_refuted"
   ],
   "note": "Holds for every grid with exactly the requested number of candidates (incl. symmetric, perfect squares); refuted for the asymmetric uniform grid when the number of candidates is not a perfect square: C25_uneven_grid_refuted"
  },
  {
   "property": "C26",
   "status": "partial",
   "theorems": [
    "C26_no_trace",
    "C26_prepare_error_refuted"
   ],
   "note": "Holds once all quantizers are prepared, for every body and exception point in the body; refuted when preparing a later quantizer raises: C26_prepare_error_refuted"
  },
  {
   "property": "C27",
   "status": "partial",
   "theorems": [
    "C27_conversion_partial",
    "C27_unsupported_raises_first",
    "C27_plain_container_refuted",
    "C27_shared_module_refuted"
   ],
   "note": "Proved for trees (or any acyclic module graph when already quantized modules are skipped) without entry-less plain torch.nn.Module containers; unsupported classes raise before any change. Refuted: an entry-less torch.nn.Module container, or a module shared by two parents without skip_quantized_modules, makes quantize_model raise after converting part of the model."
  },
  {
   "property": "C28",
   "status": "proved",
   "theorems": [
    "C28_last_registration_wins",
    "C28_registering_keeps_entries",
    "C28_one_entry_per_class",
    "C28_filters_are_scoped"
   ],
   "note": ""
  },
  {
   "property": "C29",
   "status": "proved",
   "theorems": [
    "C29_each_quantizer_once",
    "C29_all_paths",
    "C29_children_only"
   ],
   "note": ""
  },
  {
   "property": "C30",
   "status": "proved",
   "theorems": [
    "C30_config_precedence"
   ],
   "note": "Assumes quantizers do not contain quantizers among the targets and factories return; a quantizer held under two attributes is replaced only at the location of the winning search result."
  },
  {
   "property": "C31",
   "status": "proved",
   "theorems": [
    "C31_overwrite_and_skip",
    "C31_error_raises"
   ],
   "note": "Under 'error' the stubs before the first concrete quantizer stay initialized; the theorem says exactly which."
  },
  {
   "property": "C32",
   "status": "partial",
   "theorems": [
    "C32_shared_tensors",
    "C32_dangling_alias",
    "C32_round_trip_partial",
    "C32_dtype_refuted",
    "C32_views_refuted"
   ],
   "note": "Full for tensors whose key (address, shape, stride, device) determines the dtype; refuted for a view with another dtype, and for views with another shape or layout (kept apart)."
  },
  {
   "property": "C33",
   "status": "partial",
   "theorems": [
    "C33_round_trip_partial",
    "C33_lazy_rejected",
    "C33_load_checks",
    "C33_file_not_empty",
    "C33_wrong_model",
    "C33_no_parameters_refuted",
    "C33_shared_module_refuted",
    "C33_comma_refuted",
    "C33_dtype_refuted"
   ],
   "note": "Round trip proved for describable quantizers with plain names; refuted for a quantizer without parameters, a module registered under two names (default policy), a comma in a module name, and a dtype changed after construction."
  },
  {
   "property": "C34",
   "status": "proved",
   "theorems": [
    "C34_overwrite_and_skip",
    "C34_overwrite",
    "C34_skip",
    "C34_error",
    "C34_error_on_stubs",
    "C34_kept",
    "C34_names",
    "C34_atomic_refuted"
   ],
   "note": "All three policies as stated, for every saved state and model; a load that fails under 'error' is not undone (refuted atomicity)."
  },
  {
   "property": "C35",
   "status": "partial",
   "theorems": [
    "C35_linear_idempotent_partial",
    "C35_linear_quantizers_are_stable",
    "C35_linear_models_partial",
    "C35_fused_weights_partial",
    "C35_forward_unchanged_partial",
    "C35_other_memory",
    "C35_other_modules",
    "C35_twice_partial",
    "C35_stubbed",
    "C35_not_stubbed",
    "C35_disabled_kept",
    "C35_stub_only",
    "C35_stub_only_stubs",
    "C35_discovery",
    "C35_rounding_refuted",
    "C35_shared_unquantized_refuted"
   ],
   "note": "Holds for quantizers that are stable (linear quantizers whose codes fit the weight's float format) and weights that are equal or disjoint views. Fails for rounding in narrow formats, and for modules that share a fused weight without quantizing it."
  },
  {
   "property": "C36",
   "status": "partial",
   "theorems": [
    "C36_tied_agree",
    "C36_disagreement_rejected",
    "C36_agreement_accepted",
    "C36_order_independent_partial",
    "C36_reshaped_tie_refuted",
    "C36_transposed_tie_refuted",
    "C36_shared_instance_refuted"
   ],
   "note": "Holds if views of one storage are equal or disjoint. Fails for ties through a reshaped or transposed view, and for one non-idempotent quantizer instance shared by modules."
  },
  {
   "property": "C37",
   "status": "partial",
   "theorems": [
    "C37_hessian_partial",
    "C37_order_independent_partial",
    "C37_bad_entries_rejected",
    "C37_empty_first_entry_rejected",
    "C37_calibration_tensor_is_scaled",
    "C37_dataset_for_two_layers_refuted",
    "C37_repeated_tensor_refuted"
   ],
   "note": "Proved for every layer and dataset in which no tensor that is scaled in place occurs twice: value, independence of order and splits, refusals. Refuted: the calibration tensors are scaled in place, so a repeated tensor, or the same dataset for a second layer, gives another Hessian."
  },
  {
   "property": "C38",
   "status": "partial",
   "theorems": [
    "C38_fixed_point_partial",
    "C38_on_grid",
    "C38_recurrence",
    "C38_recurrence_unique",
    "C38_total",
    "C38_rejections",
    "C38_other_channels_rejected",
    "C38_zero_group_refuted"
   ],
   "note": "Fixed point, on-grid values, the full recurrence and its uniqueness, totality and refusals are proved for every weight, granularity, Hessian factor, column order and positive block size, over exact arithmetic with one final rounding to the weight's format. Refuted for symmetric scales of groups that are all zero (division by zero). Not modelled: rounding inside the float32 loop."
  },
  {
   "property": "C39",
   "status": "proved",
   "theorems": [
    "C39_query_exact",
    "C39_two_names_refuted"
   ],
   "note": "Exactness and termination on every acyclic module graph in which no module holds one child under two names; outside it, refuted (C39_two_names_refuted)."
  },
  {
   "property": "C40",
   "status": "partial",
   "theorems": [
    "C40_alternatives_partial",
    "C40_alternatives_exact_partial",
    "C40_star_alternative_refuted",
    "C40_dropped_alternative_refuted",
    "C40_divergence_refuted"
   ],
   "note": "Proved when no alternative consists of ** only; otherwise refuted: results missing, an alternative dropped, or a search that never ends."
  },
  {
   "property": "C41",
   "status": "proved",
   "theorems": [
    "C41_round_trip",
    "C41_parsing_ends",
    "C41_bracket_pattern_refuted",
    "C41_digit_name_refuted"
   ],
   "note": "Also for regex fragments whose pattern has no brackets or double quotes; for bracket patterns and names such as 1x1 refuted."
  },
  {
   "property": "C42",
   "status": "partial",
   "theorems": [
    "C42_set_operations",
    "C42_different_roots",
    "C42_module_sets_partial",
    "C42_answers_on_trees",
    "C42_shared_module_refuted"
   ],
   "note": "Set operations are exact on entries (name, module, parent, attribute), hence on modules for collections with one entry per module, such as answers on trees; refuted for shared modules."
  },
  {
   "property": "C43",
   "status": "proved",
   "theorems": [
    "C43_order",
    "C43_raises_exactly",
    "C43_failure_is_cycle",
    "C43_closure"
   ],
   "note": ""
  },
  {
   "property": "C44",
   "status": "proved",
   "theorems": [
    "C44_ancestors",
    "C44_stop",
    "C44_strict"
   ],
   "note": ""
  },
  {
   "property": "C45",
   "status": "proved",
   "theorems": [
    "C45_find_cycle",
    "C45_exactly"
   ],
   "note": ""
  },
  {
   "property": "C46",
   "status": "partial",
   "theorems": [
    "C46_graph_run_partial",
    "C46_contexts_partial",
    "C46_item_of_constant_refuted",
    "C46_unused_node_refuted"
   ],
   "note": "Proved for every graph whose constants are used as such and whose items of items belong to nodes that are evaluated: outputs, optimizer bundles, order of optimizers, exact errors. Not true of the code otherwise: items of constants (C46_item_of_constant_refuted), items of items of unused nodes (C46_unused_node_refuted)."
  },
  {
   "property": "C47",
   "status": "proved",
   "theorems": [
    "C47_lifetimes_same",
    "C47_lifetimes_clean",
    "C47_deleted_at_once"
   ],
   "note": "Calls, arguments, results and errors are the same for every program; everything mentioned is deleted right after its last mention; after the run only outputs are kept (programs whose only return is the last instruction)."
  },
  {
   "property": "C48",
   "status": "partial",
   "theorems": [
    "C48_optimizations_kept",
    "C48_same_bundles_partial",
    "C48_stored_value_refuted",
    "C48_side_effects_refuted"
   ],
   "note": "Instructions kept in order for every program; the same bundles for every scheduled program without side effects in calls and with some optimizer context. Not for every program: C48_stored_value_refuted, C48_side_effects_refuted."
  },
  {
   "property": "C49",
   "status": "partial",
   "theorems": [
    "C49_same_results_partial",
    "C49_weights_restored_partial",
    "C49_return_refuted",
    "C49_exception_refuted",
    "C49_other_operation_refuted",
    "C49_named_tuple_refuted",
    "C49_unused_node_refuted"
   ],
   "note": "Same results for every orderly program up to field names of tuples; weights restored after every program that does not return. Not true of the code otherwise: C49_return_refuted (programs with outputs never restore), C49_exception_refuted, C49_other_operation_refuted, C49_named_tuple_refuted, C49_unused_node_refuted."
  },
  {
   "property": "C50",
   "status": "partial",
   "theorems": [
    "C50_on_compute_device_partial",
    "C50_first_module_refuted",
    "C50_two_items_refuted",
    "C50_other_objects_refuted"
   ],
   "note": "Proved for programs without items, with tensors in tuples, lists and dictionaries, whose first module is not the last one listed by the graph (or starts on the compute device, untied). Not true of the code otherwise: C50_first_module_refuted, C50_two_items_refuted, C50_other_objects_refuted."
  },
  {
   "property": "C51",
   "status": "proved",
   "theorems": [
    "C51_arguments_bound"
   ],
   "note": ""
  },
  {
   "property": "C52",
   "status": "proved",
   "theorems": [
    "C52_broadcast",
    "C52_mismatch",
    "C52_batches",
    "C52_length"
   ],
   "note": ""
  },
  {
   "property": "C53",
   "status": "proved",
   "theorems": [
    "C53_entry_restored",
    "C53_resolution_restored",
    "C53_inside_block",
    "C53_refused",
    "C53_optimize_leaves_registry",
    "C53_interleaved_blocks_refuted"
   ],
   "note": "exec over nested override programs with exceptions; blocks that do not nest (threads) do not restore (refuted)"
  },
  {
   "property": "C54",
   "status": "partial",
   "theorems": [
    "C54_manager_used_partial",
    "C54_generator_used",
    "C54_key_gives_latest",
    "C54_unknown_key_refused",
    "C54_builtin_keys",
    "C54_same_class_refuted",
    "C54_name_taken",
    "C54_declared_flows_unused_refuted"
   ],
   "note": "proved while the class name of the manager is used by no other manager or generator; refuted for two managers of one class, and declared flows never reach the engine"
  },
  {
   "property": "C55",
   "status": "partial",
   "theorems": [
    "C55_duplicate_names_refuted",
    "C55_values_partial",
    "C55_engine_values",
    "C55_succeeds_partial",
    "C55_span_in_one_go",
    "C55_group_in_one_go",
    "C55_delegates",
    "C55_values_refuted",
    "C55_fold_order_refuted",
    "C55_output_item_refuted",
    "C55_span_refuted",
    "C55_nested_refuted"
   ],
   "note": "Values are preserved (C55_values_partial) whenever reduce_resolution returns, if calling the module of a fold gives the values of its exposed leaves in the order in which they were added; for spans and groups also if node arguments are tensors, arguments are no items of items, and graph outputs are no items. Success is proved for regions that are apart and can be computed in one go (C55_succeeds_partial). The full statement is false: see the refutations."
  },
  {
   "property": "C56",
   "status": "proved",
   "theorems": [
    "C56_run"
   ],
   "note": "Every pipeline the API can make, including raw depends_on wiring and stages of other pipelines; stage functions and the metric are arbitrary and may raise."
  },
  {
   "property": "C57",
   "status": "partial",
   "theorems": [
    "C57_insert_before",
    "C57_insert_before_explicit_partial",
    "C57_insert_after_partial",
    "C57_replace_partial",
    "C57_edits_raise",
    "C57_replace_swaps_inputs_refuted",
    "C57_insert_after_swaps_inputs_refuted",
    "C57_insert_after_immediately_refuted",
    "C57_insert_before_explicit_refuted"
   ],
   "note": "insert_stage_before is as documented. insert_stage_after and replace_stage put the new stage last among the inputs of a dependent instead of in the target's position (refuted with a run whose result changes); insert_stage_after does not run immediately after the target; insert_stage_before with explicit dependencies need not run before it."
  },
  {
   "property": "C58",
   "status": "proved",
   "theorems": [
    "C58_add_dependency",
    "C58_always_executable",
    "C58_remove_dependency"
   ],
   "note": "add_dependency raises ValueError exactly if the edge closes a cycle; every history of the pipeline's own methods leaves it executable."
  },
  {
   "property": "C59",
   "status": "partial",
   "theorems": [
    "C59_scale_rounding",
    "C59_scale_exact",
    "C59_scale_overflow_refuted",
    "C59_q4_0_packing",
    "C59_q8_0_packing",
    "C59_export_llama_q4_0",
    "C59_export_qwen_q4_0",
    "C59_export_llama_q8_0_partial",
    "C59_export_qwen_q8_0_partial",
    "C59_q8_0_minimum_refuted",
    "C59_one_sided_refuted"
   ],
   "note": "Q4_0 is proved end to end from the model's parameters to the bytes read with llama.cpp's formula (built-in adapters, quantizers without offset, scales below 65520, exact for binary16 scales and with the rounding error bound otherwise). Q8_0 is proved only when no code is -128. Refuted for code -128 in Q8_0 (C59_q8_0_minimum_refuted), for one-sided quantizers whose offset is dropped (C59_one_sided_refuted) and for scales from 65520 on (C59_scale_overflow_refuted)."
  },
  {
   "property": "C60",
   "status": "proved",
   "theorems": [
    "C60_rope_permutation",
    "C60_rope_documented",
    "C60_rope_rejects",
    "C60_scales_follow_codes"
   ],
   "note": "Row index, its permutation property, the documented row moves and the joint move of codes and block scales, for any head count and row count; the end-to-end row order is C59_export_llama_q4_0."
  },
  {
   "property": "C61",
   "status": "proved",
   "theorems": [
    "C61_lpbq_compression",
    "C61_lpbq_accepted",
    "C61_lpbq_weights",
    "C61_codes_fit",
    "C61_offsets_dropped_refuted"
   ],
   "note": "For every quantizer with the two supported block layouts. An encoding is also made if only some offsets are zero; then the offsets are lost (C61_offsets_dropped_refuted)."
  },
  {
   "property": "C62",
   "status": "partial",
   "theorems": [
    "C62_v1_decode",
    "C62_legacy_decode",
    "C62_v2_decode_partial",
    "C62_flag_partial",
    "C62_accepted",
    "C62_blocks_accepted",
    "C62_flag_refuted",
    "C62_v2_mixed_refuted",
    "C62_v2_zero_point_refuted",
    "C62_v1_block_axis_refuted"
   ],
   "note": "Values: 1.0.0 and 0.6.1 schemas for every accepted quantizer; 2.0.0 if all offsets are zero, or all are non-zero and the quantizer is not block-wise. Flag: if all offsets are zero or none is. Refuted otherwise: a quantizer with some zero offsets is flagged symmetric and its 2.0.0 entry loses the zero points; block zero points follow another convention; 1.0.0 block entries do not record the axis."
  },
  {
   "property": "C63",
   "status": "proved",
   "theorems": [
    "C63_names_first_wins",
    "C63_extraction",
    "C63_history_independent"
   ],
   "note": "For every history of add_encoding (including calls that raise) and clear, on each of the three handlers, and for the extraction from an ONNX graph."
  },
  {
   "property": "C64",
   "status": "partial",
   "theorems": [
    "C64_ends_and_keeps",
    "C64_only_copies",
    "C64_reaches_partial",
    "C64_complete_partial",
    "C64_complete_refuted"
   ],
   "note": "Never overwrites, only copies along views, terminates: proved. Completeness: everything derived from an annotated tensor and everything an annotated tensor is derived from; all connected tensors if no tensor has two views or annotated views have annotated inputs. Refuted in general: a sibling view listed earlier is missed."
  },
  {
   "property": "C65",
   "status": "partial",
   "theorems": [
    "C65_resolves_partial",
    "C65_absolute",
    "C65_package_refuted",
    "C65_rejected_refuted"
   ],
   "note": "Proved for modules that are no packages, wherever Python accepts the import, and for absolute imports everywhere. Refuted for a package's own module and for imports Python rejects, which are given a name."
  },
  {
   "property": "C66",
   "status": "proved",
   "theorems": [
    "C66_tags_carry_parents",
    "C66_tag_query_exact",
    "C66_child_tag",
    "C66_descent_is_an_order"
   ],
   "note": ""
  },
  {
   "property": "C67",
   "status": "partial",
   "theorems": [
    "C67_granularity_equality_partial",
    "C67_granularity_equality_refuted"
   ],
   "note": "Holds for every granularity except PerBlock, whose equality ignores all fields: C67_granularity_equality_refuted."
  },
  {
   "property": "C68",
   "status": "partial",
   "theorems": [
    "C68_float_storage_exact",
    "C68_int_storage_exact_partial",
    "C68_int_storage_refuted"
   ],
   "note": "Holds for all floating point dtypes and for signed integer dtypes with at least num_bits bits; the check itself accepts narrower and unsigned integer dtypes: C68_int_storage_refuted."
  },
  {
   "property": "C69",
   "status": "partial",
   "theorems": [
    "C69_nested_traces_restore",
    "C69_interleaved_blocks_refuted"
   ],
   "note": "Holds for nested traces; overlapping blocks leave the flag changed (C69_interleaved_blocks_refuted)."
  },
  {
   "property": "C70",
   "status": "proved",
   "theorems": [
    "C70_grid_covers_batch"
   ],
   "note": ""
  },
  {
   "property": "C71",
   "status": "proved",
   "theorems": [
    "C71_no_clipping"
   ],
   "note": ""
  },
  {
   "property": "C72",
   "status": "partial",
   "theorems": [
    "C72_extension_exact_partial",
    "C72_missing_attribute_refuted"
   ],
   "note": "Exact when the other metadata has every attribute; refuted otherwise: a missing attribute raises KeyError."
  },
  {
   "property": "C73",
   "status": "proved",
   "theorems": [
    "C73_names_injective",
    "C73_llama_names",
    "C73_complete",
    "C73_float_unchanged",
    "C73_newline_refuted"
   ],
   "note": "For the three shipped adapters and parameter names without newline characters (C73_newline_refuted shows the names are not kept apart otherwise)."
  },
  {
   "property": "C74",
   "status": "partial",
   "theorems": [
    "C74_quantized_row_order_partial",
    "C74_float_row_order_refuted"
   ],
   "note": "Proved for quantized projections; refuted for unquantized ones, which the transform returns unchanged (C74_float_row_order_refuted)."
  },
  {
   "property": "C75",
   "status": "partial",
   "theorems": [
    "C75_metadata_round_trip",
    "C75_end_to_end",
    "C75_no_offset_refuted"
   ],
   "note": "For quantizers with an offset tensor; a quantizer without one cannot be annotated (C75_no_offset_refuted)."
  },
  {
   "property": "C76",
   "status": "proved",
   "theorems": [
    "C76_removes_exactly",
    "C76_same_function",
    "C76_specs",
    "C76_accepted"
   ],
   "note": "Operators are arbitrary functions; kwargs and non-node arguments are part of the operator."
  },
  {
   "property": "C77",
   "status": "partial",
   "theorems": [
    "C77_faithful_partial",
    "C77_raw_read_refuted",
    "C77_two_quantizers_refuted"
   ],
   "note": "Proved if every quantized tensor is read through its one quantizer only. Refuted for tensors also read raw or through two quantizers: different models give the same annotated graph."
  },
  {
   "property": "C78",
   "status": "partial",
   "theorems": [
    "C78_view_commutes_partial",
    "C78_per_tensor_partial",
    "C78_transpose_refuted"
   ],
   "note": "Proved for per-tensor quantization with every view and for views that keep the tile of every element. Refuted for per-channel quantization and a transpose."
  },
  {
   "property": "C79",
   "status": "partial",
   "theorems": [
    "C79_codes_partial",
    "C79_values_partial",
    "C79_accepted",
    "C79_tie_refuted",
    "C79_zero_point_refuted",
    "C79_blocks_refuted",
    "C79_fractional_refuted"
   ],
   "note": "Proved for per-tensor and per-channel (any axis) quantizers with 4, 8 or 16 bits whose zero points fit the storage type: decoded values agree, codes agree up to one step, and exactly unless x/scale is a tie and the offset odd. Refuted at such ties, for zero points outside the type, for block tiles (scales silently applied to columns) and for fractional bit widths (silently truncated)."
  },
  {
   "property": "C80",
   "status": "proved",
   "theorems": [
    "C80_options_kept",
    "C80_options_refused"
   ],
   "note": "Merged options and table characterised; errors characterised exactly."
  },
  {
   "property": "C81",
   "status": "partial",
   "theorems": [
    "C81_cache_partial",
    "C81_tags_refuted",
    "C81_names_refuted",
    "C81_parent_refuted"
   ],
   "note": "Proved for names and tags where '/' is the only replaced character and hyphens and slashes are not adjacent; refuted for tags and names that map to one directory, and for the tag '..'."
  },
  {
   "property": "C82",
   "status": "partial",
   "theorems": [
    "C82_artifact_weights_partial",
    "C82_weights_only",
    "C82_tied_target_refuted"
   ],
   "note": "Proved for targets that tie no more weights than the source; refuted for a target that ties weights the source does not."
  },
  {
   "property": "C83",
   "status": "partial",
   "theorems": [
    "C83_block_size_partial",
    "C83_block_size_refuted",
    "C83_negative_block_size_refuted"
   ],
   "note": "Proved whenever group scales are not recomputed; refuted with recomputed groups and for negative block sizes."
  },
  {
   "property": "C84",
   "status": "partial",
   "theorems": [
    "C84_group_scales_partial",
    "C84_aligned_groups_partial",
    "C84_groups_inside_blocks_refuted"
   ],
   "note": "Proved: exactly which corrections enter a group's range, and the full claim if the group width is a multiple of the block size. Refuted otherwise."
  },
  {
   "property": "C85",
   "status": "partial",
   "theorems": [
    "C85_with_targets_partial",
    "C85_every_target_partial",
    "C85_with_specs_partial",
    "C85_registered_partial",
    "C85_bound_arguments_dropped_refuted"
   ],
   "note": "proved with targets, with explicit specs and for functions registered themselves; refuted for partials without targets"
  },
  {
   "property": "C86",
   "status": "proved",
   "theorems": [
    "C86_regions_exact",
    "C86_regions_once",
    "C86_types_in_model_order",
    "C86_accepted",
    "C86_register_replaces",
    "C86_resolve_outcome",
    "C86_resolve_arguments"
   ],
   "note": "queries and user selectors are arbitrary functions"
  },
  {
   "property": "C87",
   "status": "partial",
   "theorems": [
    "C87_batches_partial",
    "C87_passed_on",
    "C87_stream",
    "C87_other_stream",
    "C87_named_tuple_refuted",
    "C87_tuple_value_refuted",
    "C87_uneven_refuted"
   ],
   "note": "Batches of one kind (all dictionaries, all tuples or lists, or all objects), with string items that raise only KeyError and TypeError and agree with attributes. Refuted in general: named tuples are bound by position, a tuple given as the value of the only input is split, and later batches of other lengths are cut."
  },
  {
   "property": "C88",
   "status": "partial",
   "theorems": [
    "C88_values",
    "C88_accepted",
    "C88_rejected",
    "C88_fold",
    "C88_built",
    "C88_twice_refuted"
   ],
   "note": "Values, acceptance, refusal of ill-fitting arguments and folds are proved in full. Refuted: a subgraph inlined twice is refused only after the fold was inserted, so the graph changes."
  },
  {
   "property": "C89",
   "status": "partial",
   "theorems": [
    "C89_values_partial",
    "C89_history_partial",
    "C89_node_resets",
    "C89_subgraph_resets",
    "C89_graph_kept",
    "C89_stale_refuted"
   ],
   "note": "Proved for inputs and outputs added before the first call, and after any added node or subgraph. Refuted in general: the cached program is not dropped by add_input and add_output."
  },
  {
   "property": "C90",
   "status": "partial",
   "theorems": [
    "C90_prepared_partial",
    "C90_isolated_partial",
    "C90_split",
    "C90_mark",
    "C90_short_circuit_refuted",
    "C90_lambda_refuted",
    "C90_order_refuted",
    "C90_target_order_refuted",
    "C90_assert_message_refuted",
    "C90_temporary_name_refuted"
   ],
   "note": "Proved for all programs in which nothing unstable is evaluated before a moved operation and none moves out of a lambda, the second operand of and/or, the message of assert or the cause of raise; splitting and marking are exact for all programs. Refuted in general: short circuit, lambda bodies, order of attribute reads and of assignment targets, assert messages, variables named _tmp_n."
  },
  {
   "property": "C91",
   "status": "partial",
   "theorems": [
    "C91_expand_partial",
    "C91_none_left",
    "C91_twice_refuted",
    "C91_in_place_refuted"
   ],
   "note": "Proved exactly when in-place operators are the binary operators and the parts of the target are stable. Refuted: f(x)[0] += 1 calls f twice; operands are no longer changed in place."
  },
  {
   "property": "C92",
   "status": "proved",
   "theorems": [
    "C92_isolated",
    "C92_one_per_line",
    "C92_assigned_once"
   ],
   "note": "For every program; conditions of if, while and for keep their operations, as the statement of isolated says."
  },
  {
   "property": "C93",
   "status": "proved",
   "theorems": [
    "C93_marked"
   ],
   "note": "For every expression of the modelled syntax (chained comparisons and yield are left out)."
  },
  {
   "property": "C94",
   "status": "partial",
   "theorems": [
    "C94_imported_partial",
    "C94_dotted_partial",
    "C94_nothing_else_partial",
    "C94_dotted_refuted",
    "C94_builtin_refuted",
    "C94_attribute_refuted",
    "C94_rebound_refuted",
    "C94_merged_partial",
    "C94_merged_refuted"
   ],
   "note": "Proved: completeness for names not bound by dotted imports and for dotted imports used in full; everything imported is bound to the same thing in the module and hides no local name or builtin; imports of several functions merge without loss where they agree. Refuted: parts of dotted imports, module names of builtins, attributes of unnamed values called like module names, names bound twice, functions of different modules that use one name for different things. Star imports, class scopes and the fallback of ImportSymbol are not modelled."
  },
  {
   "property": "C95",
   "status": "partial",
   "theorems": [
    "C95_calls",
    "C95_known_parameters",
    "C95_every_parameter_partial",
    "C95_bound_partial",
    "C95_not_shared_partial",
    "C95_twice_refuted"
   ],
   "note": "Proved for every call graph: calls pass only declared parameters, none twice, from values the caller has. Proved for acyclic graphs in which no helper called by a called function calls another helper twice: every parameter is passed, bound along every path, and paths share nothing. Refuted: a helper called twice by a helper two calls away from a method. Default arguments and the names of parameters are not modelled here."
  },
  {
   "property": "C96",
   "status": "partial",
   "theorems": [
    "C96_ends_partial",
    "C96_circle_refuted"
   ],
   "note": "Proved for all acyclic call graphs. Refuted for circular calls: a program of four functions on which the loop goes round forever."
  },
  {
   "property": "C97",
   "status": "partial",
   "theorems": [
    "C97_distinct_partial",
    "C97_known",
    "C97_steady_partial",
    "C97_declared",
    "C97_number_refuted",
    "C97_prefix_refuted",
    "C97_changes_refuted",
    "C97_parameter_refuted"
   ],
   "note": "Proved for all histories that make all references before asking for names: names are known, steady and, if no name begins with the prefix or is another name with a number, distinct; declared quantizers are exactly those used. Refuted: names ending in numbers, names with the prefix, references made after names were asked for, parameters that already have the name."
  },
  {
   "property": "C98",
   "status": "partial",
   "theorems": [
    "C98_classes",
    "C98_plain",
    "C98_helpers",
    "C98_helpers_plain",
    "C98_base_refuted",
    "C98_import_refuted"
   ],
   "note": "Proved for all types and requests: names are always found, class names are distinct, base names are distinct, helper names are distinct from each other and from classes and methods, and plain names are kept. Refuted: a class name can be the name of an imported base class, a helper name that of an import."
  },
  {
   "property": "C99",
   "status": "partial",
   "theorems": [
    "C99_map",
    "C99_value_partial",
    "C99_keyword_refuted",
    "C99_other_refuted"
   ],
   "note": "Proved for all expressions without keywords called like a helper and all environments in which names of helpers stand for them; which names are mapped is characterised exactly. Refuted: keywords, and names that stand for something else. Parameters, assignments and comprehension scopes are not modelled."
  },
  {
   "property": "C100",
   "status": "proved",
   "theorems": [
    "C100_types",
    "C100_ends",
    "C100_once",
    "C100_complete",
    "C100_exact"
   ],
   "note": "For every graph of uses and every set of failing conversions; conversion of a single function is any function of the task. A member whose function is already converted as a helper is not converted again (C100_complete says so)."
  },
  {
   "property": "C101",
   "status": "partial",
   "theorems": [
    "C101_all_partial",
    "C101_inherited_refuted"
   ],
   "note": "Proved when different tasks have different function objects. Refuted for inherited methods: calls of helpers in all but the last class that shares a method stay unquantized."
  },
  {
   "property": "C102",
   "status": "partial",
   "theorems": [
    "C102_serialized",
    "C102_altered_partial",
    "C102_counts",
    "C102_unasked",
    "C102_renamed_partial",
    "C102_stages_partial",
    "C102_altered_refuted",
    "C102_inner_refuted",
    "C102_passed_refuted"
   ],
   "note": "Altering keeps meaning and distinctness if no value is called as another will be, names asked for if they differ from inner names and no value is both input and output; refuted otherwise. The repair of Reshape nodes is not modelled."
  },
  {
   "property": "C103",
   "status": "partial",
   "theorems": [
    "C103_copied_partial",
    "C103_recorded",
    "C103_source",
    "C103_reaches_partial",
    "C103_nothing_else_partial",
    "C103_nodes_refuted",
    "C103_unnamed_refuted",
    "C103_results_refuted",
    "C103_intermediate_refuted"
   ],
   "note": "Annotations of recorded FX nodes reach the file under final names, and only related specs do, if names of values and nodes are distinct; refuted for nodes sharing a name, unnamed nodes, several results and operators taken apart by the exporter."
  },
  {
   "property": "C104",
   "status": "partial",
   "theorems": [
    "C104_refused",
    "C104_computed",
    "C104_flag",
    "C104_table",
    "C104_types",
    "C104_default_partial",
    "C104_defaults_partial",
    "C104_pad_refuted",
    "C104_optional_string_refuted",
    "C104_unquantized_refuted",
    "C104_optional_list_refuted",
    "C104_optional_plain_refuted",
    "C104_indices_refuted"
   ],
   "note": "Refusal, computation, flag and the 53 shipped operators are proved for all supported types; refuted: pad's default, defaults of optional strings, operators without quantized result, optional lists of tensors, quantized tensors where plain ones are expected."
  },
  {
   "property": "C105",
   "status": "partial",
   "theorems": [
    "C105_accepts",
    "C105_binds",
    "C105_counterpart_partial",
    "C105_unpacked_refuted",
    "C105_posonly_refuted",
    "C105_kwonly_refuted"
   ],
   "note": "Binding and acceptance are those of Python for operators with distinct parameter names, and the newest accepting overload is taken; refuted for unpacked arguments, positional-only and keyword-only parameters."
  },
  {
   "property": "C106",
   "status": "partial",
   "theorems": [
    "C106_append",
    "C106_names",
    "C106_alias",
    "C106_succeeds",
    "C106_operators",
    "C106_listed",
    "C106_contains",
    "C106_loaded",
    "C106_shipped",
    "C106_atomic_refuted",
    "C106_atomic_partial",
    "C106_fallback_name_refuted"
   ],
   "note": "Laws of lookup over all histories, exact condition of success, listing, loading and the shipped file are proved; refuted: a colliding alias leaves the refused operator in the table, and the documented lookup by fallback name needs an extension."
  },
  {
   "property": "C107",
   "status": "partial",
   "theorems": [
    "C107_attention",
    "C107_masked",
    "C107_causal",
    "C107_bounds",
    "C107_penalised",
    "C107_all_masked_refuted",
    "C107_not_masked_refuted",
    "C107_negative_refuted"
   ],
   "note": "Proved for the default masking number -inf; with a finite one the exact result is proved (C107_penalised), which differs from attention for fully masked rows with positive scores and for rows whose scores are all small (refuted), and negative scales are refused (refuted). exp is any positive function, floating point is not modelled."
  },
  {
   "property": "C108",
   "status": "partial",
   "theorems": [
    "C108_strict",
    "C108_quantizers",
    "C108_torch_partial",
    "C108_torch_refuted",
    "C108_torch_error_refuted"
   ],
   "note": "Strict mode is proved. That torch's function is not used otherwise is proved; that it is used where allowed is refuted: it is called, but its result is thrown away, and only its errors are seen."
  },
  {
   "property": "C109",
   "status": "partial",
   "theorems": [
    "C109_scoped_partial",
    "C109_early_refuted"
   ],
   "note": "Proved for managers that are entered where they are made; refuted for a manager made before another one is entered: it restores the older dtype."
  },
  {
   "property": "C110",
   "status": "partial",
   "theorems": [
    "C110_recorded",
    "C110_trees",
    "C110_parameters",
    "C110_hooks_partial",
    "C110_hooks_refuted"
   ],
   "note": "Records are proved for all calls, structures and modules whenever the export succeeds. Removal of hooks is proved if the quantized run returns and its quantized tensors are static affine; refuted otherwise: hooks stay after an exception in the second run."
  },
  {
   "property": "C111",
   "status": "partial",
   "theorems": [
    "C111_encodings_partial",
    "C111_shift_refuted",
    "C111_keyword_refuted",
    "C111_output_refuted",
    "C111_nested_refuted"
   ],
   "note": "Proved for flat arguments whose graph inputs are the positional arguments and keyword arguments, in any order if keyword arguments before positional ones are quantized. Refuted: a number among the arguments or a None among the outputs shifts encodings to other tensors, an unquantized keyword argument takes the encoding of a positional one, nested arguments make the export fail."
  },
  {
   "property": "C112",
   "status": "partial",
   "theorems": [
    "C112_surrogates",
    "C112_succeeds_partial",
    "C112_requantize_refuted",
    "C112_plain_refuted",
    "C112_extra_refuted"
   ],
   "note": "Which classes get surrogates is proved in full. Conversion is proved to succeed except in three cases, each shown to raise: a quantized module without an entry (unless skipped), a plain torch.nn.Module container, and entries given only to surrogate_quantized_modules."
  },
  {
   "property": "C113",
   "status": "partial",
   "theorems": [
    "C113_attribute_keeps",
    "C113_assigned",
    "C113_shared_metadata_partial",
    "C113_warns",
    "C113_silent_loss_refuted",
    "C113_shared_quantizer_refuted",
    "C113_error_refuted",
    "C113_uninitialized_refuted"
   ],
   "note": "Tags follow the attribute through every history (full). Refuted: a quantizer's own extra tags are lost without warning, a shared quantizer loses the tags of its first attribute, and an assignment that raises leaves the quantizer in place."
  },
  {
   "property": "C114",
   "status": "proved",
   "theorems": [
    "C114_summary",
    "C114_lines",
    "C114_distinct"
   ],
   "note": "ASCII digits only; sorted() of Python is modelled by a stable insertion sort."
  },
  {
   "property": "C115",
   "status": "partial",
   "theorems": [
    "C115_value_partial",
    "C115_called_partial",
    "C115_constant_refuted",
    "C115_input_refuted",
    "C115_skipped_refuted",
    "C115_tuple_refuted"
   ],
   "note": "Proved for regular programs: the root returns results of nodes, other modules return one result or a tuple of several, results of skipped functions are not used, named tuples hold no results of nodes. Refuted otherwise: a constant among the results is dropped (C115_constant_refuted), a program that returns an input is not traced (C115_input_refuted), nor one that uses the result of a skipped function (C115_skipped_refuted), and a module that returns a tuple of one result seems to return the result itself (C115_tuple_refuted). torch.export and unflatten are not modelled: programs are what they give."
  },
  {
   "property": "C116",
   "status": "partial",
   "theorems": [
    "C116_well_formed",
    "C116_keyword",
    "C116_positional",
    "C116_other",
    "C116_collision_refuted",
    "C116_names_refuted"
   ],
   "note": "Well-formedness, scheduling and names are proved for every program that is traced. Not all are: placeholders of different names may be given one name and the trace fails (C116_collision_refuted). Nodes need not differ in name (C116_names_refuted)."
  },
  {
   "property": "C117",
   "status": "partial",
   "theorems": [
    "C117_bound_partial",
    "C117_fold_refuted",
    "C117_refused"
   ],
   "note": "Every flow of every node that is no fold is bound as stated, for all graphs and set orders; what is refused is refused. Refuted for folds: binding what leaves a fold always raises KeyError, because folds are not in the topological order."
  },
  {
   "property": "C118",
   "status": "partial",
   "theorems": [
    "C118_restored_partial",
    "C118_captured",
    "C118_moved",
    "C118_last",
    "C118_order_refuted",
    "C118_transient_refuted",
    "C118_tied_refuted"
   ],
   "note": "Names, tensors, other attributes and the strict flag are restored in every case, and the exporter sees no uninitialised tensor unless one has two names. Refuted: uninitialised tensors move to the end of their table (which is described exactly), uninitialised transient buffers become persistent, and a parameter with two names stays uninitialised under the second. The exporter is assumed to leave registrations as it finds them; disabling quantization is covered by the override properties, not here."
  },
  {
   "property": "C119",
   "status": "proved",
   "theorems": [
    "C119_history",
    "C119_forgotten",
    "C119_inputs_refuted"
   ],
   "note": "Proved for all histories. The consequence that the graph need not fit the inputs given now is C119_inputs_refuted."
  },
  {
   "property": "C120",
   "status": "partial",
   "theorems": [
    "C120_agree_partial",
    "C120_blocks",
    "C120_elements_partial",
    "C120_empty_refuted",
    "C120_integer_data_refuted",
    "C120_block_count_refuted"
   ],
   "note": "Proved for tensors with elements (agreement) and for floating point data with positive sizes (elements). Refuted by C120_empty_refuted (empty tensor with non-dividing blocks), C120_integer_data_refuted (integer data with a scale given as a number dequantizes to zeros) and C120_block_count_refuted (block_size is a size, not a number of blocks). Floating point rounding is not modelled."
  },
  {
   "property": "C121",
   "status": "proved",
   "theorems": [
    "C121_static_again",
    "C121_inferred",
    "C121_agree",
    "C121_blocks",
    "C121_half_step"
   ],
   "note": "Agreement of the entry points is stated for tensors with elements, the half-step bound for floating point data, granularities with positive sizes and dtypes that hold the codes."
  },
  {
   "property": "C122",
   "status": "partial",
   "theorems": [
    "C122_export_eager",
    "C122_export_values_partial",
    "C122_dynamic_refused",
    "C122_attach",
    "C122_integer_storage_refuted",
    "C122_dtype_refuted"
   ],
   "note": "Proved without explicit dtypes and, for values, with floating point dtypes. Refuted by C122_integer_storage_refuted (codes stored as integers) and C122_dtype_refuted (dequantize_dtype is ignored)."
  },
  {
   "property": "C123",
   "status": "partial",
   "theorems": [
    "C123_operator_tags_partial",
    "C123_initialized_quantizers_refuted",
    "C123_residual_refuted",
    "C123_two_quantizers_refuted",
    "C123_parameters_refuted"
   ],
   "note": "Proved for models whose quantizers are all stubs, forward passes without in-place results and with quantized values used only through the quantizer. In general refuted: initialized quantizers are never annotated (the disabling override runs first), and residual uses, two quantizers on one value and values computed from parameters only give wrong or missing tags."
  },
  {
   "property": "C124",
   "status": "proved",
   "theorems": [
    "C124_model_restored",
    "C124_never_quantizes",
    "C124_tags_accumulate"
   ],
   "note": ""
  },
  {
   "property": "C125",
   "status": "partial",
   "theorems": [
    "C125_exactly_the_instances_partial",
    "C125_statements_stay_statements",
    "C125_expression_slots_refuted",
    "C125_repeated_captures_refuted",
    "C125_parentheses_refuted"
   ],
   "note": "Exact for expressions and patterns without repeated captures, and statements stay statements. Refuted: an expression can be replaced by a statement, a repeated capture matches two different nodes, parentheses around an expression keep it from matching."
  },
  {
   "property": "C126",
   "status": "partial",
   "theorems": [
    "C126_text_read_back_partial",
    "C126_parentheses_refuted"
   ],
   "note": "Holds when captured nodes and replacement are atoms (names, calls, parenthesised). Refuted in general: parentheses around a capture in the replacement are dropped, f(a + b) with f({x}) to ({x}) * y becomes the text a + b * y."
  },
  {
   "property": "C127",
   "status": "partial",
   "theorems": [
    "C127_stops_at_rest",
    "C127_ends_partial",
    "C127_endless_refuted",
    "C127_parts_refuted"
   ],
   "note": "What the loop stops at is proved for every run; termination is proved for rules that shrink the text. Refuted in general: f({x}) to f(f({x})) never ends, and parts of a result are not visited again."
  },
  {
   "property": "C128",
   "status": "proved",
   "theorems": [
    "C128_scope",
    "C128_filter",
    "C128_one_result"
   ],
   "note": "Inside its scope a restricted rule acts as the unrestricted one, elsewhere not at all; the filter by module name changes nothing."
  },
  {
   "property": "C129",
   "status": "partial",
   "theorems": [
    "C129_calls_the_functions_partial",
    "C129_equal_defaults_refuted",
    "C129_parameter_called_data_refuted"
   ],
   "note": "Proved when shared parameters have the same default object and no parameter is called data, quantize_params or dequantize_params. Refuted otherwise: equal defaults (1 and True) are both taken from dequantize; a parameter called data can never be given."
  },
  {
   "property": "C130",
   "status": "proved",
   "theorems": [
    "C130_accepted_pairs",
    "C130_documented_condition_refuted"
   ],
   "note": "Exact characterisation. The condition the docstring gives (shared parameters agree) is shown not to be enough: the merged order can put a required parameter after a default."
  },
  {
   "property": "C131",
   "status": "proved",
   "theorems": [
    "C131_with_changes",
    "C131_tensor_parameters",
    "C131_contiguous"
   ],
   "note": "Proved for all contexts and changes."
  },
  {
   "property": "C132",
   "status": "partial",
   "theorems": [
    "C132_wanted_values_are_quantized_partial",
    "C132_one_sided_else_refuted",
    "C132_break_refuted",
    "C132_continue_refuted",
    "C132_try_refuted",
    "C132_keyword_only_parameter_refuted",
    "C132_with_items_refuted"
   ],
   "note": "Proved for functions without break, continue and try, with plain parameters, balanced if/else and simple with items. The full statement is false of the code: six refutations. Not modelled: attribute targets, comprehensions, nested functions and expressions as arguments."
  },
  {
   "property": "C133",
   "status": "partial",
   "theorems": [
    "C133_analysis_accepts_loop_free_functions_partial",
    "C133_if_in_loop_refuted",
    "C133_nested_break_refuted",
    "C133_code_after_with_return_refuted"
   ],
   "note": "Proved for functions of expressions, assignments, if, return and raise. The full statement is false of the code: three refutations. Loops without inner if or break are not covered by the positive theorem."
  },
  {
   "property": "C134",
   "status": "proved",
   "theorems": [
    "C134_quantizers_only_where_wanted",
    "C134_quantized_results_are_left_alone"
   ],
   "note": "For every function of the modelled syntax."
  },
  {
   "property": "C135",
   "status": "partial",
   "theorems": [
    "C135_every_use_gets_a_quantizer_partial",
    "C135_annotations_list_their_uses",
    "C135_one_quantizer_per_expression",
    "C135_shared_by_all_branches",
    "C135_elif_refuted"
   ],
   "note": "Every occurrence is covered by an annotation of its own expression at an enclosing block in functions without elif; expressions used in all branches are hoisted; numbering and correctness of the lists hold for all functions. False with elif: C135_elif_refuted (the else branch of an elif reads a variable made in the elif body only)."
  },
  {
   "property": "C136",
   "status": "proved",
   "theorems": [
    "C136_inserted_right_before_first_use"
   ],
   "note": "For any statement type, any block that is not empty and any list of insertions."
  },
  {
   "property": "C137",
   "status": "partial",
   "theorems": [
    "C137_rewritten_function_means_the_same_partial",
    "C137_elif_refuted",
    "C137_guarded_attribute_refuted",
    "C137_reassigned_variable_refuted",
    "C137_loop_variable_refuted",
    "C137_name_collision_refuted"
   ],
   "note": "Proved for functions without elif whose quantized attributes can be read at the start, belong to variables that are never assigned, and get new, different variable names. Each condition is needed: the five refuted theorems give a counterexample for each."
  },
  {
   "property": "C138",
   "status": "partial",
   "theorems": [
    "C138_sharing_keeps_the_meaning_partial",
    "C138_assigned_in_between_refuted",
    "C138_conditional_expression_refuted",
    "C138_elif_refuted",
    "C138_name_of_outer_block_refuted"
   ],
   "note": "Proved for pure quantizers, functions without _tmp_ names, nested quantizer calls, assignments between equal calls and calls under a condition. Four refuted theorems show that assignments in between, conditional expressions, elif and _tmp_ names of outer blocks break it in the code. while, with, comprehensions and nested calls are not covered."
  },
  {
   "property": "C139",
   "status": "partial",
   "theorems": [
    "C139_every_call_is_made_once_partial",
    "C139_nothing_repeated_nothing_changed",
    "C139_sharing_again_changes_nothing",
    "C139_nested_calls_refuted"
   ],
   "note": "Proved when no argument of a quantizer call contains a quantizer call; false otherwise (C139_nested_calls_refuted). That a function without repeated calls is unchanged holds for all functions."
  },
  {
   "property": "C140",
   "status": "partial",
   "theorems": [
    "C140_no_variable_is_lost_partial",
    "C140_nested_star_refuted"
   ],
   "note": "Proved for targets whose inner displays have no starred element; C140_nested_star_refuted shows that the code loses the starred variable of an inner display."
  },
  {
   "property": "C141",
   "status": "partial",
   "theorems": [
    "C141_parts_get_the_right_values_partial",
    "C141_single_element_refuted",
    "C141_starred_value_refuted"
   ],
   "note": "Proved for values without starred elements and targets without one-element displays and inner stars. False otherwise: C141_single_element_refuted and C141_starred_value_refuted."
  },
  {
   "property": "C142",
   "status": "partial",
   "theorems": [
    "C142_cleaning_keeps_results_partial",
    "C142_module_read_as_value_refuted"
   ],
   "note": "Proved when submodules that the graph reads as values contain no submodules; otherwise false: C142_module_read_as_value_refuted (torch's deletion of unused submodules takes what is inside them). What torch.fx does is modelled from its documentation."
  },
  {
   "property": "C143",
   "status": "partial",
   "theorems": [
    "C143_no_quantizer_left_partial",
    "C143_refusal",
    "C143_called_module_refuted"
   ],
   "note": "The refusal is characterised exactly. That no quantizer is left is proved except inside modules that the graph calls, where it is false: C143_called_module_refuted. Assumes that no parameter of the captured module has the path of a quantizer."
  },
  {
   "property": "C144",
   "status": "proved",
   "theorems": [
    "C144_exactly_what_is_needed",
    "C144_exactly_the_modules_used",
    "C144_result_is_valid",
    "C144_result_in_order"
   ],
   "note": "What torch.fx does (lint, dead code elimination, deletion of unused submodules) is modelled from its documentation."
  },
  {
   "property": "C145",
   "status": "partial",
   "theorems": [
    "C145_conversion_keeps_results_partial",
    "C145_one_call_partial",
    "C145_padding_mode_refuted",
    "C145_in_place_refuted"
   ],
   "note": "Proved for programs whose convolutions pad with zeros and whose modules do not change the tensor they are given (in-place activations behind another layer are covered). Refuted otherwise: C145_padding_mode_refuted (padding_mode is ignored), C145_in_place_refuted."
  },
  {
   "property": "C146",
   "status": "proved",
   "theorems": [
    "C146_quantizers_where_they_belong",
    "C146_every_parameter_has_a_quantizer"
   ],
   "note": "Embeddings with a maximal norm and without weight quantizer are excluded by hypothesis: torch changes their weight in place."
  },
  {
   "property": "C147",
   "status": "proved",
   "theorems": [
    "C147_strict_mode_only_refuses",
    "C147_stubs_are_refused"
   ],
   "note": "Acceptance is characterised exactly; right after conversion every module but a sequential is refused."
  },
  {
   "property": "C148",
   "status": "partial",
   "theorems": [
    "C148_names_are_identifiers",
    "C148_names_exist_partial",
    "C148_names_resemble_the_code",
    "C148_plain_names_are_kept",
    "C148_no_name_refuted"
   ],
   "note": "For code with a letter, a digit or an arithmetic symbol; otherwise an assertion fails (refuted by ... and ())."
  },
  {
   "property": "C149",
   "status": "partial",
   "theorems": [
    "C149_numbers_go_by_code",
    "C149_all_are_numbered",
    "C149_plain_names_differ_partial",
    "C149_same_name_refuted"
   ],
   "note": "Numbers go by code (C149_numbers_go_by_code). Different names are refuted: self.a.b and self.a_b have the same name; only plain names are proved to differ."
  },
  {
   "property": "C150",
   "status": "partial",
   "theorems": [
    "C150_passes_are_chained_partial",
    "C150_class_is_kept",
    "C150_errors_name_the_pass",
    "C150_in_two_steps",
    "C150_statements_dropped_refuted"
   ],
   "note": "For visitors that do not answer with several statements; a visitor that needs metadata may leave several, of which all but the first are dropped without an error (refuted)."
  },
  {
   "property": "C151",
   "status": "proved",
   "theorems": [
    "C151_lookup_finds_the_last",
    "C151_one_counts",
    "C151_has",
    "C151_register_raises"
   ],
   "note": "Names within ASCII."
  },
  {
   "property": "C152",
   "status": "partial",
   "theorems": [
    "C152_export_runs_the_pipeline_partial",
    "C152_export_fails",
    "C152_options_win_refuted",
    "C152_refused_with_directory_refuted"
   ],
   "note": "Options that name output_dir or model_name win over the request, and a request for an unknown target is refused only after its directory was made (both refuted)."
  },
  {
   "property": "C153",
   "status": "proved",
   "theorems": [
    "C153_longest_module_then_attributes",
    "C153_names_have_parts",
    "C153_found_if_there",
    "C153_module"
   ],
   "note": "getattr raises nothing but AttributeError."
  },
  {
   "property": "C154",
   "status": "partial",
   "theorems": [
    "C154_names_lead_back_partial",
    "C154_submodule_refuted",
    "C154_local_refuted",
    "C154_no_module_refuted"
   ],
   "note": "For objects found in their module under their qualified name, without a submodule of that name; the case of torch's functions in fully_qualified_name is not modelled."
  },
  {
   "property": "C155",
   "status": "partial",
   "theorems": [
    "C155_parent_methods_partial",
    "C155_other_code_unchanged",
    "C155_attribute_of_super_refuted",
    "C155_method_of_attribute_refuted",
    "C155_class_methods_refuted"
   ],
   "note": "Proved for calls super().m(...) in methods when the class is bound to its name in the generated module. False for super().x, super().x.m() and f(super()), which are left as they are, and for class methods. Statements, nested functions and the binding of the class name are not modelled."
  },
  {
   "property": "C156",
   "status": "proved",
   "theorems": [
    "C156_all_nodes_once",
    "C156_order",
    "C156_types_independent"
   ],
   "note": "The tests of types of nodes are arbitrary predicates. The generator is modelled by the list it yields, so changes of the tree during the search are not modelled."
  },
  {
   "property": "C157",
   "status": "proved",
   "theorems": [
    "C157_columns_are_cut",
    "C157_unique",
    "C157_length_zero",
    "C157_uneven_columns_refuted"
   ],
   "note": "For tokenizers whose columns have one length; with columns of different lengths the pieces of the others can be short, which is shown. Lengths are natural numbers; length 0 raises ZeroDivisionError."
  },
  {
   "property": "C158",
   "status": "partial",
   "theorems": [
    "C158_total_partial",
    "C158_limit_zero_refuted",
    "C158_large_limit_refuted"
   ],
   "note": "Proved for positive limits up to the number of items, and without limit. With limit 0 the total is the number of all items though none is shown, and a limit beyond the end is kept as the total."
  },
  {
   "property": "C159",
   "status": "partial",
   "theorems": [
    "C159_kind_and_variables_partial",
    "C159_name_of_the_function",
    "C159_no_method",
    "C159_hidden_method_refuted",
    "C159_star_args_refuted"
   ],
   "note": "Proved for methods that attribute lookup finds and whose first parameter is positional. False if a class hides a method of a parent by another value, and for signatures that begin with *args. Wrapped functions are not modelled."
  },
  {
   "property": "C160",
   "status": "proved",
   "theorems": [
    "C160_existing_files_are_kept",
    "C160_one_file_is_written",
    "C160_every_path"
   ],
   "note": "Names, directories and existing files are modelled; rights, links, full disks and other processes are not."
  },
  {
   "property": "C161",
   "status": "partial",
   "theorems": [
    "C161_interrupted_write_partial",
    "C161_old_code_is_lost_refuted"
   ],
   "note": "Proved: the file is as before or has a beginning of the new code, and other files do not change. That it has the old or the new code is false: the file is emptied when it is opened."
  },
  {
   "property": "C162",
   "status": "partial",
   "theorems": [
    "C162_tokens_at_their_ids_partial",
    "C162_distinct_partial",
    "C162_larger_ids_refuted",
    "C162_filling_twice_refuted"
   ],
   "note": "Proved for ids below the size of the model and, for distinct tokens, for vocabularies without tokens of the form [PADi]. Tokens with larger ids are left out without an error, and a token [PADi] can be there twice. Merges and special tokens read by other libraries are not modelled."
  },
  {
   "property": "C163",
   "status": "partial",
   "theorems": [
    "C163_no_warning_is_lost_partial",
    "C163_place_partial",
    "C163_replaced_root_refuted",
    "C163_no_place"
   ],
   "note": "Proved for trees whose root can have comments and keeps its type. The warnings of a root that is replaced by a node of another type are lost. Transformers that drop nodes with comments are not modelled."
  },
  {
   "property": "C164",
   "status": "partial",
   "theorems": [
    "C164_source_of_a_name_partial",
    "C164_module",
    "C164_condition_refuted",
    "C164_class_again_refuted"
   ],
   "note": "Proved for modules without conditions in which no class is followed by another definition of its name. False with conditions, where the last definition in the text is taken, and for classes that are defined again, whose old members are still found. Assignments and the resolution of aliases are not modelled here."
  },
  {
   "property": "C165",
   "status": "partial",
   "theorems": [
    "C165_resolved_names_are_at_home",
    "C165_same_object_partial",
    "C165_errors_pass",
    "C165_swapped_names_refuted"
   ],
   "note": "Proved: results are fixed, and if qualified names lead back to objects the resolution ends after two calls at the same object. Functions that have the names of each other lead to RecursionError."
  },
  {
   "property": "C166",
   "status": "partial",
   "theorems": [
    "C166_nearer_partial",
    "C166_original_is_best",
    "C166_shapes",
    "C166_one_entry",
    "C166_batches",
    "C166_exact_copy_refuted"
   ],
   "note": "The order, the maximum, the shapes, the value of one entry and the average over batches are proved over rationals. Refuted that the ratio of an exact copy does not depend on the original: zeros have ratio 0, and scaling changes it, because of eps. Missing: rounding, decibels, empty tensors."
  }
 ]
}