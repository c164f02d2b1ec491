{
 "claims": [
  {
   "property": "C01",
   "status": "proved",
   "theorems": [
    "C01_make_name_never_repeats",
    "C01_make_name_keeps_base"
   ],
   "note": ""
  },
  {
   "property": "C02",
   "status": "proved",
   "theorems": [
    "C02_generated_names_fresh"
   ],
   "note": "see C41 for names of initializers and graph inputs"
  },
  {
   "property": "C03",
   "status": "proved",
   "theorems": [
    "C03_node_name_of_port_name",
    "C03_port_name_injective",
    "C03_bare_node_name"
   ],
   "note": ""
  },
  {
   "property": "C04",
   "status": "partial",
   "theorems": [
    "C04_combine_seeds_injective_partial",
    "C04_combine_seeds_none",
    "C04_combined_integer_injective_partial",
    "C04_combine_seeds_injective_refuted"
   ],
   "note": "Refuted in full (two distinct seed pairs give the same combined seed, also (None,x)); partial theorems state the exact injective range."
  },
  {
   "property": "C05",
   "status": "proved",
   "theorems": [
    "C05_merge_shapes_exact",
    "C05_merge_shapes_fails_iff_contradictory",
    "C05_compatible_iff_common_shape",
    "C05_shapes_equal_iff"
   ],
   "note": ""
  },
  {
   "property": "C06",
   "status": "partial",
   "theorems": [
    "C06_broadcast_inference_refuted",
    "C06_broadcast_inference_partial"
   ],
   "note": "Refuted for operands of different rank >= 1 (front aligned broadcasting); proved for equal ranks or a scalar operand."
  },
  {
   "property": "C07",
   "status": "proved",
   "theorems": [
    "C07_utils_sort_orders_dependencies",
    "C07_utils_sort_fails_iff_cyclic"
   ],
   "note": ""
  },
  {
   "property": "C08",
   "status": "proved",
   "theorems": [
    "C08_graph_sort_orders_producers",
    "C08_graph_sort_fails_iff_cyclic",
    "C08_graph_sort_rejects_missing_producer"
   ],
   "note": ""
  },
  {
   "property": "C09",
   "status": "partial",
   "theorems": [
    "C09_consumers_sound",
    "C09_consumers_complete_partial",
    "C09_consumers_complete_refuted",
    "C09_replace_inputs_refuted",
    "C09_nested_consumers_partial"
   ],
   "note": "Soundness for every history; completeness for clean histories (flat) and for removal-free clean histories over nested graphs; refuted otherwise (one of several slots replaced by index; replace_inputs with a node named like a tensor)."
  },
  {
   "property": "C10",
   "status": "partial",
   "theorems": [
    "C10_lookups_consistent",
    "C10_removed_not_found",
    "C10_empty_name_refuted"
   ],
   "note": "Proved for all histories with non-empty node names; an empty node name breaks it (refutation)."
  },
  {
   "property": "C11",
   "status": "partial",
   "theorems": [
    "C11_nothing_else_changes",
    "C11_replace_all_exact_partial",
    "C11_replace_all_refuted",
    "C11_nested_partial",
    "C11_nested_removal_refuted",
    "C11_late_attach_refuted"
   ],
   "note": "Frame part proved for every history; exactness for clean histories, flat and nested; refuted after duplicate-slot edits, removals in sub graphs and late attachment of sub graphs."
  },
  {
   "property": "C12",
   "status": "partial",
   "theorems": [
    "C12_delete_unused_preserves",
    "C12_flat_results_kept",
    "C12_keeps_exactly_the_needed_nodes",
    "C12_idempotent_partial",
    "C12_idempotent_refuted"
   ],
   "note": "Results, validity and exactness (needed nodes only) proved with nested bodies; idempotence proved without bodies and refuted with them (a tensor captured only by a dead body node is removed by the second call only)."
  },
  {
   "property": "C13",
   "status": "proved",
   "theorems": [
    "C13_order_does_not_matter",
    "C13_execution_defined_and_unique"
   ],
   "note": ""
  },
  {
   "property": "C14",
   "status": "proved",
   "theorems": [
    "C14_identity_elimination_preserves"
   ],
   "note": ""
  },
  {
   "property": "C15",
   "status": "proved",
   "theorems": [
    "C15_identity_elimination_complete"
   ],
   "note": ""
  },
  {
   "property": "C16",
   "status": "partial",
   "theorems": [
    "C16_merge_preserves_partial",
    "C16_no_duplicates_left",
    "C16_merge_preserves_refuted",
    "C16_random_operators_refuted"
   ],
   "note": "Refuted in general: operators of the same name in different domains are merged, Split nodes with different numbers of outputs are merged, independent random draws are merged. Proved otherwise, together with completeness (no duplicates left)."
  },
  {
   "property": "C17",
   "status": "partial",
   "theorems": [
    "C17_folding_functions_agree_with_onnx",
    "C17_reshape_allowzero_refuted",
    "C17_fold_graph_partial",
    "C17_fold_terminates"
   ],
   "note": "All nine folding functions equal the (unique) ONNX value for all shapes/values; graph pass preserves results and terminates. Partial: captured constants and bodies not followed; Reshape with allowzero=1 refuted (code ignores the attribute)."
  },
  {
   "property": "C18",
   "status": "proved",
   "theorems": [
    "C18_transpose_fusion_exact"
   ],
   "note": "Fusion rule proved exact for all ranks, permutations and tensors."
  },
  {
   "property": "C19",
   "status": "partial",
   "theorems": [
    "C19_int64_float_int64_refuted",
    "C19_float_int_bool_refuted",
    "C19_cast_fusion_exact_partial",
    "C19_lossless_pairs_partial"
   ],
   "note": "Claim is false of the code: int64->float->int64 and float->int->bool are fused but lossy (refuted). Proved for first casts that lose nothing."
  },
  {
   "property": "C20",
   "status": "partial",
   "theorems": [
    "C20_reshape_zero_refuted",
    "C20_reshape_fusion_exact_partial"
   ],
   "note": "Claim is false of the code when the second target contains 0 (refuted). Proved otherwise."
  },
  {
   "property": "C21",
   "status": "proved",
   "theorems": [
    "C21_squeeze_unsqueeze_cancel_exact"
   ],
   "note": ""
  },
  {
   "property": "C22",
   "status": "proved",
   "theorems": [
    "C22_conv_batchnorm_fusion_exact"
   ],
   "note": "Over the reals, all groups/strides/dilations/paddings; uses the stdlib axioms of R."
  },
  {
   "property": "C23",
   "status": "partial",
   "theorems": [
    "C23_elementwise",
    "C23_pad",
    "C23_tile",
    "C23_slice",
    "C23_quantize",
    "C23_softmax",
    "C23_softmax12_partial",
    "C23_arg",
    "C23_reduce",
    "C23_reduce_latest",
    "C23_squeeze",
    "C23_unsqueeze",
    "C23_shape",
    "C23_concat",
    "C23_split",
    "C23_broadcast",
    "C23_prelu",
    "C23_broadcast_inputs",
    "C23_sum_partial",
    "C23_pair",
    "C23_reshape",
    "C23_conv_mul_partial",
    "C23_conv_add_partial",
    "C23_push_in_graph_partial",
    "C23_softmax12_negative_refuted",
    "C23_quantize_default_axis_refuted",
    "C23_shape_range_refuted",
    "C23_conv_add_refuted",
    "C23_sum_same_constant_refuted",
    "C23_nested_consumer_refuted",
    "C23_mul_in_graph_partial",
    "C23_useless_partial",
    "C23_useless_output_refuted",
    "C23_mul_second_output_refuted"
   ],
   "note": "Attribute computation of every handler proved to commute with Transpose; the graph rewriting of the attribute-only handlers (Relu-like, Softmax, Arg*, Reduce*, Squeeze, Unsqueeze) and of Mul (with itself, with a scalar constant on either side, with a second Transpose) and the removal of identity Transposes proved valid and result-preserving for every graph in which the single consumer is on the same level. Refuted: Softmax<13 with negative axis, QuantizeLinear without axis attribute, Shape with start/end, bias merging along the wrong dimension, Sum with one constant twice, single consumer in a nested body, an identity Transpose or a second Transpose of Mul that is an output of the graph (it is removed). Missing: graph rewriting of the branch, constant-input and Conv-merging handlers, main loop."
  },
  {
   "property": "C24",
   "status": "partial",
   "theorems": [
    "C24_symbolic_execution_partial",
    "C24_reshape_optimizer_partial",
    "C24_zero_with_shift_refuted",
    "C24_negative_squeeze_axis_refuted",
    "C24_cast_refuted"
   ],
   "note": "Proved: whenever the symbolic executor succeeds on the shape computation, its value at the run's input is the value the ONNX operators compute, and the Reshape to the constant shape found by the optimizer (with the leading unsqueeze / trailing squeeze for a shift) computes the original Reshape. Partial: restricted to plain operators (non-negative Squeeze axes, non-empty ReduceProd axes, Cast that keeps the value, Slice start >= -dim for negative steps), non-empty inputs, no entry 0 together with a shift, unbounded integers; the edit of the node list is not modelled. Refuted outside: 0 entry with a shift, negative Squeeze axis, Cast to bool."
  },
  {
   "property": "C25",
   "status": "proved",
   "theorems": [
    "C25_failures_are_isolated",
    "C25_relation_kept_despite_failures",
    "C25_failing_optimizers_are_skipped",
    "C25_strict_mode_raises"
   ],
   "note": "The optimizers are arbitrary heap transformers; sharing between the caller graph and the working copy is visible in the heap. The final topological sort is a parameter."
  },
  {
   "property": "C26",
   "status": "proved",
   "theorems": [
    "C26_chosen_handler_is_newest",
    "C26_unsupported_iff_no_usable_version",
    "C26_custom_handlers_take_precedence"
   ],
   "note": "Full characterisation over every registration history: iff, uniqueness of the winner included. Across domains the one registered last wins (that is what the code does; the property text says custom domains take precedence, which the user handlers do)."
  },
  {
   "property": "C27",
   "status": "proved",
   "theorems": [
    "C27_schema_is_newest",
    "C27_no_schema_iff_none_old_enough",
    "C27_max_supported_version"
   ],
   "note": ""
  },
  {
   "property": "C28",
   "status": "partial",
   "theorems": [
    "C28_match_is_sound",
    "C28_match_is_complete",
    "C28_match_graph_yields_exactly_the_matches",
    "C28_bound_nodes_really_match",
    "C28_every_element_is_bound_once",
    "C28_shared_elements_are_consistent_refuted",
    "C28_matching_never_fails_refuted"
   ],
   "note": "Soundness and completeness proved for all patterns and graphs; 'consistently' is refuted for a pattern object used twice, and the matcher can raise on a missing input producer."
  },
  {
   "property": "C29",
   "status": "proved",
   "theorems": [
    "C29_decoding_inverts_any_encoding",
    "C29_encoding_is_unambiguous",
    "C29_roundtrip"
   ],
   "note": "Proved for every buffer conforming to the format (any widths/nesting). Floats are compared as their raw bytes, strings as bytes (decode_strings=False)."
  },
  {
   "property": "C30",
   "status": "proved",
   "theorems": [
    "C30_string_tensor_roundtrip",
    "C30_encoding_injective"
   ],
   "note": "Proved for all lists of byte strings whose encoding is smaller than 2^31 bytes (the int32 offsets of the format); utf-8 decoding and reshape are outside the model."
  },
  {
   "property": "C31",
   "status": "partial",
   "theorems": [
    "C31_weights_roundtrip_partial",
    "C31_accepted_weights_sound",
    "C31_trailing_nul_refuted",
    "C31_several_groups_refuted"
   ],
   "note": "Round trip for any sharding and soundness of acceptance proved for the first manifest group; refuted in general: trailing NUL bytes of string weights are lost (numpy S dtype), and only weightsManifest[0] is read, so weights of later groups are lost. Missing: the dequantisation arithmetic (scale/min)."
  },
  {
   "property": "C32",
   "status": "partial",
   "theorems": [
    "C32_padding_matches_tf",
    "C32_same_pads_balanced",
    "C32_unknown_kernel_refuted"
   ],
   "note": "Proved for SAME/VALID/EXPLICIT, all sizes, with partially known shapes; refuted when the filter size is not statically known (pads computed from -1)."
  },
  {
   "property": "C33",
   "status": "partial",
   "theorems": [
    "C33_layout_perms_inverse",
    "C33_layout_roundtrip",
    "C33_channels_first_moves_channel",
    "C33_shape_helper_first",
    "C33_spatial_map",
    "C33_shape_helper_last_refuted"
   ],
   "note": "Permutations and channels-first helper proved for all ranks; make_shape_channels_last refuted (it is unused in the code base today)."
  },
  {
   "property": "C34",
   "status": "proved",
   "theorems": [
    "C34_inputs_as_nchw",
    "C34_no_result_is_lost"
   ],
   "note": "Proved for inputs with recorded rank 4 (others are left alone, as in the code); names are supplied by make_name (C01)."
  },
  {
   "property": "C35",
   "status": "partial",
   "theorems": [
    "C35_outputs_as_nchw_partial",
    "C35_final_outputs_as_nchw_partial",
    "C35_shared_output_refuted"
   ],
   "note": "Proved for private outputs and, with C51, for every output that the given model does not read inside; refuted otherwise (real defect: tfonnx.py:346 inserts the transpose before all consumers of node.input[0])."
  },
  {
   "property": "C36",
   "status": "partial",
   "theorems": [
    "C36_stride_one_partial",
    "C36_stride_one_supported",
    "C36_any_stride_partial",
    "C36_span_spec",
    "C36_end_zero_refuted",
    "C36_masked_begin_refuted",
    "C36_start_before_first_refuted",
    "C36_masked_huge_end_refuted",
    "C36_empty_ellipsis_refuted",
    "C36_empty_ellipsis_new_refuted",
    "C36_new_and_shrink_refuted",
    "C36_float32_refuted"
   ],
   "note": "Proved for every rank, shape, begin/end/strides and mask combination inside an explicit domain (fine_1, fine_10, starts_inside, ellipsis covers an axis); each excluded kind of input is refuted by a concrete counterexample theorem: x[-2:0], begin masked but not 0, start before the first element going down, huge masked end, empty ellipsis (two ways), newaxis+shrink, float32 rounding of run-time ends."
  },
  {
   "property": "C37",
   "status": "partial",
   "theorems": [
    "C37_parameter_binding",
    "C37_inline_partial",
    "C37_wire_if_branch_partial",
    "C37_captured_target_refuted",
    "C37_domain_refuted",
    "C37_duplicate_result_refuted",
    "C37_omitted_output_refuted",
    "C37_same_scope_twice_refuted"
   ],
   "note": "Proved for every function graph, binding and parent: the parameter binding pairs the non-state parameters with the actual inputs in order; inlining appends nodes with fresh scoped names, any execution of the new graph computes the function at the bound tensors, every function result is realised by extending a parent execution outside the scope; an If branch has no inputs and computes the function. Partial: needs the conditions inlinable/fresh_in (spec) which the code does not check; shapes and dtypes are not modelled. Refuted without them: bound tensor named like an earlier function tensor, non-default node domain lost, result returned twice, omitted output '' captured by omitted inputs, the same scope used twice defines tensors twice."
  },
  {
   "property": "C38",
   "status": "proved",
   "theorems": [
    "C38_external_data_not_overwritten",
    "C38_zip_roundtrip"
   ],
   "note": ""
  },
  {
   "property": "C39",
   "status": "partial",
   "theorems": [
    "C39_round_trip",
    "C39_round_trip_binary32",
    "C39_pair_removed_partial",
    "C39_dequantize_pushed_partial",
    "C39_copying_operators",
    "C39_scatter_add_refuted",
    "C39_no_zero_point_refuted",
    "C39_default_axis_refuted",
    "C39_nested_reader_refuted"
   ],
   "note": "Round trip proved for every integer in the zero point's range, in exact reals and in round-to-nearest binary32 (Flocq; overflow/subnormals of scale*value not modelled: FLX precision 24). Pair removal and pushing DequantizeLinear through element-copying operators are graph theorems (every environment, valid graph), hypotheses: node has one output, parameters given by constants, opset with axis explicit. Refuted sides: ScatterAdd-like non-copying operator, missing zero point (uint8 vs int8), default axis, reader inside a nested graph. Missing: pushing QuantizeLinear up (lines 54-79)."
  },
  {
   "property": "C40",
   "status": "proved",
   "theorems": [
    "C40_reduction_is_pooling",
    "C40_replacement_preserves"
   ],
   "note": "optimize_reduce (global_pool_optimizer) on a graph: validity and equivalence in every call where the recorded rank is the real one; the tensor-level fact holds for every aggregation"
  },
  {
   "property": "C41",
   "status": "partial",
   "theorems": [
    "C41_initializer_names_fresh_refuted",
    "C41_fresh_against_all_names_partial"
   ],
   "note": "Refuted: initializer names are not scanned; proved for names of nodes and their outputs."
  },
  {
   "property": "C42",
   "status": "partial",
   "theorems": [
    "C42_merge_op_covers_branches_refuted",
    "C42_merge_op_covers_branches_partial"
   ],
   "note": "Refuted; partial theorem gives the cases where the claim covers both branches."
  },
  {
   "property": "C43",
   "status": "partial",
   "theorems": [
    "C43_expand_dims_sound",
    "C43_unpack_sound",
    "C43_reduce_keep_sound",
    "C43_reduce_drop_sound",
    "C43_pack_sound_partial",
    "C43_pack_negative_axis_refuted",
    "C43_pow_refuted"
   ],
   "note": "ExpandDims/Unpack/Reduce proved; Pack proved for non-negative axes and refuted for negative; Pow refuted."
  },
  {
   "property": "C44",
   "status": "partial",
   "theorems": [
    "C44_functions_emitted_iff_resolvable",
    "C44_functions_after_callees",
    "C44_nothing_dropped_when_acyclic",
    "C44_cyclic_functions_dropped_refuted"
   ],
   "note": "Order and completeness proved for closed acyclic libraries; that cyclic functions are silently dropped is the refutation."
  },
  {
   "property": "C45",
   "status": "partial",
   "theorems": [
    "C45_conversions_are_independent_refuted",
    "C45_conversions_are_independent_partial"
   ],
   "note": "Refuted when the custom-op domain ai.onnx.converters.tensorflow is requested (a handler registered by an earlier conversion is picked, with wrongly nested kwargs); proved otherwise."
  },
  {
   "property": "C46",
   "status": "partial",
   "theorems": [
    "C46_domain_fallback_is_newest_refuted",
    "C46_domain_fallback_partial"
   ],
   "note": "Refuted: create_mapping updates the per-domain table before applying the version, so the newest usable version of the domain is missing (e.g. Equal at opset 11). Proved when the domain has a usable registration of a larger version."
  },
  {
   "property": "C47",
   "status": "partial",
   "theorems": [
    "C47_conv_conversion_partial",
    "C47_unknown_channels_refuted"
   ],
   "note": "Proved for any spatial rank over the reals; hypotheses needed: filter size statically known for SAME, and for grouped convolutions statically known channel counts with a 2-D data format (refuted otherwise). Missing: inputs without batch axis, in-place transposition of shared constants (the wiring)."
  },
  {
   "property": "C48",
   "status": "proved",
   "theorems": [
    "C48_depthwise_conversion"
   ],
   "note": ""
  },
  {
   "property": "C49",
   "status": "proved",
   "theorems": [
    "C49_pool_conversion"
   ],
   "note": ""
  },
  {
   "property": "C50",
   "status": "partial",
   "theorems": [
    "C50_conv_transpose_pads_partial",
    "C50_conv_transpose_shift_refuted"
   ],
   "note": "Proved for SAME when the requested output is not larger than the natural one; refuted otherwise (negative pads; shift from stride 3 on). Missing: the dynamic output shape path and the multi-axis value semantics."
  },
  {
   "property": "C51",
   "status": "proved",
   "theorems": [
    "C51_outputs_keep_names_and_values",
    "C51_same_results"
   ],
   "note": "Output list without duplicates."
  },
  {
   "property": "C52",
   "status": "proved",
   "theorems": [
    "C52_cut_at_inputs",
    "C52_unknown_input_is_an_error"
   ],
   "note": "Input list without duplicates."
  },
  {
   "property": "C53",
   "status": "partial",
   "theorems": [
    "C53_while_partial",
    "C53_index_refuted",
    "C53_counter_in_condition_refuted",
    "C53_start_refuted",
    "C53_lists_first_refuted",
    "C53_counter_output_refuted"
   ],
   "note": "Soundness and completeness of the conversion for counted loops, relational semantics with arbitrary operators, no bound on the iterations; refutations for writes at other indices, conditions on the counter, other starts, reads before lists, the counter as a result. Missing: ragged tensor lists, that the conversion succeeds."
  },
  {
   "property": "C54",
   "status": "partial",
   "theorems": [
    "C54_same_results_partial",
    "C54_parts_partial",
    "C54_total",
    "C54_shared_default_refuted"
   ],
   "note": "Equivalence of the runs of the graph and of the written model for all given inputs, nested bodies included; structure and success of writing. Partial: constants used as a default and elsewhere are dropped (refuted), defaults in body graphs are excluded."
  },
  {
   "property": "C55",
   "status": "partial",
   "theorems": [
    "C55_equal",
    "C55_greater_less_partial",
    "C55_greater_less_equal_partial",
    "C55_equal_self",
    "C55_not_equal_self",
    "C55_equal_float_refuted",
    "C55_equal_uint64_refuted",
    "C55_not_equal_self_refuted",
    "C55_not_equal_self_7_refuted",
    "C55_greater_refuted",
    "C55_greater_equal_nan_refuted"
   ],
   "note": "Proved: Equal/NotEqual for all dtypes and values from opset 11 on (before: bool and integers except uint64); Greater/Less for all floats and integers up to 2^24; >= and <= exactly from opset 12 on, before without NaN and up to 2^24. Refuted: floats are compared as int32 before opset 11, uint64 modulo 2^32; x != x becomes IsNaN also for integers and before opset 9; integers are compared as float32 for every opset; NaN >= x is true before opset 12."
  },
  {
   "property": "C56",
   "status": "partial",
   "theorems": [
    "C56_select_partial",
    "C56_where",
    "C56_constants",
    "C56_vector_condition_partial",
    "C56_infinity_refuted",
    "C56_float16_refuted",
    "C56_int8_refuted"
   ],
   "note": "Proved: all dtypes and values whose unselected element is finite; all values when handles_nan holds (Where); constant branches with NaN/inf; one-dimensional conditions. Refuted: an infinity in an unselected computed branch gives NaN for every opset; float16 constants are not inspected; 8/16 bit integers before opset 14."
  },
  {
   "property": "C57",
   "status": "partial",
   "theorems": [
    "C57_min_max_partial",
    "C57_clip_partial",
    "C57_square",
    "C57_squared_difference",
    "C57_div_no_nan",
    "C57_is_finite",
    "C57_floor_div_partial",
    "C57_floor_mod_partial",
    "C57_round",
    "C57_round_7_partial",
    "C57_sign",
    "C57_bit_shift_partial",
    "C57_max_refuted",
    "C57_max_int8_refuted",
    "C57_clip_refuted",
    "C57_floor_div_refuted",
    "C57_floor_mod_refuted",
    "C57_floor_div_negative_refuted",
    "C57_floor_mod_float_refuted",
    "C57_round_half_refuted",
    "C57_round_integer_refuted",
    "C57_sign_refuted",
    "C57_div_no_nan_refuted",
    "C57_is_finite_refuted",
    "C57_right_shift_refuted",
    "C57_shift_int64_refuted"
   ],
   "note": "Proved per operator with the hypotheses in the statements. Refuted: Min/Max/Clip of integers above 2^24 before opset 12 and of 8 bit integers from opset 12 on; FloorDiv and FloorMod of integers whenever the quotient is negative and not whole; FloorMod of floats from the rounded quotient; Round before opset 11 (ties and numbers above 2^23); Sign of double/float16 before opset 9; DivNoNan before opset 11; IsFinite of float16 before opset 20; RightShift of negative int8; int64 shifts raise. ClipByValue from opset 12 on is not proved (ONNX requires scalar bounds)."
  },
  {
   "property": "C58",
   "status": "partial",
   "theorems": [
    "C58_leakyrelu_partial",
    "C58_thresholded_relu_partial",
    "C58_stacked_refuted",
    "C58_swapped_refuted",
    "C58_alpha_vector_refuted",
    "C58_theta_vector_refuted",
    "C58_output_removed_refuted"
   ],
   "note": "Proved for all graphs, by induction over the matches: C58_leakyrelu_partial, C58_thresholded_relu_partial (operators over the reals, deterministic; groups not stacked, scalar constant, neither result nor intermediate a graph output, comparison the right way round). The remaining cases are refuted on concrete graphs: stacked groups leave a dangling input, theta > x is taken for x > theta, a constant of shape [1] raises (LeakyRelu) or gives a list attribute (ThresholdedRelu), a fused node that is a graph output is removed."
  },
  {
   "property": "C59",
   "status": "partial",
   "theorems": [
    "C59_gemm_partial",
    "C59_rank_refuted",
    "C59_factor_refuted",
    "C59_output_removed_refuted"
   ],
   "note": "Proved for all graphs, shapes and factors, by induction over the matches of the five patterns: C59_gemm_partial (operators over the reals, deterministic; neither the result nor the product of a group is a graph output; no factor of shape [1, ...]; the summand has no more dimensions than the product). The remaining cases are refuted on concrete graphs: a summand of rank 3 raises IndexError, a factor of shape [1, 1] becomes a list attribute, a group result that is a graph output is removed."
  },
  {
   "property": "C60",
   "status": "partial",
   "theorems": [
    "C60_batch_to_space_partial",
    "C60_space_to_batch_partial",
    "C60_accepted",
    "C60_empty_refuted"
   ],
   "note": "Partial: proved for tensors without empty non-batch dimensions and with sizes below the handler's to-the-end constants; C60_empty_refuted shows the emitted Reshape misreads an empty dimension. C60_accepted: from opset 11 every defined node is accepted."
  },
  {
   "property": "C61",
   "status": "partial",
   "theorems": [
    "C61_roll_partial",
    "C61_accepted",
    "C61_vector_refuted",
    "C61_empty_refuted"
   ],
   "note": "Partial: rolled dimensions must be non-empty and the shifts not a one-element vector; C61_empty_refuted and C61_vector_refuted show the emitted graph fails there."
  },
  {
   "property": "C62",
   "status": "proved",
   "theorems": [
    "C62_reverse",
    "C62_refuses"
   ],
   "note": "Proved for all ranks, axes and opsets >= 10 (rank known, as the handler requires)."
  },
  {
   "property": "C63",
   "status": "partial",
   "theorems": [
    "C63_stack",
    "C63_unstack",
    "C63_accepted",
    "C63_split_partial",
    "C63_split_sizes_partial",
    "C63_split_runtime_partial",
    "C63_refuses",
    "C63_negative_axis_refuted",
    "C63_unknown_dim_refuted",
    "C63_runtime_rest_refuted"
   ],
   "note": "stack and unstack are proved in full. split: a negative axis is copied to the ONNX attribute even before opset 11 where ONNX does not allow it; SplitV with a constant -1 and an unknown dimension emits a negative size; run-time sizes with -1 reach ONNX Split unchanged (refuted)."
  },
  {
   "property": "C64",
   "status": "partial",
   "theorems": [
    "C64_slice_const",
    "C64_slice_runtime_partial",
    "C64_refuses",
    "C64_runtime_rest_refuted"
   ],
   "note": "Constant begin/size proved in full. Run time: begin + (max-1) overflows when size is -1 and begin >= 2, the result is then empty (refuted); proved otherwise."
  },
  {
   "property": "C65",
   "status": "partial",
   "theorems": [
    "C65_gather_partial",
    "C65_accepted",
    "C65_refuses",
    "C65_negative_axis_refuted",
    "C65_negative_batch_dims_refuted"
   ],
   "note": "Proved for all ranks, axes and batch_dims >= 0; with batch_dims > 0 a negative axis gives an invalid permutation, and a negative batch_dims is copied to GatherND (both refuted)."
  },
  {
   "property": "C66",
   "status": "partial",
   "theorems": [
    "C66_pad",
    "C66_accepted",
    "C66_refuses",
    "C66_value_type_partial",
    "C66_value_type_refuted"
   ],
   "note": "values proved in full for all modes, constant and computed paddings; refuted: PadV2 on float16 from opset 11 on casts the data to float but not the border value"
  },
  {
   "property": "C67",
   "status": "partial",
   "theorems": [
    "C67_one_hot_partial",
    "C67_accepted",
    "C67_refuses",
    "C67_negative_refuted",
    "C67_negative_gather_refuted",
    "C67_out_of_range_refuted",
    "C67_on_zero_off_one_refuted"
   ],
   "note": "proved for indices for which the conversion is right; refuted: index -1 gives on at the last position (opset >= 11, and by Gather), index >= depth makes Gather fail, on_value 0 with off_value 1 gives all zeros for non-float types"
  },
  {
   "property": "C68",
   "status": "proved",
   "theorems": [
    "C68_space_to_depth",
    "C68_depth_to_space",
    "C68_accepted"
   ],
   "note": ""
  },
  {
   "property": "C69",
   "status": "partial",
   "theorems": [
    "C69_reverse_sequence_partial",
    "C69_scan_partial",
    "C69_scan_possible",
    "C69_refuses",
    "C69_scan_tail_refuted",
    "C69_scan_axes_refuted",
    "C69_axes_refuted"
   ],
   "note": "proved for the first two axes (opset >= 10 everywhere, opset 8 inside the sequences); refuted: tail of short sequences at opset 8 is undefined, seq_dim 1/batch_dim 2 at opset 8 is converted as batch_dim 0, axes >= 2 from opset 10 on give an invalid node"
  },
  {
   "property": "C70",
   "status": "partial",
   "theorems": [
    "C70_range_ints_partial",
    "C70_accepted",
    "C70_range_floats",
    "C70_long_ranges_refuted",
    "C70_int16_refuted"
   ],
   "note": "Missing: long ranges and int8/int16/uint types (both refuted before opset 11), float constants (numpy.arange) and floats from opset 11 on (ONNX multiplies where TensorFlow adds)."
  },
  {
   "property": "C71",
   "status": "partial",
   "theorems": [
    "C71_top_k_partial",
    "C71_accepted",
    "C71_other_consumers_partial",
    "C71_other_consumers_refuted",
    "C71_large_integers_refuted",
    "C71_invert_permutation_partial",
    "C71_invert_int32_refuted"
   ],
   "note": "Refuted: integers above 2^24 (and doubles) are compared as float32; before opset 10 the Cast is put before all consumers of the input; invert_permutation of int32 gives int64 although int32 is recorded."
  },
  {
   "property": "C72",
   "status": "partial",
   "theorems": [
    "C72_reduce_partial",
    "C72_reduce_accepted",
    "C72_arg_partial",
    "C72_all_any_partial",
    "C72_all_any_accepted",
    "C72_all_of_nothing_refuted",
    "C72_scalar_axes_refuted",
    "C72_negative_axis_refuted",
    "C72_int16_refuted"
   ],
   "note": "Proved for every tensor, reduction relation, axes and opset where TensorFlow accepts; partial because empty constant axes-as-attribute are excluded, and four defects are refuted: All over a dimension of size 0 before opset 13 (ReduceMin of nothing), All/Any with scalar axes of unrecorded rank from opset 13, ArgMax/ArgMin with a negative axis and unknown rank before opset 11, ArgMax with int16/uint16 result."
  },
  {
   "property": "C73",
   "status": "partial",
   "theorems": [
    "C73_segment_partial",
    "C73_rows",
    "C73_float32",
    "C73_accepted",
    "C73_negative_refuted",
    "C73_empty_max_refuted",
    "C73_empty_mean_refuted",
    "C73_no_result_refuted"
   ],
   "note": "Proved for any reductions for which identity rows do not matter, and these hold for float32 rows of any width (C73_float32, C73_rows); acceptance characterised exactly. Partial: outside empty data, negative ids, empty segments for Max/Min and for Mean without num_segments, and Mean/SqrtN with num_segments in other types than float32; for each the refutation is proved."
  },
  {
   "property": "C74",
   "status": "partial",
   "theorems": [
    "C74_ragged_range_partial",
    "C74_ragged_range_refuted",
    "C74_ragged_range_scalars_refuted",
    "C74_ragged_range_empty_refuted",
    "C74_ragged_gather",
    "C74_ragged_gather_accepted",
    "C74_ragged_to_sparse_partial",
    "C74_ragged_to_sparse_empty_refuted"
   ],
   "note": "Gather proved in full. RaggedRange: proved when there is a row, an argument is a vector and the limit is not behind the start by less than delta; the rest refuted. RaggedTensorToSparse: proved when each ragged dimension has a row; otherwise refuted. Integers do not overflow; float ranges are not modelled."
  },
  {
   "property": "C75",
   "status": "partial",
   "theorems": [
    "C75_dynamic_partition",
    "C75_dynamic_partition_accepted",
    "C75_dynamic_stitch_partial",
    "C75_dynamic_stitch_duplicates_refuted",
    "C75_dynamic_stitch_gap_refuted",
    "C75_bincount_partial",
    "C75_bincount_matrix_refuted",
    "C75_dense_bincount_unknown_rank_refuted",
    "C75_bincount_accepted",
    "C75_unique",
    "C75_unique_double_refuted"
   ],
   "note": "DynamicPartition and Unique of integers proved in full. DynamicStitch: proved when the indices are 0..n-1 in any order; duplicates and gaps refuted. Bincount/DenseBincount: proved unless the recorded rank selects the wrong form (both refuted). Unique of doubles refuted; NaN and strings not modelled."
  },
  {
   "property": "C76",
   "status": "partial",
   "theorems": [
    "C76_sparse_reshape_partial",
    "C76_sparse_reshape_accepted",
    "C76_sparse_reshape_refuted",
    "C76_fill_empty_rows_partial",
    "C76_fill_empty_rows_accepted",
    "C76_fill_empty_rows_refuted",
    "C76_sparse_to_dense_partial",
    "C76_sparse_to_dense_accepted",
    "C76_sparse_to_dense_vector_refuted",
    "C76_ragged_partitions_partial",
    "C76_ragged_to_tensor_partial",
    "C76_partition_types",
    "C76_ragged_to_tensor_empty_refuted"
   ],
   "note": "Partial: sparse_reshape without a 0 in the new shape (refuted otherwise); fill_empty_rows up to the order of the entries (order refuted); sparse_to_dense with matrix indices (vector indices refuted); ragged_to_tensor without empty dimensions (refuted for VALUE_ROWIDS)."
  },
  {
   "property": "C77",
   "status": "partial",
   "theorems": [
    "C77_atan2_partial",
    "C77_atan2_rank_partial",
    "C77_atan2_scalars_refuted",
    "C77_atan2_accepted"
   ],
   "note": "Exact real arithmetic (Coq's Reals and its listed axioms); rounding, infinities, NaN and the sign of zero are not modelled. Two scalar operands give a result of rank 1 (refuted)."
  },
  {
   "property": "C78",
   "status": "partial",
   "theorems": [
    "C78_matmul_partial",
    "C78_matmul_unknown_rank_refuted",
    "C78_matmul_accepted",
    "C78_einsum_partial",
    "C78_einsum_upper_case_refuted"
   ],
   "note": "Ranks of at least two; complex numbers, the type restrictions of opsets below 9 and equations with an ellipsis or without an arrow are left out. Refuted: an operand of unknown recorded rank is not transposed; labels that differ only in case are merged."
  },
  {
   "property": "C79",
   "status": "partial",
   "theorems": [
    "C79_cumprod_partial",
    "C79_cumprod_accepted",
    "C79_cumprod_negative_axis_refuted",
    "C79_cumprod_opset10_refuted",
    "C79_cumprod_exclusive_empty_refuted"
   ],
   "note": "Exact arithmetic: any commutative, associative multiplication with unit. Refuted: opset 10; an exclusive product along an empty axis has one entry; a negative axis that is an input fails."
  },
  {
   "property": "C80",
   "status": "partial",
   "theorems": [
    "C80_hue",
    "C80_saturation_partial",
    "C80_saturation_cycle_refuted"
   ],
   "note": "AdjustHue is proved for all pixels. AdjustSaturation is proved for the four orders of the channels that are their own inverse and refuted, for every factor > 0, for the two cyclic ones: GatherElements with the TopK indices puts the channels back in the wrong places (even the factor 1 changes the colours). Real arithmetic."
  },
  {
   "property": "C81",
   "status": "partial",
   "theorems": [
    "C81_band_partial",
    "C81_triangle_partial",
    "C81_negative_at_run_time_refuted",
    "C81_no_columns_refuted",
    "C81_infinite_refuted"
   ],
   "note": "Partial: proved for all shapes, ranks (known or not) and bounds except: a non-constant bound that is negative at run time (refuted: the test 'bound >= 0' is made at conversion time only), matrices without columns (refuted: Reshape cannot copy a 0 that its one-dimensional input lacks), and values with 0*v <> 0 such as infinities (refuted: masking multiplies)."
  },
  {
   "property": "C82",
   "status": "partial",
   "theorems": [
    "C82_batch_norm_is_batch_norm_partial",
    "C82_batch_norm_runs",
    "C82_averaging_factor_refuted"
   ],
   "note": "Both layouts, both modes, all sizes over the real numbers. Refuted: training with exponential_avg_factor other than 1 uses the running averages. Not modelled: casts to the type of the mean, outputs other than y."
  },
  {
   "property": "C83",
   "status": "partial",
   "theorems": [
    "C83_scatter_combines_all_updates_partial",
    "C83_scatter_nd_duplicates_refuted",
    "C83_max_before_opset_18_refuted"
   ],
   "note": "All shapes, depths and repeated rows. Refuted: ScatterNd with repeated rows keeps the last update instead of the sum; Max and Min are emitted at opsets 16 and 17, where ScatterND has no such reduction."
  },
  {
   "property": "C84",
   "status": "partial",
   "theorems": [
    "C84_lrn_is_lrn_partial",
    "C84_beta_left_out_refuted",
    "C84_alpha_left_out_is_not_converted"
   ],
   "note": "All picture sizes, channels and radii over the real numbers. Refuted: beta left out (a stripped default, 0.5) becomes the operator's 0.75; alpha left out is not converted."
  },
  {
   "property": "C85",
   "status": "partial",
   "theorems": [
    "C85_softmax_is_rowwise",
    "C85_cross_entropy_partial",
    "C85_broadcast_classes_refuted",
    "C85_sparse_cross_entropy_partial",
    "C85_gathernd_refuted"
   ],
   "note": "Dense cross entropy is proved when the features have all classes (C85_broadcast_classes_refuted shows the other case is wrong: graph 0, TensorFlow ln 2). The GatherNd variant of opsets 7/8 squeezes axis 1 of a vector, which the operator's specification does not allow (a runtime that ignores such an axis would run it). Casts of integer labels are left out; reals instead of floats."
  },
  {
   "property": "C86",
   "status": "partial",
   "theorems": [
    "C86_ctc_partial",
    "C86_nothing_decoded_refuted",
    "C86_blank_index_refuted"
   ],
   "note": "Partial: at least one sequence must decode to something (C86_nothing_decoded_refuted: the graph reduces no rows, where ONNX defines no maximum before opset 20) and the blank must be the last class (C86_blank_index_refuted: the attribute of newer TensorFlow versions is not read). Tensors of two dimensions are functions of indices in the model; reals instead of floats."
  },
  {
   "property": "C87",
   "status": "partial",
   "theorems": [
    "C87_set_operation_partial",
    "C87_sets_exist",
    "C87_no_members_refuted"
   ],
   "note": "Full equality with TensorFlow's sparse tensor for all four operations, ranks and sizes when some row keeps a member; refuted when no row keeps any (the graph has no result)."
  },
  {
   "property": "C88",
   "status": "proved",
   "theorems": [
    "C88_positions",
    "C88_otherwise_rejected",
    "C88_row_major"
   ],
   "note": "Full equality of the numbering for all sizes and opsets; unsupported cases are rejected. The pooling itself is outside (SAME padding is C32)."
  },
  {
   "property": "C89",
   "status": "partial",
   "theorems": [
    "C89_diagonals_partial",
    "C89_large_refuted",
    "C89_default_align_refuted"
   ],
   "note": "Proved for all matrices up to 2^24 elements (padded), all bands, alignments and paddings; refuted above (FLOAT casts of indices) and for a left out align attribute (LEFT_RIGHT instead of RIGHT_LEFT)."
  },
  {
   "property": "C90",
   "status": "partial",
   "theorems": [
    "C90_diagonal_partial",
    "C90_matrix_refuted",
    "C90_lost_matrices_refuted"
   ],
   "note": "Proved for rank 3, rank 4 with second dimension <= min(rows, cols), rank >= 5 with second and third dimension <= min and rows <= cols. Refuted: rank 2 is always rejected (no axis 2); rank 4 with a larger second dimension loses matrices."
  },
  {
   "property": "C91",
   "status": "partial",
   "theorems": [
    "C91_contrast_partial"
   ],
   "note": "Over the reals, for images of the factor's type and known rank. Not proved: half-precision images, whose conversion always fails (nn.py:1526 passes the type number as the Cast's input)."
  },
  {
   "property": "C92",
   "status": "partial",
   "theorems": [
    "C92_concat_partial",
    "C92_empty_constant_refuted",
    "C92_all_empty_refuted"
   ],
   "note": "Proved for constants without elements that are empty along the axis. Refuted: constant of shape [0,3] concatenated with [0,2] along axis 1 gives [0,2]; all inputs empty constants gives a Concat without inputs."
  }
 ]
}