{
 "claims": [
  {
   "property": "C01",
   "status": "proved",
   "theorems": [
    "C01_lzw_roundtrip",
    "C01_lzw_roundtrip_any_limit",
    "C01_lzw_injective"
   ],
   "note": "char signed; bytes as N below 256; codes with explicit 32-bit truncation"
  },
  {
   "property": "C02",
   "status": "proved",
   "theorems": [
    "C02_lzw_truncated_prefix",
    "C02_lzw_truncation_reported_refuted"
   ],
   "note": "prefix guarantee for every input and cut; witness that a cut can be accepted silently"
  },
  {
   "property": "C03",
   "status": "proved",
   "theorems": [
    "C03_lzw_arbitrary_stream",
    "C03_lzw_memory_safe_refuted",
    "C03_lzw_stale_code_refuted",
    "C03_lzw_decoder_steps_bounded"
   ],
   "note": "exact characterisation for streams up to 1179358 bytes; for longer streams a parametric witness of the out-of-range access"
  },
  {
   "property": "C04",
   "status": "proved",
   "theorems": [
    "C04_parallel_visits_each_once",
    "C04_parallel_start_index",
    "C04_parallel_start_index_refuted"
   ],
   "note": "64-bit wrap-around explicit; n + cores below 2^64"
  },
  {
   "property": "C05",
   "status": "proved",
   "theorems": [
    "C05_for_each_schedule_independent",
    "C05_for_each_overlap_refuted"
   ],
   "note": "loads and stores of the loop bodies interleave arbitrarily (sequentially consistent memory, which is what data-race-free C++ guarantees)"
  },
  {
   "property": "C06",
   "status": "proved",
   "theorems": [
    "C06_alloc_blocks_independent",
    "C06_alloc_safe"
   ],
   "note": "system allocator by contract; single-threaded use of the cache (the code takes no lock)"
  },
  {
   "property": "C07",
   "status": "proved",
   "theorems": [
    "C07_alloc_sound_iff_no_gc",
    "C07_alloc_gc_safe_refuted",
    "C07_alloc_two_owners_refuted"
   ],
   "note": "exact characterisation plus witnesses"
  },
  {
   "property": "C08",
   "status": "proved",
   "theorems": [
    "C08_broadcast_shape_numpy",
    "C08_broadcast_shape_release",
    "C08_broadcast_shape_laws"
   ],
   "note": ""
  },
  {
   "property": "C09",
   "status": "proved",
   "theorems": [
    "C09_broadcast_tensor_elements",
    "C09_broadcast_tensor_rejects"
   ],
   "note": ""
  },
  {
   "property": "C10",
   "status": "proved",
   "theorems": [
    "C10_sum_difference_values"
   ],
   "note": "for an arbitrary binary operation on an arbitrary element type, so bit-exact for floats"
  },
  {
   "property": "C11",
   "status": "proved",
   "theorems": [
    "C11_sum_difference_frame",
    "C11_operand_unchanged_refuted"
   ],
   "note": "the promise is false; exact frame plus witness"
  },
  {
   "property": "C12",
   "status": "proved",
   "theorems": [
    "C12_scalar_arithmetic"
   ],
   "note": ""
  },
  {
   "property": "C13",
   "status": "proved",
   "theorems": [
    "C13_copy_shares",
    "C13_deep_copy_independent"
   ],
   "note": "all straight-line programs over named tensors"
  },
  {
   "property": "C14",
   "status": "proved",
   "theorems": [
    "C14_reshape",
    "C14_reshape_elements",
    "C14_reshape_checked_refuted"
   ],
   "note": "a -1 that is not in last position, or an empty request, is outside the statement (undefined behaviour in the model)"
  },
  {
   "property": "C15",
   "status": "proved",
   "theorems": [
    "C15_gemm"
   ],
   "note": "the CPU loop (no BLAS, no CUDA); arbitrary + and * without laws, so bit-exact for the code's order of operations"
  },
  {
   "property": "C16",
   "status": "proved",
   "theorems": [
    "C16_matrix_product",
    "C16_row_product",
    "C16_vector_product",
    "C16_matrix_vector_refuted"
   ],
   "note": ""
  },
  {
   "property": "C17",
   "status": "proved",
   "theorems": [
    "C17_elementwise_product",
    "C17_tiling_is_broadcasting_iff",
    "C17_column_scaling_refuted"
   ],
   "note": ""
  },
  {
   "property": "C18",
   "status": "proved",
   "theorems": [
    "C18_concatenate",
    "C18_empty_prefix",
    "C18_concatenate_total_refuted",
    "C18_mismatch_aborts"
   ],
   "note": "arguments of equal rank; for different ranks the code uses iterators of two different temporaries (undefined)"
  },
  {
   "property": "C19",
   "status": "proved",
   "theorems": [
    "C19_axis_reduction",
    "C19_sum_axis",
    "C19_mean_axis",
    "C19_max_axis",
    "C19_min_axis",
    "C19_max_of_negatives",
    "C19_max_all",
    "C19_max_all_refuted",
    "C19_vector_without_keepdims"
   ],
   "note": "any reducing function up to bracketing (bit-exact order for floats is exhibited), sums for any monoid, means over the reals"
  },
  {
   "property": "C20",
   "status": "proved",
   "theorems": [
    "C20_softmax",
    "C20_shift_invariant"
   ],
   "note": "over the reals"
  },
  {
   "property": "C21",
   "status": "proved",
   "theorems": [
    "C21_flip",
    "C21_flip_involutive",
    "C21_flip_empty",
    "C21_flip_empty_refuted",
    "C21_negative_axes",
    "C21_flip_high_rank",
    "C21_flip_argument_unchanged_refuted"
   ],
   "note": ""
  },
  {
   "property": "C49",
   "status": "proved",
   "theorems": [
    "C49_repmat"
   ],
   "note": ""
  },
  {
   "property": "C34",
   "status": "proved",
   "theorems": [
    "C34_shape_operators",
    "C34_shapes",
    "C34_transpose",
    "C34_transpose_adjoint"
   ],
   "note": ""
  },
  {
   "property": "C35",
   "status": "proved",
   "theorems": [
    "C35_padding",
    "C35_padding_refuted",
    "C35_cropping",
    "C35_crop_of_padded",
    "C35_padding_adjoint",
    "C35_cropping_adjoint"
   ],
   "note": ""
  },
  {
   "property": "C36",
   "status": "proved",
   "theorems": [
    "C36_up_sampling",
    "C36_average_pooling",
    "C36_pooling_of_up_sampled",
    "C36_up_sampling_adjoint",
    "C36_average_pooling_adjoint",
    "C36_average_pooling_backward_bounds"
   ],
   "note": "averages over the reals"
  },
  {
   "property": "C37",
   "status": "proved",
   "theorems": [
    "C37_max_pooling_forward",
    "C37_max_pooling_backward",
    "C37_first_run",
    "C37_backward_current_refuted"
   ],
   "note": ""
  },
  {
   "property": "C38",
   "status": "proved",
   "theorems": [
    "C38_img2col",
    "C38_img2col_refuted",
    "C38_img2col_out_of_bounds",
    "C38_img2col_adjoint",
    "C38_convolution",
    "C38_convolution_one_channel",
    "C38_documented_layout_refuted",
    "C38_unequal_padding_refuted"
   ],
   "note": ""
  },
  {
   "property": "C39",
   "status": "proved",
   "theorems": [
    "C39_prediction",
    "C39_training",
    "C39_backward_adjoint_iff",
    "C39_larger_batch"
   ],
   "note": ""
  },
  {
   "property": "C50",
   "status": "proved",
   "theorems": [
    "C50_repeat",
    "C50_repeat_axis",
    "C50_repeat_adjoint"
   ],
   "note": ""
  },
  {
   "property": "C51",
   "status": "proved",
   "theorems": [
    "C51_spread",
    "C51_spread_adjoint"
   ],
   "note": ""
  },
  {
   "property": "C52",
   "status": "proved",
   "theorems": [
    "C52_same_padding_odd_kernel",
    "C52_same_padding_even_kernel"
   ],
   "note": "for no wrap-around of the unsigned padding computation"
  },
  {
   "property": "C25",
   "status": "proved",
   "theorems": [
    "C25_run_value",
    "C25_run_value_any_history",
    "C25_any_graph_refuted"
   ],
   "note": "any graph of arbitrary unary and binary actions (functions of the operands' shapes and elements), views and broadcasting sums, with sharing; arbitrary element type; without the proviso the value can be wrong (witness)"
  },
  {
   "property": "C26",
   "status": "proved",
   "theorems": [
    "C26_run_frame",
    "C26_variable_left_of_sum",
    "C26_run_changes_nothing_refuted"
   ],
   "note": "frame of every run of a graph meeting the proviso; exact content after k runs when a variable is the left operand"
  },
  {
   "property": "C30",
   "status": "proved",
   "theorems": [
    "C30_right_everywhere",
    "C30_right_on_domain",
    "C30_exactly",
    "C30_always_wrong",
    "C30_log1p_softplus_refuted",
    "C30_softmax"
   ],
   "note": "over the real numbers; rint, lrint, llrint, nearbyint, logb, ilogb and the comparison operators are not modelled"
  },
  {
   "property": "C31",
   "status": "proved",
   "theorems": [
    "C31_right",
    "C31_maximum",
    "C31_minimum_refuted",
    "C31_atan2_refuted"
   ],
   "note": "over the real numbers; hypot and divide are expressions built from these and are covered by the chain rule"
  },
  {
   "property": "C32",
   "status": "proved",
   "theorems": [
    "C32_sums",
    "C32_extremes",
    "C32_mean",
    "C32_views",
    "C32_adjoint_right"
   ],
   "note": "over the real numbers; the index of the extreme element is recomputed from the input instead of being recorded by the forward pass"
  },
  {
   "property": "C27",
   "status": "proved",
   "theorems": [
    "C27_gradient"
   ],
   "note": "over the real numbers; any tree of arbitrary actions whose rules are right where used; concrete network as example"
  },
  {
   "property": "C28",
   "status": "proved",
   "theorems": [
    "C28_one_copy_has_input",
    "C28_shared_gradient_refuted",
    "C28_shared_operator_fails",
    "C28_operators"
   ],
   "note": "any graph; arbitrary element type"
  },
  {
   "property": "C29",
   "status": "proved",
   "theorems": [
    "C29_accumulation",
    "C29_any_life"
   ],
   "note": ""
  },
  {
   "property": "C33",
   "status": "proved",
   "theorems": [
    "C33_gradient_tensor",
    "C33_unchanged",
    "C33_never_modified_refuted"
   ],
   "note": ""
  },
  {
   "property": "C53",
   "status": "proved",
   "theorems": [
    "C53_overwritten_output"
   ],
   "note": "one-element operands"
  },
  {
   "property": "C41",
   "status": "proved",
   "theorems": [
    "C41_sgd",
    "C41_compounding"
   ],
   "note": "real-number arithmetic; losses are operator trees with right rules (C30-C32)"
  },
  {
   "property": "C42",
   "status": "proved",
   "theorems": [
    "C42_update",
    "C42_order",
    "C42_frame"
   ],
   "note": ""
  },
  {
   "property": "C48",
   "status": "proved",
   "theorems": [
    "C48_frozen_fresh",
    "C48_frozen_drift",
    "C48_frozen_refuted",
    "C42_frame"
   ],
   "note": "the flags as state; model::trainable itself does not compile for operators at this commit (make_trainable reads members that have moved to state_), so the flags' combinations are quantified over instead"
  },
  {
   "property": "C54",
   "status": "proved",
   "theorems": [
    "C54_adagrad",
    "C54_rmsprop",
    "C54_adam",
    "C54_descent"
   ],
   "note": ""
  },
  {
   "property": "C55",
   "status": "proved",
   "theorems": [
    "C55_adadelta"
   ],
   "note": ""
  },
  {
   "property": "C56",
   "status": "proved",
   "theorems": [
    "C56_switch",
    "C56_adam_after"
   ],
   "note": ""
  },
  {
   "property": "C57",
   "status": "proved",
   "theorems": [
    "C57_absent"
   ],
   "note": ""
  },
  {
   "property": "C22",
   "status": "proved",
   "theorems": [
    "C22_read_write",
    "C22_roundtrip_iff",
    "C22_unreadable",
    "C22_empty_refuted",
    "C22_precision_refuted"
   ],
   "note": "for every formatting/reading pair of the elements; the decimal formatting of floating point numbers (%g) is PrintModel.v"
  },
  {
   "property": "C23",
   "status": "proved",
   "theorems": [
    "C23_restore",
    "C23_session",
    "C23_unknown",
    "C23_save_restore"
   ],
   "note": ""
  },
  {
   "property": "C24",
   "status": "proved",
   "theorems": [
    "C24_crash",
    "C24_cut_anywhere",
    "C24_atomic_refuted",
    "C24_cut_restore"
   ],
   "note": "the promise is refuted and the reachable states characterised"
  },
  {
   "property": "C40",
   "status": "proved",
   "theorems": [
    "C40_fresh",
    "C40_identity",
    "C40_capacity",
    "C40_last_bound",
    "C40_frame",
    "C40_session_end",
    "C40_copy_assign",
    "C40_greater_refuted",
    "C40_remember"
   ],
   "note": ""
  },
  {
   "property": "C43",
   "status": "proved",
   "theorems": [
    "C43_fit",
    "C43_share_refuted",
    "C43_no_validation",
    "C43_rest_unused",
    "C43_short_targets",
    "C43_train_on_batch"
   ],
   "note": "loss and optimiser are arbitrary functions of the state; training_loops, which the code computes in floating point from validation_split, is taken as given"
  },
  {
   "property": "C44",
   "status": "proved",
   "theorems": [
    "C44_evaluate",
    "C44_predict",
    "C44_phase_refuted",
    "C43_fit"
   ],
   "note": ""
  },
  {
   "property": "C45",
   "status": "proved",
   "theorems": [
    "C45_images",
    "C45_images_defined",
    "C45_header_ignored",
    "C45_labels",
    "C45_labels_defined",
    "C45_bad_label_refuted",
    "C45_load_data",
    "C45_load_data_files",
    "C45_missing_file"
   ],
   "note": ""
  },
  {
   "property": "C46",
   "status": "proved",
   "theorems": [
    "C46_linear",
    "C46_product",
    "C46_product_real_factor",
    "C46_reversed_difference_refuted",
    "C46_reversed_product_refuted",
    "C46_modulus",
    "C46_polar",
    "C46_product_real_run",
    "C46_product_imaginary_refuted",
    "C46_product_imaginary_iff"
   ],
   "note": "the first seven are about the value an expression stands for, the last three about what a run computes; the imaginary part is run on leaves in prediction"
  },
  {
   "property": "C47",
   "status": "proved",
   "theorems": [
    "C47_structure",
    "C47_value",
    "C47_run",
    "C47_passes",
    "C47_one_placeholder_refuted",
    "C47_twice_refuted"
   ],
   "note": "the code is read as naming the operators' members where they now are; models that use an operator twice, and models composed with themselves, are covered by the value theorem but not by the run theorem"
  },
  {
   "property": "C58",
   "status": "proved",
   "theorems": [
    "C58_training",
    "C58_mean_refuted"
   ],
   "note": ""
  },
  {
   "property": "C59",
   "status": "proved",
   "theorems": [
    "C59_runs",
    "C59_same_value_refuted"
   ],
   "note": ""
  },
  {
   "property": "C60",
   "status": "proved",
   "theorems": [
    "C60_training",
    "C60_one_hot",
    "C60_entropy",
    "C60_value",
    "C60_soft_labels_refuted",
    "C60_cut_off_refuted"
   ],
   "note": ""
  },
  {
   "property": "C61",
   "status": "proved",
   "theorems": [
    "C61_training",
    "C61_log_error_mean_refuted"
   ],
   "note": ""
  },
  {
   "property": "C62",
   "status": "proved",
   "theorems": [
    "C62_value",
    "C62_negative_logarithm",
    "C62_bounded_for_label_0",
    "C62_cross_entropy_refuted"
   ],
   "note": "real-number model: the value is claimed where all logarithms are of positive numbers; gradients of an output used twice are the subject of C28"
  },
  {
   "property": "C63",
   "status": "proved",
   "theorems": [
    "C63_training",
    "C63_prediction",
    "C63_never_fails",
    "C63_same_batch",
    "C63_gradient",
    "C63_gradient_buffer",
    "C63_gradient_refuted"
   ],
   "note": "real-number model of the operator used on its own; results as values (a prediction before training returns the input's storage)"
  },
  {
   "property": "C64",
   "status": "proved",
   "theorems": [
    "C64_backward_inverts",
    "C64_empty",
    "C64_empty_refuted",
    "C64_shape",
    "C64_shape_beyond",
    "C64_gradient"
   ],
   "note": ""
  },
  {
   "property": "C65",
   "status": "proved",
   "theorems": [
    "C65_values",
    "C65_no_sharing",
    "C65_discipline",
    "C65_leaks",
    "C65_no_move_assign",
    "C65_gives_back_refuted"
   ],
   "note": "elements are values; the allocator itself is the subject of C06 and C07"
  },
  {
   "property": "C66",
   "status": "proved",
   "theorems": [
    "C66_rebuilds",
    "C66_compiles_iff",
    "C66_shared_refuted",
    "C66_as_shipped_refuted",
    "C66_second",
    "C66_second_refuted",
    "C66_number_refuted"
   ],
   "note": "statements as parts rather than lines of text"
  },
  {
   "property": "C67",
   "status": "proved",
   "theorems": [
    "C67_forward",
    "C67_saved",
    "C67_held",
    "C67_overwritten",
    "C67_nested",
    "C67_refuted",
    "C67_saved_refuted"
   ],
   "note": "a layer is a function on tensors plus what its loop does in place; expressions are trees"
  },
  {
   "property": "C68",
   "status": "proved",
   "theorems": [
    "C68_forward",
    "C68_backward",
    "C68_backward_refuted"
   ],
   "note": "the random numbers are universally quantified"
  },
  {
   "property": "C69",
   "status": "proved",
   "theorems": [
    "C69_argmax",
    "C69_argmin",
    "C69_empty_axis",
    "C69_backward"
   ],
   "note": "NaN is excluded: it does not give a strict weak order"
  },
  {
   "property": "C70",
   "status": "proved",
   "theorems": [
    "C70_forward",
    "C70_numpy_iff",
    "C70_backward_adjoint",
    "C70_remainder_refuted",
    "C70_empty"
   ],
   "note": ""
  },
  {
   "property": "C71",
   "status": "proved",
   "theorems": [
    "C71_values",
    "C71_matrix_products",
    "C71_elementwise_refuted",
    "C71_swish_gradient",
    "C71_tank_shrink_overwrites",
    "C71_of_operator"
   ],
   "note": "statement amended to what the code does: mish and lisht are matrix products, tank_shrink modifies a variable operand"
  },
  {
   "property": "C72",
   "status": "proved",
   "theorems": [
    "C72_kept",
    "C72_overwritten",
    "C72_leaf",
    "C72_operators",
    "C72_results_are_kept_refuted"
   ],
   "note": "statement amended to what the code does: which results are overwritten"
  },
  {
   "property": "C73",
   "status": "proved",
   "theorems": [
    "C73_variance",
    "C73_standard_deviation",
    "C73_vector_without_keepdims",
    "C73_var",
    "C73_var_is_variance_iff",
    "C73_std",
    "C73_std_is_standard_deviation_refuted",
    "C73_norm",
    "C73_linspace",
    "C73_linspace_one_aborts"
   ],
   "note": "statement amended to what the code does: var, std and norm are not the textbook quantities"
  },
  {
   "property": "C74",
   "status": "proved",
   "theorems": [
    "C74_pieces",
    "C74_plain",
    "C74_plain_braceless",
    "C74_plain_refuted",
    "C74_indexed",
    "C74_indexed_refuted",
    "C74_sequence",
    "C74_tuple",
    "C74_char_refuted"
   ],
   "note": "statement amended to what the code does: places in arguments, characters"
  },
  {
   "property": "C75",
   "status": "proved",
   "theorems": [
    "C75_statements",
    "C75_once_iff",
    "C75_size_refuted",
    "C75_tells",
    "C75_shape_refuted"
   ],
   "note": "statement amended to what the code does: shared objects, shapes of more than eight lengths"
  },
  {
   "property": "C76",
   "status": "proved",
   "theorems": [
    "C76_one_operand",
    "C76_two_operands",
    "C76_expressions",
    "C76_flatten_exactly",
    "C76_product_exactly",
    "C76_cross_entropy_exactly",
    "C76_reduce_default_refuted",
    "C76_unknown_batch_refuted"
   ],
   "note": "statement amended to what the code does: flatten, element-wise product, cross entropy, default axis of reductions, unknown batch"
  },
  {
   "property": "C77",
   "status": "proved",
   "theorems": [
    "C77_networks_run",
    "C77_same_keeps",
    "C77_same_not_square_refuted",
    "C77_conv1d_same_refuted",
    "C77_transpose_does_not_enlarge",
    "C77_reshape_exactly",
    "C77_concatenate_refuted",
    "C77_add_ranks_refuted",
    "C77_unknown_input_refuted"
   ],
   "note": "statement amended to what the code does: paddings of rows and columns, transposed convolution, layers that are not checked when a network is built"
  },
  {
   "property": "C78",
   "status": "proved",
   "theorems": [
    "C78_networks_compute",
    "C78_deterministic",
    "C78_batch_independence",
    "C78_transposed_kernel_exactly"
   ],
   "note": "over the reals; statement amended to the order in which weights of convolutions are read and to what transposed convolution does with them"
  },
  {
   "property": "C79",
   "status": "proved",
   "theorems": [
    "C79_gradient",
    "C79_training",
    "C79_smooth"
   ],
   "note": "over the reals; layers outside the class: Softmax (its backward action is not right, C30), MaxPooling2D (right in the first run only, C37), BatchNormalization, Dropout, layers with two inputs"
  },
  {
   "property": "C80",
   "status": "proved",
   "theorems": [
    "C80_fitting",
    "C80_docile",
    "C80_descent"
   ],
   "note": "over the reals; the chains of C79, losses of differences (C58)"
  },
  {
   "property": "C81",
   "status": "proved",
   "theorems": [
    "C81_elements",
    "C81_unchecked",
    "C81_checked",
    "C81_matrix_bounds_refuted",
    "C81_rows_and_columns",
    "C81_column_end_refuted",
    "C81_transposed",
    "C81_iterators"
   ],
   "note": "statement amended to what is checked and to what col_end and transposed views do"
  },
  {
   "property": "C82",
   "status": "proved",
   "theorems": [
    "C82_fitting",
    "C82_docile",
    "C82_classifier"
   ],
   "note": "over the reals; the chains of C79, the losses of C58, C60 and C61; binary_cross_entropy_loss (C62) is left out"
  },
  {
   "property": "C83",
   "status": "proved",
   "theorems": [
    "C83_total",
    "C83_value",
    "C83_safe",
    "C83_whole_numbers",
    "C83_nearest_refuted"
   ],
   "note": "that the nearest float is read is refuted"
  },
  {
   "property": "C84",
   "status": "proved",
   "theorems": [
    "C84_fit"
   ],
   "note": "validation batches are not part of it: see C43 for the order of training and validation"
  },
  {
   "property": "C85",
   "status": "proved",
   "theorems": [
    "C85_seed",
    "C85_seed_refuted",
    "C85_random",
    "C85_randn",
    "C85_truncated",
    "C85_poisson",
    "C85_glorot",
    "C85_convolution_refuted",
    "C85_initial"
   ],
   "note": "amended: random_seed has no effect, and the bound for convolutions is not Glorot's"
  },
  {
   "property": "C86",
   "status": "proved",
   "theorems": [
    "C86_fit"
   ],
   "note": "amended as in C43: one batch more is trained on than meant"
  },
  {
   "property": "C87",
   "status": "proved",
   "theorems": [
    "C87_evaluate",
    "C87_docile"
   ],
   "note": "for batches at which the loss is differentiable (its value alone would not need that)"
  },
  {
   "property": "C88",
   "status": "proved",
   "theorems": [
    "C88_life"
   ],
   "note": "one compiled model and its session; tensors given to a call are new, and what the caller keeps of them is not followed"
  },
  {
   "property": "C89",
   "status": "proved",
   "theorems": [
    "C89_gemm",
    "C89_builds_agree",
    "C89_empty",
    "C89_empty_agree_refuted"
   ],
   "note": "over the reals; the BLAS and cuBLAS routines are given by the reference BLAS; device memory is never exhausted; builds are proved to differ on empty products"
  },
  {
   "property": "C90",
   "status": "proved",
   "theorems": [
    "C90_shapes",
    "C90_sized_refuted",
    "C90_wide_refuted"
   ],
   "note": "std::vector is libstdc++'s; the allocator's mismatch of sizes is proved to break the contract of sized deallocation from 17 dimensions on"
  },
  {
   "property": "C91",
   "status": "proved",
   "theorems": [
    "C91_file",
    "C91_no_extension_refuted",
    "C91_hdr_refuted",
    "C91_round_trip",
    "C91_rows_first",
    "C91_columns_first",
    "C91_scaling",
    "C91_contrast_refuted",
    "C91_resize"
   ],
   "note": "the routines of stb are given by their contracts; numbers are real; the deviations are proved as exact characterisations"
  },
  {
   "property": "C92",
   "status": "proved",
   "theorems": [
    "C92_loop",
    "C92_defined",
    "C92_full_means_done_refuted",
    "C92_line",
    "C92_line_refuted",
    "C92_trange",
    "C92_rize"
   ],
   "note": "progress is an exact fraction; the clock and the printed numbers are arbitrary; the deviations are proved as exact characterisations or refutations"
  },
  {
   "property": "C93",
   "status": "proved",
   "theorems": [
    "C93_assign",
    "C93_run",
    "C93_separate",
    "C93_read_before_refuted"
   ],
   "note": "gradients and operators that occur more than once in an expression are left out; the deviations are proved as exact characterisations"
  },
  {
   "property": "C94",
   "status": "proved",
   "theorems": [
    "C94_range",
    "C94_advance",
    "C94_range_int",
    "C94_range_word",
    "C94_enumerate",
    "C94_enumerate_writes_refuted",
    "C94_reverse"
   ],
   "note": "bodies run to their end and write at most the element they are given (enumerate's may also change the container); the deviations are proved as exact statements"
  }
 ]
}