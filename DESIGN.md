# Formal model of fengwang/ceras: design

Source under study: `/repo/include` (header-only C++20 deep-learning library). The code is read as text; it is neither built nor run
here. Everything below is about the Gallina model in `rocq/theories`. The properties are in `properties.jsonl`, the theorems that prove
them in `MANIFEST.json`, the wrong programs the theorems were tried against in `seeded/LOG.jsonl`.

## Conventions

* **Layout.** Each area has `XModel.v` (executable definitions, each citing file and lines), `XSpec.v` (a small specification written
  without the model's helpers, where one is needed), `XProofs.v` (lemmas) and `XProps.v` (the property theorems, each followed by
  `Print Assumptions` and by examples that meet its hypotheses).
* **Undefined behaviour** is an outcome of its own (`UB`), distinct from a failed assertion or exception (`Abort`; `better_assert` is a
  no-op in release builds, so models that contain one take a flag `dbg`) and from a result (`Ok`).
* **Numbers.** Sizes and indices are unbounded `nat`/`N`; wrap-around modulo 2^64 is written out where the property is about it. Theorems
  about data movement are polymorphic in the element type, so they hold bit by bit for floats. Theorems about results that only need the
  code's own order of operations are stated for arbitrary `+` and `*` without laws. Theorems about derivatives, losses, optimisers and
  batch normalisation are about real numbers: rounding, NaN, infinities and overflow are not modelled there.
* **Aliasing.** Copying a tensor shares its storage. `TensorModel.v` therefore has tensors as (shape, reference) over a heap of storages,
  and the graph, optimiser and loss models are built on that heap. `ArrayModel.v`, `LayerModel.v` and `NormModel.v` describe functions
  whose results have a storage of their own, on plain (shape, elements) values; buffers that operators keep between runs are part of the
  state there.
* **Deviations.** Where the code does not do what its interface promises, the property says what it does, and a theorem with the suffix
  `_refuted` shows a violation of the promise next to the exact characterisation.

## What is modelled

| Area (files `rocq/theories/...`) | Code | Properties |
|---|---|---|
| `Lzw*` | `utils/lzw.hpp`: compress, decompress, dictionaries, bit streams, code widths, resets | C01-C03 |
| `Parallel*`, `Loops` | `utils/parallel.hpp`, `utils/range.hpp`, `utils/for_each.hpp`: chunking, interleavings of threads | C04, C05 |
| `Alloc*` | `utils/cached_allocator.hpp`: memory_cache, allocate, deallocate, gc over a system allocator | C06, C07 |
| `ListBase`, `Tensor*` | `tensor.hpp`: constructors, resize, reshape, deep_copy, in-place operators; `tensor.tcc`: broadcast_shape, broadcast_tensor, `+`, `-`, scalar arithmetic, elementwise_product, `gemm_cpu`, multiply | C08-C12, C14-C17 |
| `Alias*` | programs of copies, deep copies, assignments and in-place operations on named tensors | C13 |
| `Array*` | `tensor.tcc`: concatenate, repmat, sum, mean, min, max, softmax, flip | C18-C21, C49 |
| `Layer*`, `Conv*` | `operation.hpp`: reshape, flatten, expand_dims, squeeze, transpose, zero_padding_2d, cropping_2d, up_sampling_2d, repeat, average and max pooling, drop_out, img2col, conv2d, the spreading step of conv2d_transpose, same padding | C34-C39, C50-C52 |
| `Graph*` | `operation.hpp:53-240` unary_operator, binary_operator; `variable.hpp`, `place_holder.hpp`, `constant.hpp`, `value.hpp`; `session.hpp`: run and the forward cache; plus, minus | C25, C26, C29, C33 |
| `Grad*`, `BcastAdjoint`, `Calc*`, `Share*` | backward through expression graphs, shared sub-expressions | C27, C28, C53 |
| `Op*`, `Scalar` | the element-wise operators of `operation.hpp` and `activation.hpp`, two-operand operators, reductions, softmax, matrix product as an operator | C30-C32 |
| `Opt*` | `optimizer.hpp`: sgd, adagrad, rmsprop, adadelta, adam, gradient_descent, and the loop over the session's variables | C41, C42, C54-C57 |
| `Text*`, `Print*` | `tensor.tcc:1214-1304` read/write/save/load_tensor; `session.hpp:81-190` save, restore and their file-system steps; the stream's decimal format | C22-C24 |
| `Holder*` | `utils/id.hpp`, `place_holder.hpp`, the session's bind/rebind/remember/destructor | C40 |
| `Fit*` | `model.hpp`: fit, evaluate, train_on_batch, predict; `learning_phase` | C43, C44 |
| `Mnist*` | `dataset.hpp:27-68` load_data | C45 |
| `Complex*` | `complex_operator.hpp` on top of the graph | C46 |
| `Compose*` | `model.hpp:42-71`, `376-380`: placeholder replacement; freezing variables | C47, C48 |
| `Loss*`, `Xent*`, `Pair*`, `Bce*`, `ForwardCore` | `loss.hpp`: squared_loss, mean_squared_error, abs_loss, mean_absolute_error, cross_entropy, cross_entropy_loss, binary_cross_entropy_loss, hinge_loss, mean_squared_logarithmic_error on any model | C58-C62 |
| `Norm*` | `operation.hpp:2245-2370` normalization_batch over any sequence of uses | C63 |
| `Concat*` | `operation.hpp:2392-2475` concatenate as an operator: forward, backward, shape | C64 |
| `Vector*` | `utils/vector.hpp` ceras::vector: constructors, copy, move, assignments, resize, clear, element writes, destructor | C65 |
| `Serial*` | the serialize functions: `utils/enable_serializer.hpp`, `operation.hpp:312-371`, `variable.hpp:207-221`, `constant.hpp:66-77`, `place_holder.hpp:136-144`, `value.hpp:90-97`, `tensor.tcc:1307-1323` | C66 |
| `Functor*` | one layer object applied in several places: the buffers of `operation.hpp` factories such as `max_pooling_2d` (2039-2068), `context_cast.hpp:9-18`, `tensor.hpp:335-345` | C67 |
| `Slide*` | `sliding_2d` (`operation.hpp:2997-3096`) | C68 |
| `Arg*` | `argmax`, `argmin` (`operation.hpp:1329-1418`) | C69 |
| `BcastOp*` | the operator `broadcast` (`operation.hpp:464-517`) | C70 |
| `Act*` | activations and quotients built from other operators (`activation.hpp:612-694`, `operation.hpp:885-912`) | C71 |
| `Stale*` | what the tensor returned by a run shows after later runs (`session.hpp:58-63`, `model.hpp:345-359`); same model as `Graph*` | C72 |
| `Stat*` | mean, variance, standard_deviation along an axis on the heap, var, std, norm, linspace (`tensor.tcc:1038-1060`, `1148-1212`), over the reals | C73 |
| `Fmt*` | the bundled `fmt::format`: replacing places, texts of arguments (`utils/fmt.hpp:822-1060`) | C74 |
| `Dot*` | `computation_graph` (`operation.hpp:372-453`), with `format` of `FmtModel` | C75 |
| `Decl*` | announced shapes: the output shape calculators of `operation.hpp`, `shape()` of expressions and place holders, in wrapping numbers, next to the forward actions of the other files | C76 |
| `Net*` | `layer.hpp`: layers and the variables they make, `general_conv2d`, `conv2d_transpose`; programs that build networks | C77 |
| `Value*` | what the expressions of such networks compute: forward of all operators in them, batch after batch, with the index tables img2col keeps | C78 |
| `Learn*` | such networks as expression trees that are run and trained: the operators with their backward actions, numbered | C79 |
| `Train*` | sequences of batches on which such a network is trained by any of the optimisers (no code of its own: `Learn*` and `Opt*` together) | C80 |
| `View*` | `utils/view.hpp`, `utils/stride_iterator.hpp`: addressing, bounds, traversal of rows and columns | C81 |
| `Fitting*` | the same with every loss but `binary_cross_entropy_loss` (no code of its own: `Learn*`, `Opt*`, `Loss*`, `Pair*` and `Xent*` together) | C82 |
| `Parse*` | `utils/float32.hpp`: reading numbers from texts, in any arithmetic, in exact arithmetic and in float | C83 |
| `Epoch*` | `model.hpp`: `fit` over the state of the graph and the optimiser, with the tensors it binds once and overwrites for every batch | C84 |
| `Rand*` | `tensor.hpp`: `random_seed`; `tensor.tcc`: `random`, `randn`, `truncated_normal`, `poisson`, `glorot_uniform`; initial values of layers | C85 |
| `Eval*` (with `RunFrame`) | model.hpp:94-138 `evaluate`, 163-226 `fit` with any split; what a forward and a backward pass may write, and that both phases compute the same | C86, C87 |
| `Life*` | model.hpp:246-262 `train_on_batch`, 345-359 `predict`; any sequence of calls of a compiled model | C88 |
| `Gemm*` | tensor.tcc:426-553 `gemm` in all builds, backend/cblas.hpp `cblas_gemm`, backend/cuda.hpp `cuda_memory_cache::reserve`, `cuda_gemm` | C89 |
| `Dims*` | `utils/buffered_allocator.hpp` under libstdc++'s `std::vector`: the shapes of tensors (tensor.hpp:52, 58-147, 284-371) | C90 |
| `Image*` | `utils/imageio.hpp` (stb by its contracts) | C91 |
| `Tqdm*` | `utils/tqdm.hpp` but its timers, `utils/color.hpp` | C92 |
| `Assign*` | the operator assign of `operation.hpp`, in expressions of variables and element-wise operators | C93 |
| `Range*` | `utils/range.hpp`, `utils/enumerate.hpp`, `utils/reverse.hpp` | C94 |

Each model file's header states the simplifications of that model; the comment of each definition cites the lines it models.

## What is not modelled

* The BLAS and cuBLAS routines themselves (`Gemm*` takes the reference BLAS's contract), CUDA's runtime and exhaustion of device memory; the
  other models take `gemm` to be `gemm_cpu`, which C89 justifies.
* `xmodel.hpp`, `recurrent.hpp` (does not compile: it names an undeclared type), `metric.hpp`, the layers `BatchNormalization` and
  `Dropout` and the deprecated ones of `layer.hpp`, the routines of stb behind image input and output, `tqdm.hpp`'s timers, `timer.hpp`,
  `debug.hpp`, `logging.hpp`, `list.hpp`.
* The numbers of `std::mt19937` and the standard distributions (`Rand*` takes any generator and any distributions); the operators
  `random_normal_like` and `poisson`; drop_out's mask is an arbitrary list.
* In `operation.hpp`: lrint, llrint, rint, nearbyint, equal, assign's
  backward pass, poisson. In `tensor.tcc`: the member repeat, histograms.
* Floating-point rounding, except in the text format (`PrintModel.v`), which is exact about decimal rounding, and in `Parse*`, where it is Flocq's.
* The C++ memory model beyond interleavings of element writes; exceptions other than as `Abort`; exhaustion of memory.

## Trusted base

Coq 8.16.1's kernel; the reading of the C++ recorded in the models; the axioms of the standard library listed below. No axiom is added by
this development, and no kernel check is switched off. A listing of everything the compiled files depend on also names
`Coq.Reals.Rdefinitions.RbaseSymbolsImpl.*` and `Coq.ssr.ssrunder.Under_rel.*`: these are constants the standard library hides behind
module signatures, not assumptions of the theorems. Coquelicot and mathcomp are used as libraries of proved theorems.

## Axioms, theorem by theorem

What `Print Assumptions` lists (Coq's standard library only; the abbreviations):

* SFD = `ClassicalDedekindReals.sig_forall_dec`, SND = `ClassicalDedekindReals.sig_not_dec` (the reals of the standard library)
* FE = `FunctionalExtensionality.functional_extensionality_dep` (used by the reals of the standard library)
* CL = `Classical_Prop.classic` (used by parts of Coquelicot and of the standard library's analysis)

**SFD** (2 theorems): `C33_unchanged`, `C77_unknown_input_refuted`.

**No axioms** (225 theorems): `C01_lzw_roundtrip`, `C01_lzw_roundtrip_any_limit`, `C01_lzw_injective`, `C02_lzw_truncated_prefix`, `C02_lzw_truncation_reported_refuted`, `C03_lzw_arbitrary_stream`, `C03_lzw_memory_safe_refuted`, `C03_lzw_stale_code_refuted`, `C03_lzw_decoder_steps_bounded`, `C04_parallel_visits_each_once`, `C04_parallel_start_index`, `C04_parallel_start_index_refuted`, `C05_for_each_schedule_independent`, `C05_for_each_overlap_refuted`, `C06_alloc_blocks_independent`, `C06_alloc_safe`, `C07_alloc_sound_iff_no_gc`, `C07_alloc_gc_safe_refuted`, `C07_alloc_two_owners_refuted`, `C08_broadcast_shape_numpy`, `C08_broadcast_shape_release`, `C08_broadcast_shape_laws`, `C09_broadcast_tensor_elements`, `C09_broadcast_tensor_rejects`, `C10_sum_difference_values`, `C11_sum_difference_frame`, `C11_operand_unchanged_refuted`, `C12_scalar_arithmetic`, `C13_copy_shares`, `C13_deep_copy_independent`, `C14_reshape`, `C14_reshape_elements`, `C14_reshape_checked_refuted`, `C15_gemm`, `C16_matrix_product`, `C16_row_product`, `C16_vector_product`, `C16_matrix_vector_refuted`, `C17_elementwise_product`, `C17_tiling_is_broadcasting_iff`, `C17_column_scaling_refuted`, `C18_concatenate`, `C18_empty_prefix`, `C18_concatenate_total_refuted`, `C18_mismatch_aborts`, `C19_axis_reduction`, `C19_sum_axis`, `C19_max_axis`, `C19_min_axis`, `C19_max_of_negatives`, `C19_max_all`, `C19_max_all_refuted`, `C19_vector_without_keepdims`, `C21_flip`, `C21_flip_involutive`, `C21_flip_empty`, `C21_flip_empty_refuted`, `C21_negative_axes`, `C21_flip_high_rank`, `C21_flip_argument_unchanged_refuted`, `C49_repmat`, `C34_shape_operators`, `C34_shapes`, `C34_transpose`, `C35_padding`, `C35_padding_refuted`, `C35_cropping`, `C35_crop_of_padded`, `C36_up_sampling`, `C36_average_pooling_backward_bounds`, `C37_max_pooling_forward`, `C37_max_pooling_backward`, `C37_first_run`, `C37_backward_current_refuted`, `C38_img2col`, `C38_img2col_refuted`, `C38_img2col_out_of_bounds`, `C38_convolution`, `C38_convolution_one_channel`, `C38_documented_layout_refuted`, `C38_unequal_padding_refuted`, `C50_repeat`, `C50_repeat_axis`, `C51_spread`, `C52_same_padding_odd_kernel`, `C52_same_padding_even_kernel`, `C25_run_value`, `C25_run_value_any_history`, `C25_any_graph_refuted`, `C26_run_frame`, `C26_variable_left_of_sum`, `C26_run_changes_nothing_refuted`, `C28_one_copy_has_input`, `C28_shared_gradient_refuted`, `C28_shared_operator_fails`, `C22_read_write`, `C22_roundtrip_iff`, `C22_unreadable`, `C22_empty_refuted`, `C22_precision_refuted`, `C23_restore`, `C23_session`, `C23_unknown`, `C23_save_restore`, `C24_crash`, `C24_cut_anywhere`, `C24_atomic_refuted`, `C24_cut_restore`, `C40_fresh`, `C40_identity`, `C40_capacity`, `C40_last_bound`, `C40_frame`, `C40_session_end`, `C40_copy_assign`, `C40_greater_refuted`, `C40_remember`, `C43_share_refuted`, `C43_train_on_batch`, `C44_predict`, `C45_images`, `C45_images_defined`, `C45_header_ignored`, `C45_labels`, `C45_labels_defined`, `C45_bad_label_refuted`, `C45_load_data`, `C45_load_data_files`, `C45_missing_file`, `C47_structure`, `C47_value`, `C47_run`, `C47_passes`, `C47_one_placeholder_refuted`, `C47_twice_refuted`, `C64_backward_inverts`, `C64_empty`, `C64_empty_refuted`, `C64_shape`, `C64_shape_beyond`, `C65_values`, `C65_no_sharing`, `C65_discipline`, `C65_leaks`, `C65_no_move_assign`, `C65_gives_back_refuted`, `C66_rebuilds`, `C66_compiles_iff`, `C66_shared_refuted`, `C66_as_shipped_refuted`, `C66_second`, `C66_second_refuted`, `C66_number_refuted`, `C67_forward`, `C67_saved`, `C67_held`, `C67_overwritten`, `C67_nested`, `C67_refuted`, `C67_saved_refuted`, `C68_forward`, `C69_argmax`, `C69_argmin`, `C69_empty_axis`, `C70_forward`, `C70_numpy_iff`, `C70_remainder_refuted`, `C70_empty`, `C72_kept`, `C72_overwritten`, `C72_leaf`, `C72_results_are_kept_refuted`, `C74_pieces`, `C74_plain`, `C74_plain_braceless`, `C74_plain_refuted`, `C74_indexed`, `C74_indexed_refuted`, `C74_sequence`, `C74_tuple`, `C74_char_refuted`, `C75_statements`, `C75_once_iff`, `C75_size_refuted`, `C75_tells`, `C75_shape_refuted`, `C76_unknown_batch_refuted`, `C81_elements`, `C81_unchecked`, `C81_checked`, `C81_matrix_bounds_refuted`, `C81_rows_and_columns`, `C81_column_end_refuted`, `C81_transposed`, `C81_iterators`, `C83_total`, `C83_safe`, `C90_shapes`, `C90_sized_refuted`, `C90_wide_refuted`, `C91_file`, `C91_no_extension_refuted`, `C91_hdr_refuted`, `C91_round_trip`, `C91_rows_first`, `C91_columns_first`, `C91_resize`, `C92_loop`, `C92_defined`, `C92_full_means_done_refuted`, `C92_line`, `C92_line_refuted`, `C92_trange`, `C92_rize`, `C93_assign`, `C93_run`, `C93_separate`, `C93_read_before_refuted`, `C94_range`, `C94_advance`, `C94_range_int`, `C94_range_word`, `C94_enumerate`, `C94_enumerate_writes_refuted`, `C94_reverse`.

**FE, SFD** (61 theorems): `C19_mean_axis`, `C34_transpose_adjoint`, `C35_padding_adjoint`, `C35_cropping_adjoint`, `C36_average_pooling`, `C36_pooling_of_up_sampled`, `C36_up_sampling_adjoint`, `C36_average_pooling_adjoint`, `C38_img2col_adjoint`, `C39_prediction`, `C39_training`, `C39_backward_adjoint_iff`, `C39_larger_batch`, `C50_repeat_adjoint`, `C51_spread_adjoint`, `C32_views`, `C28_operators`, `C29_accumulation`, `C29_any_life`, `C33_gradient_tensor`, `C41_compounding`, `C43_fit`, `C43_no_validation`, `C43_rest_unused`, `C43_short_targets`, `C44_evaluate`, `C44_phase_refuted`, `C43_fit`, `C46_linear`, `C46_product`, `C46_product_real_factor`, `C46_reversed_difference_refuted`, `C46_reversed_product_refuted`, `C46_product_real_run`, `C46_product_imaginary_refuted`, `C46_product_imaginary_iff`, `C59_runs`, `C59_same_value_refuted`, `C64_gradient`, `C68_backward`, `C68_backward_refuted`, `C69_backward`, `C70_backward_adjoint`, `C73_variance`, `C73_vector_without_keepdims`, `C73_var`, `C73_var_is_variance_iff`, `C73_linspace`, `C73_linspace_one_aborts`, `C78_transposed_kernel_exactly`, `C83_value`, `C85_random`, `C85_randn`, `C85_truncated`, `C85_poisson`, `C89_gemm`, `C89_builds_agree`, `C89_empty`, `C89_empty_agree_refuted`, `C91_scaling`, `C91_contrast_refuted`.

**FE, SFD, SND** (45 theorems): `C20_shift_invariant`, `C30_softmax`, `C31_right`, `C32_sums`, `C32_extremes`, `C32_mean`, `C32_adjoint_right`, `C27_gradient`, `C53_overwritten_output`, `C41_sgd`, `C42_update`, `C42_order`, `C42_frame`, `C48_frozen_fresh`, `C48_frozen_drift`, `C42_frame`, `C54_adagrad`, `C54_rmsprop`, `C54_adam`, `C54_descent`, `C55_adadelta`, `C56_switch`, `C56_adam_after`, `C57_absent`, `C46_modulus`, `C63_training`, `C63_prediction`, `C63_never_fails`, `C63_same_batch`, `C63_gradient_buffer`, `C71_values`, `C71_tank_shrink_overwrites`, `C72_operators`, `C73_standard_deviation`, `C73_std`, `C73_std_is_standard_deviation_refuted`, `C73_norm`, `C76_one_operand`, `C76_flatten_exactly`, `C76_reduce_default_refuted`, `C85_seed`, `C85_seed_refuted`, `C85_glorot`, `C85_convolution_refuted`, `C85_initial`.

**CL, FE, SFD, SND** (63 theorems): `C20_softmax`, `C30_right_everywhere`, `C30_right_on_domain`, `C30_exactly`, `C30_always_wrong`, `C30_log1p_softplus_refuted`, `C31_maximum`, `C31_minimum_refuted`, `C31_atan2_refuted`, `C33_never_modified_refuted`, `C48_frozen_refuted`, `C46_polar`, `C58_training`, `C58_mean_refuted`, `C60_training`, `C60_one_hot`, `C60_entropy`, `C60_value`, `C60_soft_labels_refuted`, `C60_cut_off_refuted`, `C61_training`, `C61_log_error_mean_refuted`, `C62_value`, `C62_negative_logarithm`, `C62_bounded_for_label_0`, `C62_cross_entropy_refuted`, `C63_gradient`, `C63_gradient_refuted`, `C71_matrix_products`, `C71_elementwise_refuted`, `C71_swish_gradient`, `C71_of_operator`, `C76_two_operands`, `C76_expressions`, `C76_product_exactly`, `C76_cross_entropy_exactly`, `C77_networks_run`, `C77_same_keeps`, `C77_same_not_square_refuted`, `C77_conv1d_same_refuted`, `C77_transpose_does_not_enlarge`, `C77_reshape_exactly`, `C77_concatenate_refuted`, `C77_add_ranks_refuted`, `C78_networks_compute`, `C78_deterministic`, `C78_batch_independence`, `C79_gradient`, `C79_training`, `C79_smooth`, `C80_fitting`, `C80_docile`, `C80_descent`, `C82_fitting`, `C82_docile`, `C82_classifier`, `C83_whole_numbers`, `C83_nearest_refuted`, `C84_fit`, `C86_fit`, `C87_evaluate`, `C87_docile`, `C88_life`.

