{"claims": [
{"property": "C01", "status": "proved", "theorems": ["C01_repeat", "C01_same_node_iff", "C01_nodes_never_change", "C01_never_panics", "C01_new_node_is_as_asked"], "note": "Constants of the graph that were set aside because of a hash collision are excluded (constantsUncollided): with them the code clones constants again. 'Same node iff same contents' needs that different contents have different hash codes (noCollision); no other assumption on the hash."},
{"property": "C02", "status": "proved", "theorems": ["C02_what_the_hash_sees", "C02_merged", "C02_told_apart", "C02_softmax_refuted", "C02_sparsemax_refuted", "C02_dropout_refuted", "C02_im2col_refuted", "C02_maxpool_refuted", "C02_ctc_refuted", "C02_slice_refuted", "C02_slice_selects"], "note": "two operators of the listed kinds with the same children become one node exactly when the hash drops what distinguishes them; for each such pair the computed values are shown to differ"},
{"property": "C03", "status": "proved", "theorems": ["C03_bookkeeping", "C03_acyclic"], "note": ""},
{"property": "C04", "status": "proved", "theorems": ["C04_lookup_without_removal", "C04_lookup_after_removal", "C04_lookup_refuted"], "note": "The plain claim is refuted; the exact behaviour after a removal is proved."},
{"property": "C05", "status": "proved", "theorems": ["C05_first_call", "C05_later_calls", "C05_refuted", "C05_repeated_read_refuted"], "note": ""},
{"property": "C06", "status": "proved", "theorems": ["C06_directions", "C06_never_agree"], "note": ""},
{"property": "C07", "status": "proved", "theorems": ["C07_by_name_only", "C07_wrong_type_refuted", "C07_constant_changes_value_refuted"], "note": ""},
{"property": "C08", "status": "proved", "theorems": ["C08_walk", "C08_walk_roots", "C08_graphs_are_walkable"], "note": ""},
{"property": "C09", "status": "proved", "theorems": ["C09_every_step", "C09_when_produced", "C09_at_the_end", "C09_stops_at_first_failure"], "note": "for graphs without let statements, aliasing operators and hash collisions; the excluded cases are C10, C51, C52"},
{"property": "C10", "status": "proved", "theorems": ["C10_inputs_untouched", "C10_reshape_refuted"], "note": "positive part and the reshape witness"},
{"property": "C100", "status": "proved", "theorems": ["C100_unused", "C100_missing_inputs", "C100_no_inputs", "C100_values", "C100_outputs_refuted"], "note": "ExactSubgraphRoots as modelled for C48, the stages from analyze to gen as modelled for C09/C44; Sort is a section variable in the part about errors, and its contract (children first) is the hypothesis sortedGraph in the part about values."},
{"property": "C101", "status": "proved", "theorems": ["C101_to_int", "C101_to_float", "C101_do", "C101_other_pairs", "C101_wrong_from", "C101_scalars", "C101_round_trip", "C101_gradient_to_int", "C101_gradient_to_float"], "note": "Conversions of numbers by contract (goConversions), a lawful one exhibited."},
{"property": "C102", "status": "proved", "theorems": ["C102_dense", "C102_views", "C102_refused", "C102_neighbours_refuted"], "note": "Iterator and strides of the tensor library written out in the model."},
{"property": "C103", "status": "proved", "theorems": ["C103_to_device", "C103_to_host", "C103_round_trip", "C103_no_snapshot", "C103_refused", "C103_value_on_device", "C103_leak", "C103_scalar_from_memory", "C103_gradient_elsewhere_refuted", "C103_value_waits", "C103_gradient", "C103_put", "C103_no_wait", "C103_no_wait_zeros", "C103_value_waits_refuted"], "note": "Copies are queued and carried out by a flush; the allocator hands out no block in use (C30)."},
{"property": "C104", "status": "proved", "theorems": ["C104_no_instruction", "C104_never_bound", "C104_register", "C104_reads_first", "C104_refuted"], "note": "the tape machine on graphs with At nodes: no instruction, no value, users read the first node"},
{"property": "C105", "status": "proved", "theorems": ["C105_programs", "C105_failed", "C105_made", "C105_own_kept", "C105_own_lost", "C105_own_refuted", "C105_nodes", "C105_result", "C105_nodeless", "C105_no_error_refuted"], "note": "the functions of ermagerdmonards.go over a sum of the dynamic types; pkg/errors as causes with wrappers"},
{"property": "C106", "status": "proved", "theorems": ["C106_inverse64", "C106_inverse32", "C106_inverse32_refined", "C106_inverse32_refuted", "C106_tanh_panics", "C106_tanh_levels", "C106_tanh_two", "C106_tanh_one", "C106_tanh_one_refuted", "C106_sigmoid_refuted", "C106_tanh_exact"], "note": "Bits handled exactly (wrapping subtraction, IEEE fields); number arithmetic exact (no rounding). math.Tanh is the real tanh."},
{"property": "C107", "status": "proved", "theorems": ["C107_inputs", "C107_by_name", "C107_edge", "C107_between", "C107_edges_reversed", "C107_from", "C107_unknown", "C107_node_nil_refuted", "C107_constant_found", "C107_constant_by_name", "C107_constant_new", "C107_constant_refuted", "C107_has_edge_unknown"], "note": "On the graph model of C01-C08; NewConstant, Value and ValueEq are parameters with a law (lawfulConst), instantiated in C107_constant_refuted."},
{"property": "C108", "status": "proved", "theorems": ["C108_repeat", "C108_repeat_scalar", "C108_prealloc", "C108_prealloc_skipped", "C108_prealloc_refuted", "C108_count", "C108_counts", "C108_size", "C108_no_size", "C108_size_refuted", "C108_range", "C108_prealloc_other", "C108_size_scalar"], "note": "tensor.Repeat/RepeatReuse, Memset and Copy of the library written out; counts below one not modelled."},
{"property": "C109", "status": "proved", "theorems": ["C109_clusters", "C109_subclusters", "C109_again", "C109_edges", "C109_edges_refuted", "C109_escape_reads_back", "C109_escape_clean", "C109_field", "C109_label", "C109_label_refuted"], "note": "Model of groups, copyGraph, generateDotGraph and the labels. The clusters, the clusters inside ExprGraph, the second export and the edges are characterised for every visiting order; the escaper for every text. Refuted: that the edges show the operands, that a name stays one field."},
{"property": "C11", "status": "proved", "theorems": ["C11_run_again", "C11_let_without_reset", "C11_reset_repeats", "C11_history_keeps_inputs"], "note": "random operators are taken to draw the same values"},
{"property": "C110", "status": "proved", "theorems": ["C110_same_program", "C110_reads_settled", "C110_batched", "C110_operands_kept", "C110_operands_refuted"], "note": "The unconditional claim is refuted by a graph; the condition under which it holds is stated on the instructions."},
{"property": "C111", "status": "proved", "theorems": ["C111_returns", "C111_order", "C111_signal", "C111_flush", "C111_flush_refuted", "C111_order_refuted", "C111_always_returns", "C111_always_returns_refuted", "C111_lisp"], "note": "The refuted parts are witnesses: a flush that ends while RunAll holds a call, a later call run first, and another machine's collector that takes the signal. DoWork is taken to run everything it finds (blase's own is C38)."},
{"property": "C112", "status": "proved", "theorems": ["C112_prepare", "C112_prepare_panics", "C112_suppressed", "C112_most_confident_refuted", "C112_rectify", "C112_outside", "C112_output"], "note": "Floats are exact rationals; sort.Sort is any function that permutes and orders."},
{"property": "C113", "status": "proved", "theorems": ["C113_one_run", "C113_results", "C113_memcpy_never_returns", "C113_init_fails", "C113_close_hangs", "C113_ends", "C113_orderly", "C113_orderly_refuted", "C113_close_error_refuted"], "note": "One goroutine calls the engine's methods. The context's Do (send on Work, receive from ErrChan, unbuffered) and the announcing of batches are the library's contract."},
{"property": "C114", "status": "proved", "theorems": ["C114_network", "C114_linear", "C114_linear_refuted", "C114_samples_refuted", "C114_too_short", "C114_too_short_refuted", "C114_zero", "C114_v2", "C114_parse"], "note": "float arithmetic as exact rationals, the square root a parameter, Conv2d as the sum over the input under the kernel (its own model is ConvModel)"},
{"property": "C115", "status": "proved", "theorems": ["C115_reset", "C115_whole", "C115_whole_refuted", "C115_still_held_refuted"], "note": "cuda/arena.go ResetAllocator over the pool of C30; any order of the map; the invariants of C30 continued through the reset"},
{"property": "C116", "status": "proved", "theorems": ["C116_lisp_options", "C116_lisp_refuses", "C116_tape_options", "C116_tape_refuses", "C116_tape_log", "C116_lisp_log", "C116_watch_everything_refuted", "C116_bwd_only_does_nothing", "C116_backprop_never_reported", "C116_last_run", "C116_after_a_failed_backward", "C116_roots", "C116_format_and_engine"], "note": "options as functions on the bit sets; RunAll of LispModel with the check of the roots"},
{"property": "C117", "status": "proved", "theorems": ["C117_conv_adds", "C117_conv_gradients", "C117_conv_gradients_refuted", "C117_pool_and_relu", "C117_batchnorm_writes_nothing", "C117_batchnorms_share"], "note": "cuDNN by its alpha/beta contract, values as real numbers; the nodes through the graph model of C01"},
{"property": "C118", "status": "proved", "theorems": ["C118_labels_round_trip", "C118_images_round_trip", "C118_cut_short", "C118_cut_short_images", "C118_wrong_magic", "C118_wrong_label_magic", "C118_load", "C118_size_refuted", "C118_label_range_refuted", "C118_weight", "C118_marks", "C118_weight_increases", "C118_reverse_refuted", "C118_stored_format"], "note": "float arithmetic is the standard library's SpecFloat (IEEE, nearest even, no fused multiply-add); byte() of a float out of range as on amd64"},
{"property": "C119", "status": "proved", "theorems": ["C119_memory", "C119_memory_error", "C119_force_cpu", "C119_cpu_only", "C119_cards", "C119_no_fallback", "C119_untyped", "C119_tape", "C119_closed", "C119_card_needs_compile", "C119_falls_back_refuted", "C119_gives_back_refuted", "C119_lisp_uses_card_refuted", "C119_compile"], "note": "The driver is a parameter; the last three theorems refute the fallback to the CPU, the release after a failure and the use of cards without compilation."},
{"property": "C12", "status": "proved", "theorems": ["C12_first_run_is_complete", "C12_second_run_does_nothing", "C12_after_reset_only_the_last_node", "C12_after_reset_forward_only", "C12_error_names_the_next_node", "C12_backward_half_after_the_error", "C12_reset_recomputes_refuted", "C12_backward_only"], "note": "For any meaning of executing and differentiating a node."},
{"property": "C120", "status": "proved", "theorems": ["C120_sum", "C120_not_listed", "C120_dropped", "C120_arrived_refuted", "C120_mixed_refuted", "C120_two_cards_refuted", "C120_early_refuted"], "note": "A gradient is one element of an unknown type; the order in which a context does queued calls is the library's contract; the allocator's answers are arbitrary, separate from registers (C30)."},
{"property": "C121", "status": "proved", "theorems": ["C121_flushed_before_use", "C121_to_host", "C121_nothing_between", "C121_allocated_once", "C121_operation_refuted"], "note": "The register allocator is an input of the model. The refuted part is about the generator alone; the compiler puts a transport before such an operation (C97)."},
{"property": "C122", "status": "proved", "theorems": ["C122_apart", "C122_shared_refuted", "C122_batch_norm", "C122_group_norm"], "note": "The arithmetic is left open, so the result holds for float64 and float32 alike; the loops of the CTC loss are C123"},
{"property": "C123", "status": "proved", "theorems": ["C123_loss", "C123_gradient"], "note": "The arithmetic is left open (C-properties about the values of the CTC loss use the plain loop); the memory of the slices is taken to be distinct, as they are allocated by the operation"},
{"property": "C124", "status": "proved", "theorems": ["C124_vocab", "C124_unknown", "C124_inverse_refuted", "C124_one_hot", "C124_targets", "C124_each_row_refuted"], "note": "tensor.New, SetAt and Argmax are library functions, modelled by what they do on a vector; strings are lists of runes"},
{"property": "C13", "status": "proved", "theorems": ["C13_symbolic_unary_rules", "C13_automatic_unary_rules", "C13_kernels"], "note": "Over the reals, one element of a pointwise tensor; y is any node holding the operator's value; stabilisation on or off."},
{"property": "C14", "status": "proved", "theorems": ["C14_log2_symbolic_refuted", "C14_inverse_sqrt_symbolic_refuted", "C14_inverse_sqrt_at_one", "C14_inverse_sqrt_automatic_refuted", "C14_values"], "note": "The rules a user expects are refuted at every point named in the statement."},
{"property": "C15", "status": "proved", "theorems": ["C15_symbolic_binary_rules", "C15_automatic_binary_rules"], "note": "Over the reals, scalar case, distinct operands for the automatic rules."},
{"property": "C16", "status": "proved", "theorems": ["C16_matmul_adjoint", "C16_matmul_forward", "C16_matmul_automatic", "C16_matvec_adjoint", "C16_vecdot_adjoint", "C16_outer_refuted", "C16_outer_nonsquare_refuted", "C16_batched_adjoint"], "note": "Adjoint identities over any commutative ring and all sizes; the outer product rule is refuted."},
{"property": "C17", "status": "proved", "theorems": ["C17_sum_over_all_paths", "C17_succeeds", "C17_unreachable_rejected", "C17_grad_is_the_derivative", "C17_grad_rejects_independent_input", "C17_cut_off"], "note": "Path sums for arbitrary DAGs and gradient domains; end to end with the C13/C15 rules: Grad's expressions evaluate to the derivative."},
{"property": "C18", "status": "proved", "theorems": ["C18_log", "C18_log1p", "C18_sub", "C18_neg"], "note": "For every expression tree of pointwise operators; side effects on the graph are C19."},
{"property": "C19", "status": "proved", "theorems": ["C19_log_of_one_plus_x", "C19_softmax_node_switches", "C19_log_of_product", "C19_log_of_product_refuted", "C19_log_of_chain"], "note": "the removal of nodes is in GraphModel, the softmax rewrite in StabModel"},
{"property": "C20", "status": "proved", "theorems": ["C20_lse_right_if_max_zero", "C20_lse_positive_max_refuted", "C20_lse_negative_singleton_refuted"], "note": "Documented behaviour refuted for every vector of positive maximum. Vectors along their only axis."},
{"property": "C21", "status": "proved", "theorems": ["C21_im2col_entries", "C21_adjoint", "C21_automatic_gradient_overwrites", "C21_automatic_gradient_accumulates_refuted"], "note": ""},
{"property": "C22", "status": "proved", "theorems": ["C22_conv2d_is_the_convolution", "C22_filter_shape_unchecked"], "note": ""},
{"property": "C23", "status": "proved", "theorems": ["C23_max_of_each_window", "C23_gradient_is_the_adjoint", "C23_forward_then_gradient", "C23_four_paddings_shift_by_bottom_and_right", "C23_four_paddings_shift_by_top_and_left_refuted", "C23_empty_window", "C23_MaxPool1D", "C23_refused"], "note": ""},
{"property": "C24", "status": "proved", "theorems": ["C24_divides_by_the_input_width", "C24_is_the_mean_iff", "C24_average_refuted", "C24_AveragePool1D_is_max_pooling", "C24_AveragePool1D_averages_refuted", "C24_gradient_adjoint_with_stride_1", "C24_gradient_adjoint_refuted"], "note": "gradient on one plane"},
{"property": "C25", "status": "proved", "theorems": ["C25_upsample_repeats_each_pixel", "C25_gradient_is_the_adjoint"], "note": ""},
{"property": "C26", "status": "proved", "theorems": ["C26_row_is_projection", "C26_projection_is_unique", "C26_every_row_is_projection", "C26_sparsemax_total", "C26_gradient", "C26_axis0_refuted"], "note": "axis 0 result not normalised (refuted)"},
{"property": "C27", "status": "proved", "theorems": ["C27_output", "C27_total", "C27_identity", "C27_prealloc_panics", "C27_gradient_right_iff_half", "C27_zero_input_refuted", "C27_eval_gradient", "C27_zero_probability_gradient"], "note": "the gradient of dropout is wrong unless p = 1/2"},
{"property": "C28", "status": "proved", "theorems": ["C28_training_output", "C28_normalised", "C28_running_statistics", "C28_evaluation", "C28_set_training", "C28_evaluation_after_toggle", "C28_training_gradient", "C28_evaluation_gradient_flat", "C28_evaluation_gradient_spatial", "C28_evaluation_gradient_refuted", "C28_prealloc_ignores_input", "C28_reused_buffer_refuted"], "note": "float64 kernels over exact reals"},
{"property": "C29", "status": "proved", "theorems": ["C29_loss_is_the_negated_log_likelihood", "C29_empty_target_has_the_wrong_sign", "C29_empty_target_refuted", "C29_zero_length_panics"], "note": "float64 kernel over the reals with infinities and NaN; both reductions and target layouts"},
{"property": "C30", "status": "proved", "theorems": ["C30_never_overlaps", "C30_coalesce_refuted", "C30_calm_conserves", "C30_first_fit", "C30_allocated"], "note": "cuda/bfc.go with pointers into a memory; safety for all histories by an invariant that allows stale back links; no panic, conservation and first fit for histories whose merges are harmless"},
{"property": "C31", "status": "proved", "theorems": ["C31_vanilla_follows", "C31_missing_gradient", "C31_zero_weight_refuted", "C31_zero_clip_refuted"], "note": "SolverProps.v; refuted: scalars and tensors are not alike at weight zero with L1 and with bound zero"},
{"property": "C32", "status": "proved", "theorems": ["C32_momentum", "C32_momentum_scalar_plain", "C32_adagrad"], "note": "SolverProps.v"},
{"property": "C33", "status": "proved", "theorems": ["C33_weights_stay", "C33_steps_succeed", "C33_scalar_crashes"], "note": "SolverProps.v; frame proof in SolverAdamW.v"},
{"property": "C34", "status": "proved", "theorems": ["C34_pattern", "C34_auto", "C34_fifth_axis_refuted", "C34_expands"], "note": "Bytes of the pattern are integers mod 256; tensors are functions from coordinates; Reshape/Repeat of the tensor library are modelled by row-major order. Theorems: what a pattern reports for every axis list; Auto equals NumPy broadcasting for compatible shapes of equal rank up to four; fails at the fifth axis; one-sided expansion of an operand of lower rank."},
{"property": "C35", "status": "proved", "theorems": ["C35_bitmap", "C35_blocks", "C35_blocks_refuted"], "note": "Words are lists of 64 bits. All histories of Set/Clear against the last call touching the bit; BlocksWithZero against runs of zeros; refuted: exactly n zeros suffice."},
{"property": "C36", "status": "proved", "theorems": ["C36_programs"], "note": "Sets are maps on a heap with the iteration order of each range an oracle; every program of calls agrees with characteristic functions."},
{"property": "C37", "status": "proved", "theorems": ["C37_result", "C37_error", "C37_always", "C37_cancel", "C37_constant_refuted", "C37_empty_refuted", "C37_nullary_refuted", "C37_negative_arity"], "note": "Goroutines and unbuffered channels of x/vm as a labelled transition system; safety by an invariant with ghost sets of received positions, liveness by progress and a decreasing measure (no fairness assumption needed)."},
{"property": "C38", "status": "proved", "theorems": ["C38_order", "C38_pair", "C38_lone_refuted", "C38_never_refuted", "C38_dead_refuted", "C38_panic_refuted", "C38_dgemv"], "note": "Producer and one worker as a transition system; append's growth is an arbitrary function."},
{"property": "C39", "status": "proved", "theorems": ["C39_reshape", "C39_refused", "C39_scalar_refuted", "C39_reuse_refuted"], "note": "Exact result of Reshape for nodes with at least one axis, exactly when it is refused, and two refutations: scalars are not size checked, and a reused slice carries the inferred value over."},
{"property": "C40", "status": "proved", "theorems": ["C40_transpose", "C40_compose", "C40_round_trip", "C40_gradient", "C40_bad", "C40_scalar_refuted"], "note": "pulled_back says the gradient is the adjoint of the (linear) operation; entries from any commutative ring."},
{"property": "C41", "status": "proved", "theorems": ["C41_batches_visited_once", "C41_batched_product"], "note": "Odometer enumerates all outer index tuples in row-major order, once each."},
{"property": "C42", "status": "proved", "theorems": ["C42_concat", "C42_concat_auto", "C42_concat_auto_axis_refuted", "C42_concat_auto_narrow_refuted", "C42_repeat_one", "C42_repeat_auto", "C42_repeat_many_refuted", "C42_repeat_auto_one_refuted", "C42_repeat_auto_single"], "note": "Value, symbolic and automatic gradient, with the failures as refutations."},
{"property": "C43", "status": "proved", "theorems": ["C43_values", "C43_symbolic_gradient", "C43_symbolic_tie", "C43_automatic_gradient", "C43_automatic_forgets", "C43_automatic_gradient_refuted"], "note": "entrywise; tensor.MinBetween/MaxBetween assumed to be minimum and maximum"},
{"property": "C44", "status": "proved", "theorems": ["C44_live_range", "C44_reuse_after_last_use"], "note": "intervals and register reuse"},
{"property": "C45", "status": "proved", "theorems": ["C45_unsupported_cost_gives_no_error", "C45_supported_cost_is_backpropagated"], "note": "errors.Wrap of a nil error."},
{"property": "C46", "status": "proved", "theorems": ["C46_sigmoid_cutoff", "C46_softplus_cutoff", "C46_sigmoid32_cutoff", "C46_softplus32_cutoff", "C46_sigmoid_monotone", "C46_softplus_monotone", "C46_softplus_monotone_refuted"], "note": "float64 and float32 kernels over exact reals; roundings are left out."},
{"property": "C47", "status": "proved", "theorems": ["C47_second_gradient_is_the_first", "C47_second_gradient_refuted"], "note": "Finding: stale derivatives are returned."},
{"property": "C48", "status": "proved", "theorems": ["C48_subgraph_of_one", "C48_subgraphRoots", "C48_exactSubgraphRoots", "C48_subgraph_refuted", "C48_subgraph_roots"], "note": ""},
{"property": "C49", "status": "proved", "theorems": ["C49_clone_is_a_copy", "C49_next_id_of_the_clone_is_new", "C49_clone_roots", "C49_clone_roots_refuted", "C49_clone_parents"], "note": "deriv/derivOf pointers and bound values of nodes are not in the model."},
{"property": "C50", "status": "proved", "theorems": ["C50_value_of_intermediate_refuted", "C09_every_step", "C09_at_the_end"], "note": ""},
{"property": "C51", "status": "proved", "theorems": ["C51_collision_refuted"], "note": ""},
{"property": "C52", "status": "proved", "theorems": ["C52_set_refuted"], "note": ""},
{"property": "C53", "status": "proved", "theorems": ["C53_lisp_values_and_gradients", "C53_gradients_accumulate_over_machines", "C53_let_keeps_the_gradient", "C53_constant_operands"], "note": "Exact reals; scalar operators of the unary and binary tables, inverse square root excluded (C14)."},
{"property": "C54", "status": "proved", "theorems": ["C54_output_size", "C54_kernel_larger_than_the_image"], "note": ""},
{"property": "C55", "status": "proved", "theorems": ["C55_entries", "C55_gradient_by_the_scores", "C55_derivative_by_the_log_probabilities", "C55_gradient_by_the_input_refuted", "C55_mean_reduction_refuted"], "note": "float64 kernel over the reals with infinities and NaN"},
{"property": "C56", "status": "proved", "theorems": ["C56_rmsprop_follows", "C56_adam_follows"], "note": "SolverProps.v"},
{"property": "C57", "status": "proved", "theorems": ["C57_follows", "C57_best_fit", "C57_quadratic", "C57_defined", "C57_same_gradients", "C57_scalar", "C57_grown_crashes", "C57_retry_crashes"], "note": "Follows the recurrence wherever the rate is defined; the failures are theorems of their own."},
{"property": "C58", "status": "proved", "theorems": ["C58_adagrad_ignores_options", "C58_last_rate_wins", "C58_grown_model_crashes", "C58_options"], "note": "SolverProps.v"},
{"property": "C59", "status": "proved", "theorems": ["C59_slice", "C59_gradient", "C59_unconcat", "C59_unconcat_narrow_refuted", "C59_unconcat_along_refuted"], "note": "Slices of step one."},
{"property": "C60", "status": "proved", "theorems": ["C60_sum", "C60_broadcast_lower", "C60_broadcast_same"], "note": "Symbolic gradients; composed as Backprop does when each node is used once."},
{"property": "C61", "status": "proved", "theorems": ["C61_small_rows", "C61_large_rows", "C61_constant_rows", "C61_mean_refuted"], "note": "float64 code over exact reals; the stack slices are references so that the aliased arguments behave as in the code"},
{"property": "C62", "status": "proved", "theorems": ["C62_output", "C62_gradient", "C62_automatic", "C62_automatic_refuted", "C62_large_groups", "C62_remainder"], "note": "the scale and bias around the operator (Auto broadcast) are not part of it; goroutines of runInParallel write disjoint cells and are run in order"},
{"property": "C63", "status": "proved", "theorems": ["C63_value", "C63_column", "C63_sums_to_one", "C63_gradient", "C63_column_refuted", "C63_scalar_refused"], "note": "Derivative of the inner product in every direction; the library's softmax and its gradient along an axis are assumed as defined in SoftmaxModel.v, the choice of the axis is the code's. C63_column_refuted covers every column and both operators."},
{"property": "C64", "status": "proved", "theorems": ["C64_gradient", "C64_derivative", "C64_group_sum", "C64_ties_refuted", "C64_fifth_axis_refuted"], "note": "Real arithmetic; tensor.Dense.Max assumed to give the largest entry. Sizes positive."},
{"property": "C65", "status": "proved", "theorems": ["C65_mean"], "note": "Real arithmetic; the library's Sum assumed. Repeated axes not covered."},
{"property": "C66", "status": "proved", "theorems": ["C66_norm", "C66_odd_refuted", "C66_nan_refuted"], "note": "Real arithmetic with a separate NaN; p <= 0 not modelled."},
{"property": "C67", "status": "proved", "theorems": ["C67_ordinary", "C67_first_machine", "C67_later_machines", "C67_unbound", "C67_accumulates_refuted", "C67_reshape", "C67_reshape_accumulates_refuted"], "note": "Derivative tensors by address; the users of the two nodes are an arbitrary list of in-place additions. Tensors are not taken out of the pool again in the model."},
{"property": "C68", "status": "proved", "theorems": ["C68_training", "C68_accumulates", "C68_plain", "C68_plain_constant", "C68_plain_shared", "C68_all_nodes", "C68_needs_dual_values_refuted", "C68_derivatives_persist"], "note": "Scalar float64 nodes over exact reals, values by address; registers left out (C09, C50)."},
{"property": "C69", "status": "proved", "theorems": ["C69_conv2d_gradient", "C69_forward_and_gradient"], "note": "Symbolic gradients over any commutative ring."},
{"property": "C70", "status": "proved", "theorems": ["C70_accepts", "C70_shape", "C70_value", "C70_gradient", "C70_unit_output_refused", "C70_unit_operand_refused", "C70_all_shapes_refuted"], "note": "tensor.Contract, Reshape, Transpose and matrix product of the tensor library assumed; DoDiff is not modelled. The refutation shows that the gradient is refused for a matrix with one row times a vector."},
{"property": "C71", "status": "proved", "theorems": ["C71_value", "C71_gradient", "C71_vector_and_column", "C71_accepted_operands_refuted"], "note": "Exact real arithmetic; the rewriting of new nodes by stabilisation functions is left out (C19, C20). Powers have a positive base."},
{"property": "C72", "status": "proved", "theorems": ["C72_partials", "C72_tensors", "C72_scalars", "C72_scalar_first", "C72_scalar_second", "C72_first_use", "C72_two_uses", "C72_accumulation_refuted", "C72_scalar_exponent_fails"], "note": "CPU; two different nodes, neither a constant; tensors with one entry beside a scalar are not covered; tensors returned to the pool are not modelled. The library's in-place operations are assumed to store into the first tensor operand."},
{"property": "C73", "status": "proved", "theorems": ["C73_value", "C73_axis_panics", "C73_index_refused", "C73_gradient", "C73_automatic_fails"], "note": "tensor.ByIndices and ByIndicesB of the tensor library are assumed to gather and to scatter with addition."},
{"property": "C74", "status": "proved", "theorems": ["C74_sum"], "note": "tensor.Repeat and Reshape of the tensor library assumed."},
{"property": "C75", "status": "proved", "theorems": ["C75_mul", "C75_run_only", "C75_refused", "C75_mismatch_accepted_refuted", "C75_batched", "C75_same_operand_refuted", "C75_div"], "note": "Numerical kernels of the tensor library taken as the mathematical products."},
{"property": "C76", "status": "proved", "theorems": ["C76_matmul", "C76_vecdot", "C76_matvec", "C76_outer_fails", "C76_batched"], "note": "WithIncr of the tensor library is assumed to add the result; x and y range over node ids so that sharing is covered."},
{"property": "C77", "status": "proved", "theorems": ["C77_outputs", "C77_evaluation_keeps", "C77_evaluation_gradient_spatial", "C77_evaluation_gradient_flat", "C77_evaluation_gradient_refuted"], "note": "over the reals; rounding not modelled"},
{"property": "C78", "status": "proved", "theorems": ["C78_gradient", "C78_same_node", "C78_unit_axes_lost", "C78_unit_axes_lost_refuted"], "note": "the library's contraction, transposition and product with a scalar are assumed to do what their documentation says"},
{"property": "C79", "status": "proved", "theorems": ["C79_symbolic", "C79_automatic"], "note": "one element of the pointwise tensors, exact reals; only inputs are shared (graphs: C08 and following)"},
{"property": "C80", "status": "proved", "theorems": ["C80_xent_value", "C80_xent_gradient", "C80_logistic_gradient", "C80_one_more_is_one", "C80_logistic_saturates", "C80_logistic_saturates_refuted", "C80_rectifier_values", "C80_rectifier_gradients", "C80_rectifier_infinities", "C80_mish", "C80_mish_infinities", "C80_logistic_infinities"], "note": "exact reals with infinities and NaN; rounding only for the constant oneMore (Flocq)"},
{"property": "C81", "status": "proved", "theorems": ["C81_same_shape_one_node", "C81_one_node_iff", "C81_input_becomes_random", "C81_named_input_is_its_own", "C81_first_operator_stays", "C81_interval_refuted", "C81_first_request"], "note": "what the generators draw is only modelled for the uniform one"},
{"property": "C82", "status": "proved", "theorems": ["C82_graph_chosen", "C82_right_graph", "C82_right_graph_refuted", "C82_id_overwritten", "C82_other_graph_broken_refuted"], "note": ""},
{"property": "C83", "status": "proved", "theorems": ["C83_unwritten_slice", "C83_listed_arguments", "C83_children_stay_refuted", "C83_slice_rewritten"], "note": "a slice is its whole array; Concat calls of one graph and axis"},
{"property": "C84", "status": "proved", "theorems": ["C84_second_call", "C84_mode_without_effect", "C84_small_epsilons", "C84_told_apart", "C84_epsilon_refuted", "C84_group_norm", "C84_group_norm_hash", "C84_group_norm_refuted", "C84_mode_with_effect"], "note": "momentum and epsilon not negative"},
{"property": "C85", "status": "proved", "theorems": ["C85_every_node_fits", "C85_elementwise", "C85_elementwise_crash", "C85_mixed_dtypes_refused", "C85_reduction", "C85_axis_twice_refuted", "C85_one_operand", "C85_mul", "C85_two_operands", "C85_concat", "C85_slice", "C85_diagflat_refuted", "C85_vector_column_refuted", "C85_no_such_axis"], "note": "hm.Unify (external) is modelled from its documented behaviour: equal types, variables bound, otherwise the component lists unified; a TensorType's components are its entry type only"},
{"property": "C86", "status": "proved", "theorems": ["C86_detections", "C86_masks_unused", "C86_masks_refuted", "C86_bad_masks", "C86_input_destroyed", "C86_batch_refused", "C86_not_square", "C86_shape_refuted"], "note": "Exact rationals instead of float32; sigmoid and exponential are any functions."},
{"property": "C87", "status": "proved", "theorems": ["C87_overlap", "C87_sides_swapped", "C87_overlap_refuted", "C87_best_target", "C87_elsewhere", "C87_last_target", "C87_read", "C87_own_box_ignored", "C87_second_class", "C87_regrouped_twice", "C87_training_boxes_refuted", "C87_single_cell", "C87_training_shape", "C87_target_losses", "C87_no_object", "C87_best_anchor", "C87_anchor_cell", "C87_training_output"], "note": "Exact rationals instead of float32; the logarithm is any function."},
{"property": "C88", "status": "proved", "theorems": ["C88_elementwise", "C88_in_place", "C88_reuse_second_refuted", "C88_incr_refuted", "C88_refused", "C88_scalar", "C88_unary", "C88_large_refuted", "C88_multiple_refuted", "C88_whole_grid_refuted", "C88_scalar_refused"], "note": "One row of blocks: correct for every thread order. Reuse of the second operand, WithIncr and tensors beyond one row of blocks: refuted."},
{"property": "C89", "status": "proved", "theorems": ["C89_let", "C89_let_refused", "C89_let_number_refuted", "C89_let_node_refuted", "C89_unsafe_let_constant_refuted", "C89_with_value", "C89_with_value_refuted", "C89_with_value_reshapes_refuted", "C89_with_grad", "C89_bind_copy", "C89_clone", "C89_unbind_all", "C89_unbind_wipes_refuted", "C89_unbind_constant_refuted", "C89_unbind_non_inputs", "C89_double_return_refuted", "C89_inputs", "C89_constants", "C89_with_value_scalar"], "note": "Values as objects with identity; the library's pool of tensors is modelled as a queue with room."},
{"property": "C90", "status": "proved", "theorems": ["C90_build", "C90_history", "C90_option_reuse_refuted", "C90_value_reuse_refuted", "C90_constant_refuted", "C90_constant_reused_refuted", "C90_constant_two_shapes"], "note": "tensor.BorrowInts and ReturnInts (library) modelled: slices under eight entries are zeroed and reused."},
{"property": "C91", "status": "proved", "theorems": ["C91_clone", "C91_clone_refused", "C91_zero", "C91_zero_panics", "C91_clone_independent", "C91_copy_scalar", "C91_copy_tensor", "C91_eq", "C91_eq_symmetric", "C91_eq_nil", "C91_eq_missing_derivative", "C91_eq_nan", "C91_close_shapes", "C91_close_dual", "C91_unit", "C91_unit_variable", "C91_bind", "C91_clone0", "C91_bind0", "C91_bind0_shared", "C91_bind0_no_derivative", "C91_fallback", "C91_bindvar0", "C91_scalar_view", "C91_bind0_shared_refuted", "C91_close_scalars", "C91_clones_distinct", "C91_close_kinds"], "note": "Section over entries, equality and closeness of entries; operators are arbitrary functions. The failures are theorems of their own; C91_bind0_shared_refuted is the witness for shared memory."},
{"property": "C92", "status": "proved", "theorems": ["C92_same_run", "C92_nan", "C92_nan_finished", "C92_inf", "C92_panic", "C92_pointer", "C92_compiled", "C92_lisp_no_inf_watch", "C92_lisp_nan", "C92_has", "C92_has_panics", "C92_pointer_refuted", "C92_first_node_refuted", "C92_counter", "C92_lisp_error"], "note": "On top of the tape machine of C09; C92_pointer_refuted and C92_first_node_refuted give the false alarm and the blind spot."},
{"property": "C93", "status": "proved", "theorems": ["C93_axes_kept", "C93_vectors_slip", "C93_more_axes_refused", "C93_failures_passed_on", "C93_sum_of_a_matrix", "C93_refuted"], "note": "fn is an arbitrary function; the reshape of a scalar result is that of the model of Reshape (C39)"},
{"property": "C94", "status": "proved", "theorems": ["C94_left_fold", "C94_when", "C94_options_everywhere"], "note": "Add and Mul are an arbitrary partial operation on nodes"},
{"property": "C95", "status": "proved", "theorems": ["C95_means", "C95_refused"], "note": "exact rational arithmetic"},
{"property": "C96", "status": "proved", "theorems": ["C96_matmul", "C96_matvec", "C96_outer_rows", "C96_outer_columns_adds", "C96_other_types", "C96_outer_leaves_a_column", "C96_refused", "C96_operator", "C96_same_operand_transposed_twice", "C96_result_order_refuted", "C96_views_refuted", "C96_strided_vectors_refuted"], "note": "cuBLAS (gemm, gemv, ger), tensor.T and Reshape (library) are modelled by their documented meaning; tensors share no memory except the one-tensor case"},
{"property": "C97", "status": "proved", "theorems": ["C97_transports", "C97_two_cards_refuted", "C97_determine_never", "C97_determine_refuted"], "note": ""},
{"property": "C98", "status": "proved", "theorems": ["C98_size", "C98_fixed", "C98_steps", "C98_glorot_normal", "C98_glorot_uniform", "C98_glorot_uniform32", "C98_glorot_uniform32_refuted", "C98_he", "C98_uniform", "C98_supported", "C98_same_clock"], "note": "Exact real arithmetic; only the conversion to float32 rounds, by an arbitrary function. The documented uniform distribution of GlorotEtAlU32 is refuted."},
{"property": "C99", "status": "proved", "theorems": ["C99_difference", "C99_intersect", "C99_untouched_refuted", "C99_set", "C99_add", "C99_add_twice", "C99_add_twice_refuted", "C99_equals", "C99_equals_refuted", "C99_same_graph", "C99_index", "C99_remove", "C99_replace", "C99_reverse"], "note": "xtgo/set is a library: its documented contract is a hypothesis, met by an example implementation of Diff that is proved lawful."}
]}
