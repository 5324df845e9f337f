{"claims": [
{"property": "C01", "status": "proved", "theorems": ["C01_transpose_chain_preserved"], "note": ""},
{"property": "C02", "status": "partial", "theorems": ["C02_gather_chain_refuted", "C02_gather_chain_partial"], "note": "False as stated: a chain whose composed index vector is sorted but not the whole axis is removed. Proved when an operator remains or all vectors are permutations."},
{"property": "C03", "status": "proved", "theorems": ["C03_slice_chain_preserved"], "note": "for instances the operator accepts (start <= end <= dim, strides >= 1)"},
{"property": "C04", "status": "proved", "theorems": ["C04_simple_reshape_classified"], "note": ""},
{"property": "C05", "status": "proved", "theorems": ["C05_reshape_groups_partition"], "note": "shapes both empty or both non-empty; the mixed case raises (C05_scalar_fails)"},
{"property": "C06", "status": "partial", "theorems": ["C06_lower_transpose_refuted", "C06_lower_transpose_inverse_partial", "C06_lower_transpose_partial"], "note": "False as stated: the pass transposes by the inverse permutation. Proved: exact result on shapes without unit axes, correctness for self-inverse permutations."},
{"property": "C07", "status": "partial", "theorems": ["C07_same_padding_conv_partial", "C07_conv_kernels_partial", "C07_same_padding_maxpool_partial", "C07_same_padding_maxpool_refuted"], "note": "Proved for all convolutions and for max pooling when the pad value is not above any element; refuted for max pooling behind a PAD without constant operand (zeros)."},
{"property": "C08", "status": "partial", "theorems": ["C08_fuse_bn_partial", "C08_fuse_bn_relu_refuted", "C08_fuse_bn_group_deconv_refuted", "C08_fuse_bn_fc_3d_refuted", "C08_fuse_bn_fc_3d_raises_refuted"], "note": "Proved for layers without own activation (conv with any groups, ungrouped transposed conv, 2-D fully connected); the remaining cases are refuted by witnesses."},
{"property": "C09", "status": "partial", "theorems": ["C09_fuse_bn_into_next_conv_partial", "C09_padding_refuted", "C09_bias_length_refuted", "C09_multiplier_raises_refuted"], "note": "Proved without padding; refuted with zero padding, for the bias length with one output channel, and the pass raises for a channel multiplier."},
{"property": "C10", "status": "partial", "theorems": ["C10_rsqrt_partial", "C10_numerator_refuted", "C10_broadcast_refuted"], "note": "Proved when the root is the denominator and ones do not broadcast the root; both other cases refuted."},
{"property": "C100", "status": "partial", "theorems": ["C100_conv_partial", "C100_conv_byte_partial", "C100_linear_byte_partial", "C100_linear_per_channel", "C100_rescale", "C100_rescale_refuted", "C100_overflow_refuted", "C100_deconv_bias_refuted", "C100_mul_scalar_partial", "C100_mul_minus_one", "C100_mul_minus_one_refuted", "C100_add_scalar"], "note": "Proved per output element, when the zero points fit the storage type, the weight scale is not rescaled and the bias fits its type. Refuted: rescaled weights with large sums, biases beyond 32 bits, the separately added bias of a transposed convolution, and multiplication by -1. Linear layers with per-channel weights raise. Not covered: float rounding of scales, fixed-point rounding inside the kernels, 16 bit scalars, quantized batch norm, cat, elu."},
{"property": "C101", "status": "partial", "theorems": ["C101_selected", "C101_value_partial", "C101_compare_partial", "C101_compare_close", "C101_tie_refuted", "C101_scales_refuted", "C101_scalar_refuted", "C101_output_refuted", "C101_raises"], "note": "Proved per node with exact kernels, for nodes read only by the QUANTIZE and, for comparisons, with equal parameters and no constant halfway between two steps (then off by one). Refuted otherwise: comparisons of different scales, division by a scalar (rejected model), outputs of the graph. The exception of the pass is characterised. Not covered: the 16 bit LSTM."},
{"property": "C102", "status": "partial", "theorems": ["C102_pairs_partial", "C102_middle_refuted", "C102_type_refuted", "C102_float_refuted", "C102_raises"], "note": "Proved for one change of parameters followed by pairs with the same parameters. Refuted: a coarser step in the middle, different types with equal parameters, QUANTIZE in front of DEQUANTIZE. A requantization in front of a DEQUANTIZE raises. Per-channel parameters and the skipped chains between inputs and outputs are not modelled."},
{"property": "C103", "status": "proved", "theorems": ["C103_generated_code", "C103_stale_order_refuted"], "note": "For every graph whose lists of previous nodes and indices agree and whose rendered names are those of the links. The refutation shows that the order has to be recomputed first; the callers in the repository do. In-place operators, aliases and properties of modules are not modelled."},
{"property": "C104", "status": "partial", "theorems": ["C104_insert_after_forward", "C104_insert_after_input", "C104_insert_after_constant", "C104_insert_after_list_refuted", "C104_remove_node"], "note": "insert_after of a new module or function behind a node whose outputs are tensors; it raises for a list of tensors (refuted). remove_node for a node with one input and one output tensor. Insertion of an existing node is not covered."},
{"property": "C105", "status": "partial", "theorems": ["C105_insert_between", "C105_insert_before_forward", "C105_insert_before_output", "C105_insert_before_list", "C105_two_tensors_refuted", "C105_one_tensor_at_a_time_refuted", "C105_second_tensor_refuted", "C105_then_after_refuted", "C105_insert_before_part_refuted", "C105_shared_node_refuted"], "note": "insert_between of a new module or function between two nodes that share one tensor, insert_before of one in front of a node with one input or in front of an output, and of a list in front of a returned list. Refuted for two shared tensors, for one of two shared tensors, in front of a function that reads a part of a node, and for one node shared by readers whose list is not in execution order. insert_between of an existing node has no positive theorem."},
{"property": "C106", "status": "proved", "theorems": ["C106_dead_nodes"], "note": "In-place operators are not modelled: a dead one that writes a live tensor is removed too."},
{"property": "C107", "status": "partial", "theorems": ["C107_extracted_partial", "C107_rejected", "C107_function_first_refuted", "C107_part_first_refuted", "C107_taken_result_refuted", "C107_constant_refuted"], "note": "Proved where the first nodes are modules called with whole results and no result is read by one of them. Refuted where a first node is a function (its line keeps the old names), where it reads a part of a result, where a result is read by a first node, and where the part reads a constant (it is rejected)."},
{"property": "C108", "status": "proved", "theorems": ["C108_transpose_to_reshape", "C108_turned"], "note": "For tensors with at least one element the decision is exact; for empty tensors it is sound."},
{"property": "C109", "status": "partial", "theorems": ["C109_wrapped_partial", "C109_rotation_refuted", "C109_equal_sizes_refuted", "C109_expanding_refuted", "C109_decides", "C109_window"], "note": "Proved where the RESHAPE keeps the rank, and where it changes it with swaps only and pairwise different sizes. Refuted where it changes the rank: a rotation of three axes done twice is taken for the identity (the order of the axes is compared with the inverse of the one needed), and axes of the same size are mixed up."},
{"property": "C11", "status": "proved", "theorems": ["C11_remove_tile", "C11_remove_tile_left"], "note": "Any binary element-wise operator, tile on either operand."},
{"property": "C110", "status": "partial", "theorems": ["C110_sequences", "C110_nodes_gone", "C110_order_refuted", "C110_kept_last_refuted"], "note": "Proved for sequences whose last node goes, in an order in which no sequence is connected to a node an earlier one has taken out (separate), with force_forward off. Refuted for the other order (an assertion fails) and for a kept last node behind a constant (the constant loses its buffer). Not covered: force_forward, kept last nodes behind an operator, forward_pred callbacks."},
{"property": "C111", "status": "partial", "theorems": ["C111_noops", "C111_noops_branch", "C111_noops_branch_refuted"], "note": "Proved without branches for every graph; with branches where no no-op reads from a no-op. Refuted where two no-ops follow each other, each beside another reader: the pass raises."},
{"property": "C112", "status": "proved", "theorems": ["C112_chains", "C112_transposes", "C112_reshapes"], "note": "Permutations are of one rank, shapes of one size, the recorded shape of a tensor is its shape, and the constant operand of an operator is read by it alone: what a valid graph has. Slices (fuse_simple_slice_pass) are in C03 and are not lifted to the graph."},
{"property": "C113", "status": "partial", "theorems": ["C113_neg", "C113_div", "C113_div_taken", "C113_sub_number", "C113_sub_number_taken", "C113_rsub_number", "C113_sub_tensors", "C113_sub_alpha_refuted", "C113_rsub_tensors_refuted", "C113_numbers_refuted"], "note": "Proved for negation, division and subtraction by numbers that can be read, c - x, and x - y with the multiplier 1. Refuted: alpha= is lost, __rsub__ of two tensors is turned around, numbers such as 1e-05 raise as a divisor and in c - x. Over the reals: the rounding of x * (1/c) is not covered."},
{"property": "C114", "status": "proved", "theorems": ["C114_stack", "C114_stack_taken"], "note": "Operands of one shape, as torch.stack takes them."},
{"property": "C115", "status": "partial", "theorems": ["C115_clamp", "C115_clamp_min", "C115_infinite_refuted"], "note": "Proved for finite bounds. Refuted for an infinite bound: the generated code does not know its name."},
{"property": "C116", "status": "partial", "theorems": ["C116_leaky_relu", "C116_elu", "C116_glu", "C116_dropout", "C116_leaky_relu_refuted", "C116_leaky_relu_default_refuted", "C116_dropout_refuted"], "note": "Proved for elu, glu, leaky_relu with the slope by position or without arguments, and dropout in the mode its argument names. Refuted for leaky_relu with a keyword and for dropout with training=False in a model in training. prelu and the functions without parameters are not part."},
{"property": "C117", "status": "partial", "theorems": ["C117_max_pool", "C117_avg_pool", "C117_divisor_refuted", "C117_unbatched_refuted", "C117_one_stride_refuted"], "note": "Proved for operands with a batch and a stride per axis (or one for all). Refuted for divisor_override, operands without a batch, and a list of one stride."},
{"property": "C118", "status": "partial", "theorems": ["C118_linear_bn", "C118_batch_norm", "C118_rank_two_refuted"], "note": "Proved for Linear with BatchNorm1d of rank 2 and for BatchNorm1d of rank 3, in training and in evaluation. Refuted for BatchNorm1d of rank 2, which raises."},
{"property": "C119", "status": "proved", "theorems": ["C119_broadcast"], "note": "The shapes are those of operands that torch broadcasts."},
{"property": "C12", "status": "partial", "theorems": ["C12_conv_gather_partial", "C12_gather_conv_partial", "C12_group_refuted", "C12_nobias_raises_refuted", "C12_select_refuted"], "note": "Proved for one group with bias and, in front, for permutations; grouped, bias-less and selecting cases refuted."},
{"property": "C120", "status": "proved", "theorems": ["C120_insert_existing"], "note": "The shared node is called between the two nodes, reads the tensor with the same index, and its readers take its first tensor. Readers called earlier are the refuted case of C105."},
{"property": "C121", "status": "partial", "theorems": ["C121_stubs", "C121_two_results_refuted", "C121_reader_order_refuted"], "note": "Proved for graphs in which a node takes one tensor of another node (perhaps several times), called in the order of their links, with readers of the operators listed in the order of their calls. Refuted for an operator with two results read by one node (raises) and for readers listed in another order (the generated code fails). Which operators have no quantized kernel is an input; the entries of layerwise_config are not part."},
{"property": "C122", "status": "partial", "theorems": ["C122_drop_pairs", "C122_three_stubs_refuted"], "note": "Proved where no stub of a pair reads another stub and every stub reads one tensor and makes one. Refuted for three stubs in a row (raises), as two wrapped blocks make behind an operator without a quantized kernel. That the second stub of a pair gives back what the first was given is a hypothesis on the meaning of the stubs; rounding by fake quantization is not covered."},
{"property": "C123", "status": "partial", "theorems": ["C123_reported_axis_varies", "C123_growing_axis_reported", "C123_filled_axes_reported", "C123_axis_with_equal_sums_refuted"], "note": "A reported axis always varies, and an axis along which the numbers never decrease is reported if it varies. Refuted in general: an axis whose slices have equal sums is not reported (2 x 3 labels viewed as 3 x 2)."},
{"property": "C124", "status": "partial", "theorems": ["C124_no_channel_missed", "C124_no_channel_too_many", "C124_removed_with_its_channels", "C124_sum_refuted", "C124_front_padding_refuted", "C124_pool_then_concatenation_refuted", "C124_two_axes_refuted", "C124_more_axes_refuted"], "note": "Proved for one path from one layer, with the conditions of PruneTrackPathSpec.v on each operator; exact when no operator drops elements. Refuted for sum over axes, for padding channels in front, for a pooling concatenated behind another tensor, for channels on two axes before a linear layer, and for broadcasting to a further axis of size above one. Branches that meet again, batch concatenation and the recurrent layers are not part."},
{"property": "C125", "status": "partial", "theorems": ["C125_split_by_list", "C125_split_by_size", "C125_unread_part_refuted", "C125_two_readers_refuted", "C125_uneven_parts_refuted"], "note": "Proved where every part is read by exactly one node and no node reads two parts, and for one size where all parts lose equally many channels. Refuted for a part that is not read (raises), for a part with two readers, and for one size with uneven removal."},
{"property": "C126", "status": "partial", "theorems": ["C126_removed_exactly_partial", "C126_no_lively_channel_partial", "C126_batch_norm_index_partial", "C126_two_indices_refuted"], "note": "Proved where each batch normalization bears on a channel with at most one index. Refuted otherwise: with cat([x, relu(x)]) the state of the last index stays and a channel with variance is removed."},
{"property": "C127", "status": "partial", "theorems": ["C127_leaf_indices", "C127_multiple", "C127_removed_together_partial", "C127_two_steps_refuted", "C127_multiple_apart_refuted", "C127_whole_multiple_refuted", "C127_unreached_leaf_refuted"], "note": "The leaf indices and the multiple are proved as stated; removal together is proved without a multiple where channels that meet a common channel meet. Refuted: over two steps (a + b, b + c), with a multiple (taken per center), a count that is a whole multiple removes nothing, and a leaf that a removed channel does not reach raises."},
{"property": "C128", "status": "partial", "theorems": ["C128_one_observer_partial", "C128_ends", "C128_others_stay", "C128_shared_operand_refuted", "C128_only_joined_refuted"], "note": "Proved where every concatenation has an observer of its own and no node without observer, read by several nodes, gets both to a concatenation and to another layer that is concatenated. Refuted otherwise: the layer keeps the observer of the later concatenation only. Also refuted: that only observers joined by concatenations become one."},
{"property": "C129", "status": "partial", "theorems": ["C129_plan_exact_partial", "C129_plan_width_partial", "C129_plan_of_network_partial", "C129_plan_below", "C129_estimate_refuted", "C129_width_refuted"], "note": "Proved for numbers of channels that are multiples of the minimum feature size and counts of degree two whose constant part is not a*(n-m)*(n-2m), in particular for every network in which no layer but depthwise convolutions reads and writes the pruned channels. Refuted otherwise: equal quotients are taken for proportional counts, and the plan can miss the target; of a width that is no multiple the first multiple is never tried."},
{"property": "C13", "status": "proved", "theorems": ["C13_cat_split"], "note": "Any axis, any number of operands above ten; termination, one final writer, one to ten operands per operator, operands available."},
{"property": "C130", "status": "proved", "theorems": ["C130_flops_of_smaller_network", "C130_flops_quadratic"], "note": "Layers of the kinds calc_flops knows; grouped convolutions other than depthwise with unpruned inputs for the polynomial."},
{"property": "C131", "status": "partial", "theorems": ["C131_rounds", "C131_plans_keep_target", "C131_plans_accuracy", "C131_given_up_partial", "C131_negative_accuracy_refuted"], "note": "The results of training and validation are given; rates and accuracies are exact rationals. Proved that the rounds end and reduce the operations; that giving up means no subgraph has a plan is proved for accuracies above -1 and refuted for others, e.g. a negated loss."},
{"property": "C132", "status": "partial", "theorems": ["C132_requant_partial", "C132_reshape_refuted", "C132_output_refuted", "C132_single_reader"], "note": "Proved for graphs in which no reshape or transpose reads a requantized result of a fusable operator; values in exact arithmetic (quantize and dequantize operators keep the numbers). Refuted otherwise: the check lets a reshape followed by an equal requantize operator pass, and the reshape then copies codes of the new quantization into a tensor of the old one. Also refuted that the pass ends well: a requantized output of the model beside another reader raises. Element types of tensors are not modelled."},
{"property": "C133", "status": "partial", "theorems": ["C133_inputs_partial", "C133_module_partial", "C133_none_refuted", "C133_symmetric_refuted", "C133_reduced_refuted"], "note": "Proved for affine schemes, integer means inside the range and scales not below the observer's eps, in exact arithmetic; torch's computation of the parameters is written down from its documentation. Refuted otherwise: an input without statistics raises although the check allows it; with a symmetric scheme, or with the kept statistics of log_softmax and a reduced range, the parameters after conversion differ from the given ones. The walk of prepare_quantized_ops_pass that selects the modules is not modelled."},
{"property": "C134", "status": "partial", "theorems": ["C134_range_partial", "C134_weights", "C134_sigmoid_partial", "C134_shared_refuted", "C134_zero_point_refuted", "C134_signed_refuted"], "note": "Proved for ranges from zero and zero points at zero or in the middle, and for sigmoids with a fake quantization of their own; exact arithmetic. Refuted otherwise: another zero point moves the represented numbers, a signed range gets a zero point outside of it, and two sigmoids that share one fake quantization (as made for concatenations) have the scale doubled twice."},
{"property": "C135", "status": "partial", "theorems": ["C135_projection_partial", "C135_best_partial", "C135_l1_refuted", "C135_dual", "C135_autograd", "C135_gradient_factor", "C135_gradient_refuted"], "note": "Proved in exact arithmetic, for any training between updates: the projection for every mask, the best choice of channels for l2_norm and one centre with one leaf and one group, and U as the sum of gaps. Refuted: with l1_norm the choice is not the nearest; and because U is not detached from the weight, autograd multiplies the gradient of the penalty by one more than the number of updates so far. Autograd is modelled as the derivative of the recorded expression; recurrent centres and distributed training are not modelled."},
{"property": "C136", "status": "proved", "theorems": ["C136_learning_rate"], "note": "Exact arithmetic; the float quotient of the code is modelled by the rational one."},
{"property": "C137", "status": "partial", "theorems": ["C137_rounds_partial", "C137_excluded_refuted"], "note": "Proved when excluded subgraphs have sparsity 0. Refuted otherwise: admm_params_update does not look at skip, and calc_prune_idx raises a KeyError for an excluded subgraph whose importance was never computed. Every centre is assumed to have a leaf; the choice of indices itself is covered by C36 and C99."},
{"property": "C138", "status": "partial", "theorems": ["C138_output_transpose_partial", "C138_dequantized_outputs_refuted", "C138_passed_through_refuted"], "note": "Proved for outputs of operators other than DEQUANTIZE, also when other operators read them, several times, and when an output is listed twice. Refuted: with two dequantized outputs, one of them read by an operator, edge indices collected for the end go stale because other edges are deleted at once, and an OUTPUT node loses its edge; an output that is an input or a constant of the graph raises. Missing: a positive statement for dequantized outputs. Permutation attributes are not modelled; Graph.outputs is taken as the list of names."},
{"property": "C139", "status": "partial", "theorems": ["C139_branch_expand_partial", "C139_chain_refuted", "C139_two_outputs_refuted", "C139_constant_refuted"], "note": "Proved for every order of the nodes, any number of readers, readers that use the tensor several times, and a preserved OUTPUT node: values and edges are kept, and no branching operator remains if no copied operator reads one of its own kind. Refuted: a copied reshape that reads a reshape makes that one branch, so one is left after the pass; a tensor that is an output twice raises; so does a branching reshape of a constant in the reshape pass (the transpose pass accepts it). Attribute tensors have no edges in the model."},
{"property": "C14", "status": "partial", "theorems": ["C14_group_conv_partial", "C14_scales_refuted"], "note": "Function kept for all group counts, bias and activation; the per-channel scales are handed over unsplit (refuted)."},
{"property": "C140", "status": "proved", "theorems": ["C140_fuse_activation"], "note": "For every graph, any meaning of the operators and activations, with and without conv_transpose_with_bias. Edge names of OUTPUT nodes are not modelled; UNUSED nodes are OUTPUT nodes; quantization of the tensors is not modelled."},
{"property": "C141", "status": "partial", "theorems": ["C141_fuse_bn_partial", "C141_activation_first_refuted"], "note": "The graph edit; what the folded weights compute is a hypothesis here and C08 elsewhere. Proved when the operators taken over have no activation of their own. Refuted: is_bn_fusable_edge also accepts a convolution that has an activation before a batch norm without one, and the activation then comes after the batch norm. Folded weights and biases are constants without edges in the model."},
{"property": "C142", "status": "partial", "theorems": ["C142_faithful_partial", "C142_emitted_partial", "C142_detach_refuted", "C142_identity_refuted", "C142_nested_refuted"], "note": "Proved when python functions (prim::PythonOp) are not used inside each other, do not return a parameter as it is, and there is no aten::detach; all three are refuted. Operators have one output; lists, tuples, dictionaries and quantized tensors are not modelled; the operators a converter emits for a node are one operator with the meaning of the node (C64, C72 and others prove that for single converters). Strings of names are numbers, prefixed names are pairs."},
{"property": "C143", "status": "partial", "theorems": ["C143_half_partial", "C143_output_refuted"], "note": "Proved when no float32 constant is an output of the graph; otherwise the pass raises, which is refuted. Rounding to float16 and DEQUANTIZE are arguments; the names of the new tensors are unused numbers."},
{"property": "C144", "status": "partial", "theorems": ["C144_layer_report", "C144_graph_report", "C144_restored_partial", "C144_mode_refuted", "C144_base_refuted"], "note": "The contents of both reports are proved in full for metrics with a total order (no NaN). Restoring is proved for FakeQuantize modules and for models whose modules are all in the same mode; a frozen batch norm in a model in training mode, and a FakeQuantizeBase that is no FakeQuantize (FixedQParamsFakeQuantize of torch 1.8 and 1.9), are refuted. What a run of the model calls is an argument that depends on the flags; exceptions are left out."},
{"property": "C145", "status": "partial", "theorems": ["C145_input_transpose_partial", "C145_output_refuted"], "note": "Proved when no transposed tensor is an output of the graph; an input that is an output as well makes an assertion fail, which is refuted. QUANTIZE is assumed to have one input and to commute with transposing (per tensor scales); shapes are left out."},
{"property": "C146", "status": "partial", "theorems": ["C146_round_trip_partial", "C146_refuses", "C146_outputs_refuted", "C146_directory_refuted", "C146_unprepared_refuted"], "note": "Proved when .pt occurs only at the end of the path, numpy has the types, and one flag for all outputs is used only with at most as many outputs as inputs. The other cases are refuted: outputs are lost (the number of inputs is used for them), directories are renamed, and reading without preparing inputs raises. JSON is assumed to keep the dictionary."},
{"property": "C147", "status": "partial", "theorems": ["C147_flags_partial", "C147_inputs_partial", "C147_nested_refuted", "C147_reuse_refuted", "C147_tuple_refuted"], "note": "The flags are proved for nested inputs as well; the arrays for inputs that are tensors. Nested inputs make inputs_for_tflite and the dump of the configuration raise, a list of flags is written to, and a tuple with an open flag raises: these are refuted. Lists nested more than once are left out."},
{"property": "C148", "status": "partial", "theorems": ["C148_unpack_partial", "C148_unused", "C148_nested_refuted", "C148_whole_refuted"], "note": "Unpacking is proved when the items of the lists are tensors of the graph; a list of lists raises, which is refuted. That a split whose items are all unused is left out, as the code comments, is refuted: the continue has no effect."},
{"property": "C149", "status": "proved", "theorems": ["C149_transform", "C149_order_refuted"], "note": "Under the stated conditions: the operators that transform adds compute what the operator did, and each own operator comes after those it reads; that the order is needed is shown by the refuted theorem."},
{"property": "C15", "status": "partial", "theorems": ["C15_group_deconv_partial", "C15_activation_refuted"], "note": "Proved without fused activation; the rewrite drops a fused activation (refuted)."},
{"property": "C150", "status": "partial", "theorems": ["C150_names_partial", "C150_root_refuted", "C150_dash_refuted", "C150_order_refuted", "C150_unique_partial", "C150_unique_refuted"], "note": "Proved for traced modules whose children have identifiers as names and in which numeric names are positions. Refuted: a traced Sequential (names like [0]), a dash in a name at the top, numeric names out of order, and uniqueness of the second kind of name (a.b and a_b)."},
{"property": "C151", "status": "partial", "theorems": ["C151_quantize_io_partial", "C151_codes", "C151_other_fails", "C151_split_refuted", "C151_through_refuted"], "note": "Proved where no changed input is itself an output and the outputs that one node makes are changed together. Refuted otherwise: the pass fails on an input that is an output, and of a node with several outputs (SPLIT) the OUTPUT nodes of the outputs that are not changed are removed as well."},
{"property": "C152", "status": "partial", "theorems": ["C152_groups", "C152_first_once", "C152_order", "C152_search_ends", "C152_chain_partial", "C152_keeps_partial", "C152_branch_refuted", "C152_shared_refuted", "C152_axis_refuted"], "note": "Proved: what is found are pairs of layers connected through scalable nodes only, each once; the search ends; in graphs without branches all pairs are found; equalizing a pair of modules that are used once keeps the outputs where the scaling commutes with the nodes between. Refuted: all pairs are found also with branches; a module used at two nodes may be equalized; a linear layer that reads a convolution directly may be equalized with it."},
{"property": "C153", "status": "partial", "theorems": ["C153_keeps", "C153_clean", "C153_equal_partial", "C153_small_partial", "C153_group_refuted", "C153_dead_channel", "C153_nan_refuted"], "note": "Proved: the outputs are kept for all scales that are numbers; ranges are made equal for convolutions without groups and depthwise convolutions. Refuted: with groups of several channels the ranges of the second layer are taken in another order than the scales are applied, so ranges are not made equal; a channel with only zeros in the first layer gets NaN as scale."},
{"property": "C154", "status": "partial", "theorems": ["C154_keeps_partial", "C154_works", "C154_groups_fail", "C154_padding_refuted", "C154_after_equalization_refuted", "C154_model", "C154_order_refuted"], "note": "Proved for values within three standard deviations and windows without padding. Refuted: at padding the output changes; after equalization, which is how cross_layer_equalize uses it, the remembered batch norms are not scaled with the weights, so the output changes; other groups than one, or depthwise with one output per channel, raise an exception."},
{"property": "C16", "status": "partial", "theorems": ["C16_matmul_add_partial", "C16_activation_refuted"], "note": "Proved when the fully connected operator has no activation; refuted with ReLU."},
{"property": "C17", "status": "partial", "theorems": ["C17_gather", "C17_split", "C17_concatenation", "C17_pad", "C17_mirror_pad", "C17_tile", "C17_slice", "C17_strided_slice", "C17_reduce", "C17_unpack", "C17_pack_partial", "C17_pack_candidates", "C17_pack_refuted", "C17_unused_output_refuted", "C17_binary_partial", "C17_binary_rank_refuted", "C17_prelu_partial", "C17_prelu_refuted", "C17_embedding_refuted"], "note": "Proved for gather (index vector), split, concatenation, pads, tile, slices, reductions and unpack, for every rank, permutation and table. PACK is wrong for a permutation taken from behind the node that moves the packing axis, PRELU for a moved first axis or a per-column weight, GATHER with an index matrix (embedding) for any moved axis; unused UNPACK outputs and a permutation of lower rank raise."},
{"property": "C18", "status": "proved", "theorems": ["C18_schedule", "C18_vertex_order"], "note": "Any edge order igraph may report; acyclic graph whose edge sources are inputs, constants or operators and whose inputs/constants have no in-edges. Includes termination of the stack loop."},
{"property": "C19", "status": "proved", "theorems": ["C19_index_tables", "C19_no_assertion", "C19_duplicate_missing_input_refuted"], "note": "For distinct input names; the refuted theorem shows that an unused input name listed twice would be mis-indexed (the converter's input names are distinct)."},
{"property": "C20", "status": "partial", "theorems": ["C20_int8_version_partial", "C20_int8_weights_version", "C20_version_range", "C20_version_stable", "C20_int8_version_refuted", "C20_missed_rows"], "note": "False for SUB, SPACE_TO_BATCH_ND, BATCH_TO_SPACE_ND: op_version.py 258-279 compares op.op.version instead of op.op.code, so these rows are dead and int8 gets version 1. Proved for every other row."},
{"property": "C21", "status": "partial", "theorems": ["C21_store_8bit_partial", "C21_store_raises", "C21_symmetric_refuted"], "note": "Value and range kept for signed tensors, asymmetric storing, unsigned targets and zero point 128. Missing case is false: symmetric storing of an unsigned tensor replaces the zero point by 128."},
{"property": "C22", "status": "partial", "theorems": ["C22_widen_iff_partial", "C22_widen_value", "C22_signed_partial", "C22_widen_refuted"], "note": "Holds exactly for zero point 128; the exact error for other zero points is given. Signed tensors are left 8 bit."},
{"property": "C23", "status": "proved", "theorems": ["C23_hybrid_weight", "C23_defined", "C23_unsigned"], "note": "Real arithmetic for scales; smallest scale is the float32 epsilon."},
{"property": "C24", "status": "partial", "theorems": ["C24_inputs", "C24_outputs_partial", "C24_repeated_output_refuted"], "note": "Inputs in full; outputs when no output is listed twice. A tensor listed twice changes at positions not selected."},
{"property": "C25", "status": "proved", "theorems": ["C25_edges_merged_maximally"], "note": ""},
{"property": "C26", "status": "proved", "theorems": ["C26_cleanup_safe", "C26_cleanup_complete", "C26_connected_graph_refuted"], "note": "The loop only runs when is_connected('weak') is false; on a connected graph dead operators stay (refuted theorem)."},
{"property": "C27", "status": "partial", "theorems": ["C27_output_names_fresh", "C27_counter_names_distinct", "C27_counter_kinds_distinct", "C27_counter_name_refuted"], "note": "Names made by add_nodes are fresh. Names made by the counting generators are distinct among themselves but are not compared with existing names; a clash ends in the assertion of check_tensor."},
{"property": "C28", "status": "partial", "theorems": ["C28_noop_partial", "C28_negative_pad_refuted", "C28_runtime_index_refuted"], "note": "Identity for all ten operator forms when padding amounts are non-negative and gather indices are constants. The test removes F.pad(x,(-1,1)) and a gather whose run-time index happened to be 0..n-1 while tracing."},
{"property": "C29", "status": "partial", "theorems": ["C29_sharing", "C29_sharing_defined_partial", "C29_optional_tensor_refuted"], "note": "Whenever the pass finishes, operands keep their contents. It raises on graphs with optional tensors (no buffer), e.g. LSTM."},
{"property": "C30", "status": "partial", "theorems": ["C30_boundary_folding_partial", "C30_boundary_names", "C30_boundary_vertices", "C30_boundary_consumer_refuted", "C30_input_count_refuted"], "note": "False when the boundary tensor has another consumer: the input vertex is deleted with its other edges, the dequantize vertex loses its operator; an input read by two quantize operators becomes two inputs. Proved when boundary tensors have boundary consumers only; new names and selection proved without that condition."},
{"property": "C31", "status": "partial", "theorems": ["C31_split_one_partial", "C31_writer_count", "C31_intermediate_writer_count", "C31_one_writer_refuted"], "note": "The list ops is not reset in the loop; with n requantize operators the j-th output and the j-th intermediate tensor get n-j writers."},
{"property": "C32", "status": "proved", "theorems": ["C32_constraints_merged"], "note": "one sentinel set {-1} is dropped first, as in the code"},
{"property": "C33", "status": "proved", "theorems": ["C33_groups_refined"], "note": ""},
{"property": "C34", "status": "proved", "theorems": ["C34_smallest_selected"], "note": "for every total preorder on importances; stable on ties"},
{"property": "C35", "status": "partial", "theorems": ["C35_kept_order_refuted", "C35_kept_set_partial", "C35_concat_order_partial", "C35_flatten_order_partial"], "note": "False as stated: python set order is not ascending when few of many channels are kept. Proved: same set always; same order for at most 8 channels or at least 60% kept."},
{"property": "C36", "status": "partial", "theorems": ["C36_groups_balanced_refuted", "C36_groups_balanced_partial", "C36_group_slices_partial"], "note": "False as stated: groups (3,3) at sparsity 1/2 lose 2 and 1. Proved when a prefix of each group hits the target exactly; slices are right for equal counts."},
{"property": "C37", "status": "partial", "theorems": ["C37_multiple_refuted", "C37_multiple_partial"], "note": "False as stated: lst[:-0] removes nothing when the count is a multiple. Proved otherwise."},
{"property": "C38", "status": "partial", "theorems": ["C38_reshape_size_refuted", "C38_view_size_refuted", "C38_view_size_partial"], "note": "False as stated: reshape writes the removed count; view truncates (49 with 1 removed stays 49). Proved: view is exact or one too large."},
{"property": "C39", "status": "partial", "theorems": ["C39_chain_partial", "C39_flatten_refuted", "C39_groups_refuted", "C39_layer_norm_refuted"], "note": "Chains of conv, depthwise, grouped and transposed conv, linear, batch norm, PReLU, per-channel layers and flatten: shrunk = masked on the kept channels, for balanced groups and ascending stored order in front of grouped layers and flatten. Refuted without these: the kept channels come from a python set and need not be ascending; layer norm also differs. Branching graphs are not covered."},
{"property": "C40", "status": "proved", "theorems": ["C40_prune_groups_connected"], "note": "input centers are among the centers of the modifier (get_input_centers reads the same dictionary)"},
{"property": "C41", "status": "partial", "theorems": ["C41_inside_partial", "C41_border_refuted"], "note": "Exact where the kernel window lies inside the image or the removed constant is zero; refuted on padded borders."},
{"property": "C42", "status": "partial", "theorems": ["C42_gate_rows_partial", "C42_directions_refuted", "C42_directions_partial"], "note": "Gate rows proved for all inputs; direction split false for unbalanced removals, proved for balanced ones."},
{"property": "C43", "status": "proved", "theorems": ["C43_function_kept", "C43_defined", "C43_zero_filter_refuted", "C43_conv_linear_refuted"], "note": "Chains of convolutions or of linear layers, any number of steps. Two counterexamples bound the claim: a filter of zeros in front of weights above the threshold gives nan, and a 1-D convolution directly followed by a linear layer (which acts on the last axis) is equalized as well although that changes the function."},
{"property": "C44", "status": "partial", "theorems": ["C44_balanced_partial", "C44_scaled", "C44_grouped_refuted"], "note": "Proved for one group and for depthwise second layers, ranges within a factor 10^12 (the clamp). Missing because false: with several groups of several channels the scale of a channel is computed from the range of another one (order i*G+g against g*I+i)."},
{"property": "C45", "status": "partial", "theorems": ["C45_absorb_partial", "C45_defined", "C45_grouped_raises", "C45_padding_refuted", "C45_after_equalization_refuted"], "note": "Proved without padding in the second convolution, for dense and depthwise second layers and activations that are the identity on non-negative values. Missing because false: with padding the border changes, other group counts raise, and after equalization the stored batch norm no longer describes the channel."},
{"property": "C46", "status": "partial", "theorems": ["C46_conv_bn_partial", "C46_bn_conv_partial", "C46_deconv_groups_refuted", "C46_bn_depthwise_refuted", "C46_bn_grouped_raises", "C46_bn_padding_refuted"], "note": "Proved for convolution (any groups) and transposed convolution (one group) before the batch norm, and for ungrouped unpadded convolution behind it. Missing because false: transposed with groups, depthwise and grouped behind a batch norm, padding."},
{"property": "C47", "status": "partial", "theorems": ["C47_tflite_rounding_partial", "C47_ties_partial", "C47_disabled_partial", "C47_per_channel_refuted"], "note": "Per-tensor modules. Per channel the scale vector is broadcast along the last axis: it raises or changes the shape."},
{"property": "C48", "status": "partial", "theorems": ["C48_range_partial", "C48_search", "C48_few_bins_refuted"], "note": "Range inclusion for at least 2048 bins (the default); fewer bins raise. Whatever divergences are computed."},
{"property": "C49", "status": "proved", "theorems": ["C49_pack_roundtrip", "C49_odd_rejected", "C49_weight4_error"], "note": "Packing/unpacking without the accelerated kernels; half-precision rounding of the float weight not modelled."},
{"property": "C50", "status": "proved", "theorems": ["C50_compress", "C50_defined"], "note": "Bit widths 1..8 (8 is the storage type); a zero row has scale 0 and an unspecified integer, and still reconstructs to 0. Real arithmetic."},
{"property": "C51", "status": "partial", "theorems": ["C51_dynamic_partial", "C51_bias_value", "C51_bias_refuted", "C51_batch_refuted"], "note": "Inputs of rank 2, or rank 3 with one batch, without bias. With a bias the code multiplies the bias by both scales; several batches raise or give a wrong shape. Path without accelerated kernels."},
{"property": "C52", "status": "partial", "theorems": ["C52_prelu_shared", "C52_prelu_channel", "C52_silu", "C52_glu", "C52_glu_odd_refuted", "C52_hardsigmoid", "C52_layernorm_partial", "C52_rmsnorm_partial", "C52_norm_affine_refuted", "C52_rmsnorm_default_refuted"], "note": "PReLU, SiLU, GLU (even axis) and hard-sigmoid for all inputs; layer norm and RMS norm with weight (and bias) and explicit eps. Refuted: RMS norm with the default eps, norms without parameters, GLU on an odd axis."},
{"property": "C53", "status": "proved", "theorems": ["C53_average", "C53_defined", "C53_last"], "note": "All histories; defined for positive weights."},
{"property": "C54", "status": "partial", "theorems": ["C54_best_partial", "C54_never_partial", "C54_best_refuted"], "note": "Holds when some accuracy exceeds 0; otherwise the run fails or ends with a file of an earlier run."},
{"property": "C55", "status": "proved", "theorems": ["C55_restored_bound", "C55_restored_exact"], "note": "Evaluation mode, per channel, any tensor."},
{"property": "C56", "status": "partial", "theorems": ["C56_positional_partial", "C56_keyword_partial", "C56_keyword_refuted"], "note": "Exact condition under which keyword arguments are right; refuted for lazy keyword arguments."},
{"property": "C57", "status": "proved", "theorems": ["C57_reshape_chain_preserved"], "note": ""},
{"property": "C58", "status": "partial", "theorems": ["C58_static_one_partial", "C58_static_step_partial", "C58_dynamic_start_partial", "C58_dynamic_stop_partial", "C58_dynamic_both_partial", "C58_slice_refuted"], "note": "Right for starts from -d (to d with step 1), every stop and step; refuted for out-of-range starts and a dynamic start traced beyond the stop."},
{"property": "C59", "status": "proved", "theorems": ["C59_bn_lowering"], "note": "Over the reals."},
{"property": "C60", "status": "proved", "theorems": ["C60_same_slicing"], "note": "Over the reals; any spatial rank."},
{"property": "C61", "status": "proved", "theorems": ["C61_lstm_bias", "C61_cell_scale"], "note": "Real arithmetic; the int32 conversion of the bias is taken without overflow."},
{"property": "C62", "status": "partial", "theorems": ["C62_merge", "C62_candidate", "C62_threshold", "C62_range", "C62_expand_partial", "C62_expand_refuted"], "note": "Merging, candidate, threshold and range proved; the expansion keeps the mass when every bin cut by a border is nonzero and is refuted otherwise (the third argument of np.logical_and is its output array). Exact arithmetic; the divergence is an argument."},
{"property": "C63", "status": "partial", "theorems": ["C63_conv_partial", "C63_conv3d_refuted"], "note": "Proved for one and two spatial dimensions with any groups and for three without groups; with one channel on both sides the 3-D conversion stops with an assertion (refuted). Grouped 3-D convolutions have no TFLite kernel and are not covered."},
{"property": "C64", "status": "proved", "theorems": ["C64_transpose_conv", "C64_dilated"], "note": "As stated: without groups (a warning of the code says they are not supported) and MTK operators. Dilated in three dimensions; in one or two dimensions every dilated one is rejected (C64_dilated). An activation is fused only when the operator holds the bias, which is what fuse_activation guarantees."},
{"property": "C65", "status": "partial", "theorems": ["C65_max_pool2d_partial", "C65_even_kernel_refuted", "C65_ceil_padding_refuted", "C65_max_pool1d_partial", "C65_max_pool1d_refuted"], "note": "The full statement is false: even kernels with stride 1 and half padding lose a row and a column, ceil mode with padding can get an additional window, and padded 1-D pooling pads the channels. Proved in all other cases; ceil mode in 1-D is not covered."},
{"property": "C66", "status": "partial", "theorems": ["C66_avg_pool2d_partial", "C66_ceil", "C66_divisor_rejected", "C66_divisor_refuted", "C66_avg_pool1d_partial", "C66_avg_pool1d_refuted"], "note": "The full statement is false: an own divisor is ignored when accepted (only if it equals both sides of the kernel) and padded 1-D pooling pads the channels. Proved otherwise for 2-D; 1-D without padding."},
{"property": "C67", "status": "proved", "theorems": ["C67_adaptive_avg2d", "C67_adaptive_max2d", "C67_adaptive_avg1d", "C67_adaptive_max1d", "C67_rejects"], "note": "Rejection is stated for 2-D."},
{"property": "C68", "status": "proved", "theorems": ["C68_roll", "C68_recorded_sizes_refuted", "C68_flip"], "note": "Values are right; the arrays recorded for the two parts of a roll have each other's sizes (refuted theorem)."},
{"property": "C69", "status": "proved", "theorems": ["C69_pixel_shuffle", "C69_pixel_unshuffle"], "note": "Rank 4."},
{"property": "C70", "status": "partial", "theorems": ["C70_unfold_partial", "C70_unfold_refuted", "C70_fold"], "note": "Unfold is wrong when the paddings of the two axes differ (the rows of the padding are flipped). Fold of batches proved; unbatched fold not modelled; index arithmetic in float32 taken as exact."},
{"property": "C71", "status": "proved", "theorems": ["C71_expand", "C71_repeat", "C71_repeat_interleave", "C71_repeat_interleave_flat"], "note": "repeat_interleave of a scalar without axis is excluded."},
{"property": "C72", "status": "proved", "theorems": ["C72_chunk", "C72_stack", "C72_glu", "C72_glu_odd"], "note": "Empty axes are excluded for chunk (the code divides by zero there)."},
{"property": "C73", "status": "proved", "theorems": ["C73_reduce", "C73_along"], "note": "Float operands; scalar results are recorded with shape [1]."},
{"property": "C74", "status": "partial", "theorems": ["C74_var_std_partial", "C74_var_empty_refuted", "C74_norm", "C74_norm_recorded_refuted"], "note": "var and std with an empty list of axes are wrong (torch reduces all axes, the lowering none). The recorded shape of a norm that keeps all axes is wrong."},
{"property": "C75", "status": "partial", "theorems": ["C75_layer_norm", "C75_instance_norm_partial", "C75_instance_norm_refuted", "C75_group_norm_partial", "C75_weight_only_refuted"], "note": "Instance norm in training mode with running statistics uses the wrong statistics; a weight without a bias is dropped. Both are refuted."},
{"property": "C76", "status": "partial", "theorems": ["C76_index_partial", "C76_index_broadcast_refuted", "C76_index_negative_refuted", "C76_index_dynamic_refuted", "C76_index_at", "C76_index_select"], "note": "Several index tensors: proved when each shape is a tail of the common shape up to leading ones, values are nonnegative and run-time indices have rank 1; each of the missing cases is refuted by a witness. One index tensor and index_select: proved in full."},
{"property": "C77", "status": "partial", "theorems": ["C77_gather", "C77_scatter_partial", "C77_scatter_refuted"], "note": "gather proved in full, for an index seen during conversion that differs from the one at run time. scatter proved when targets are distinct; with equal targets TFLite adds up, refuted."},
{"property": "C78", "status": "partial", "theorems": ["C78_index_put_partial", "C78_duplicate_refuted", "C78_constant_refuted", "C78_rank2_refuted"], "note": "Proved for values of rank at most 1 that are not constant and distinct targets. Equal targets, constant values and values of rank 2 are refuted."},
{"property": "C79", "status": "partial", "theorems": ["C79_constant_pad_partial", "C79_pad_partial", "C79_reflect", "C79_reflection_pad2d_partial", "C79_reflection_pad1d_partial", "C79_crop_refuted", "C79_integer_refuted", "C79_unbatched_refuted"], "note": "Proved for amounts that are not negative and, for a fill value other than zero, float operands; reflection on operands with a batch axis. Each missing case is refuted: no valid model comes out."},
{"property": "C80", "status": "partial", "theorems": ["C80_nearest_size", "C80_nearest_scale_partial", "C80_nearest_scale_refuted"], "note": "Proved when the size is given and when factor times extent is an integer; for other factors refuted (PyTorch uses the factor, TFLite the quotient of the sizes)."},
{"property": "C81", "status": "partial", "theorems": ["C81_bilinear_size", "C81_bilinear_scale_aligned", "C81_bilinear_scale_partial", "C81_bilinear_scale_refuted"], "note": "Proved when the size is given, with aligned corners, and when factor times extent is an integer; otherwise refuted."},
{"property": "C82", "status": "partial", "theorems": ["C82_tensors_partial", "C82_scalar_partial", "C82_compare_fraction_refuted", "C82_multiply_fraction_refuted", "C82_divide_integers_refuted", "C82_floor_divide_partial", "C82_floor_divide_float_refuted"], "note": "Proved for all operand types after promotion except division of integers, and for scalars of the kind of the tensor; floor_divide for integers. The missing cases are refuted."},
{"property": "C83", "status": "partial", "theorems": ["C83_clamp_partial", "C83_clamp_integer_refuted", "C83_clamp_quantized", "C83_hardtanh_partial", "C83_hardtanh_quantized_refuted"], "note": "clamp proved for floats, integers (outside the RELU patterns, refuted there) and quantized tensors; hardtanh proved for floats, refuted on quantized tensors."},
{"property": "C84", "status": "partial", "theorems": ["C84_softplus_partial", "C84_softplus_refuted", "C84_mish", "C84_hardsigmoid", "C84_gelu_refuted"], "note": "mish and hardsigmoid proved over the reals; softplus below the threshold exactly, above it with a bound; gelu refuted: the flag is inverted."},
{"property": "C85", "status": "partial", "theorems": ["C85_prelu_partial", "C85_store_refuted", "C85_runtime_refuted"], "note": "Proved for a slope per channel and for one constant slope; refuted for one slope used at two ranks and for one computed slope."},
{"property": "C86", "status": "partial", "theorems": ["C86_tensor_partial", "C86_constant_partial", "C86_scalar_partial", "C86_shape", "C86_infinite_operand_refuted", "C86_infinite_value_refuted"], "note": "Proved in IEEE binary32 for finite operands (up to the sign of zero); refuted with an infinity in the operand or in a tensor of values."},
{"property": "C87", "status": "proved", "theorems": ["C87_scalar"], "note": "Scale, zero point and stored integer stand for the scalar exactly, over the reals."},
{"property": "C88", "status": "partial", "theorems": ["C88_matmul_partial", "C88_vector_refuted", "C88_linear_partial"], "note": "Proved for operands with two to five axes; refuted for vectors (nothing is emitted)."},
{"property": "C89", "status": "partial", "theorems": ["C89_addmm_partial", "C89_baddbmm_partial", "C89_addbmm_partial", "C89_alpha_refuted", "C89_beta_refuted", "C89_column_refuted", "C89_matrix_refuted"], "note": "Proved for alpha = beta = 1 and, for addmm, a row as addend; other factors and addends are refuted."},
{"property": "C90", "status": "proved", "theorems": ["C90_softmax", "C90_log_softmax"], "note": "Any rank and axis, over the reals."},
{"property": "C91", "status": "partial", "theorems": ["C91_permute_partial", "C91_permute_refuted", "C91_transpose", "C91_select", "C91_unbind", "C91_embedding"], "note": "permute with negative positions is refuted (TFLite refuses the permutation); the rest is proved."},
{"property": "C92", "status": "partial", "theorems": ["C92_lstm_unrolled", "C92_recorded_state_refuted", "C92_separated_refuted", "C92_state_outputs_refuted"], "note": "Proved for all layers, directions, biases and layouts with the state of the graph or, when it was recorded, zero; a recorded non-zero state, separated gates with a zero cell state beside a given hidden state, and the final states after a recorded start are refuted."},
{"property": "C93", "status": "partial", "theorems": ["C93_lstm_sequence", "C93_second_run_refuted", "C93_given_state_refuted"], "note": "Proved for one invocation from any content of the variables; a second invocation and a state given by the graph are refuted."},
{"property": "C94", "status": "partial", "theorems": ["C94_gru", "C94_recorded_state_refuted", "C94_state_output_refuted"], "note": "As C92."},
{"property": "C95", "status": "proved", "theorems": ["C95_down", "C95_up", "C95_defined"], "note": "Both directions, groups of several axes on both sides included."},
{"property": "C96", "status": "partial", "theorems": ["C96_gather", "C96_split", "C96_pad", "C96_mirror_pad", "C96_slice", "C96_strided_slice", "C96_tile", "C96_concatenation", "C96_reduce", "C96_unary", "C96_binary_partial", "C96_binary_refuted", "C96_binary_raises_refuted", "C96_prelu_partial", "C96_prelu_refuted", "C96_prelu_vector_refuted", "C96_unpack_partial", "C96_unpack_refuted", "C96_pack_partial", "C96_pack_refuted", "C96_embedding_refuted", "C96_pad_refuted", "C96_reduce_refuted", "C96_selection", "C96_selection_refuted"], "note": "Proved for one-axis nodes, concatenations, reductions, unary operators, and in part for broadcasting operators, PRELU, PACK and UNPACK. Refuted: broadcasting operands that do not have the shape of the result, PRELU whose axis becomes the first, PACK/UNPACK without a paired neighbour, embeddings, nodes on several axes, and shapes chosen from different reshapes."},
{"property": "C97", "status": "partial", "theorems": ["C97_output", "C97_final_state_partial", "C97_bidirectional_state_refuted"], "note": "Outputs proved for any layers and directions; the final state for one direction only. Refuted: with two directions the final state keeps only the first sample of the batch and has another shape."},
{"property": "C98", "status": "partial", "theorems": ["C98_transform_partial", "C98_exact_partial", "C98_groups_refuted", "C98_zero_weight_refuted", "C98_frozen", "C98_mode_partial", "C98_mode_refuted"], "note": "Proved for one group and batch norms without zero weights. Refuted: several groups raise, a zero bn.weight divides by zero, update_bn_stats in evaluation mode switches the batch norm to batch statistics."},
{"property": "C99", "status": "partial", "theorems": ["C99_constraints_sound", "C99_consistent_partial", "C99_order_refuted", "C99_aggregation_refuted"], "note": "Consistency proved for networks whose channels fall into labelled classes, with every center joined to an earlier one. Refuted: centers met before any leaf joins them, and ties added by a late leaf. Not covered: concatenation and splitting, centers of different widths, runs that raise; calc_prune_idx_by_bn_variance is the subject of C126 and C127."}
]}
