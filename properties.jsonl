{"id": "C01", "title": "Collapsing a chain of transposes keeps the tensor", "statement": "When the converter replaces a chain of transpose operators by one transpose (or by nothing), the tensor produced at the end of the chain has the same shape and the same element at every index as the original chain, for every input tensor.", "quantifier": "every rank, every shape, every chain length, every list of permutations, every element value", "why_tests_cant": "Permutation chains grow factorially with rank and length; a test fixes a few, and a wrong composition order is invisible on self-inverse permutations, which are the common ones.", "anchors": ["tinynn/converter/operators/optimize.py: fuse_transpose_perms, fuse_simple_transpose_pass, _fuse..."]}
{"id": "C02", "title": "Collapsing a chain of gathers keeps the tensor", "statement": "When the converter replaces a chain of gathers on one axis by a single gather, or removes the chain altogether, the produced tensor is unchanged for every input tensor.", "quantifier": "every axis size, every list of in-range index vectors, every chain length", "why_tests_cant": "The removal decision depends on the values of constant indices; only a value pattern not present in the tests makes the removal wrong.", "anchors": ["tinynn/converter/operators/optimize.py: fuse_simple_gather_pass, is_gather_same_dim_edge, fuse_transpose_perms"]}
{"id": "C03", "title": "Collapsing a chain of slices keeps the tensor", "statement": "When the converter replaces a chain of slice / strided-slice operators with constant arguments by a single one, the produced tensor has the same shape and elements as the chain.", "quantifier": "every rank, every chain length, all non-negative starts, ends and positive strides valid for their inputs", "why_tests_cant": "The composition of starts, ends and strides has boundary cases (last partial stride, end beyond previous end) that cannot be enumerated.", "anchors": ["tinynn/converter/operators/optimize.py: fuse_slices, fuse_slices_pass"]}
{"id": "C04", "title": "A reshape is called simple exactly when it only moves unit dimensions", "statement": "The converter classifies a reshape as simple exactly when both shapes have the same non-unit sizes in the same order; the dimension mapping it returns then relates equal sizes, is strictly increasing and covers every non-unit dimension, so moving an operator across the reshape addresses the same axis.", "quantifier": "every pair of shapes of any rank", "why_tests_cant": "The greedy two-pointer scan has many interleavings of unit dimensions; tests cover a handful.", "anchors": ["tinynn/converter/operators/optimize.py: is_simple_reshape"]}
{"id": "C05", "title": "Axis groups of a general reshape partition both shapes with equal products", "statement": "For any two shapes with the same number of elements the converter's axis grouping returns groups that partition both lists of axes in order, with equal products in corresponding groups; it never fails on such shapes.", "quantifier": "every pair of non-empty shapes of positive sizes with equal products", "why_tests_cant": "The scan keeps running products and flushes groups at boundaries; failure shows only for particular factorizations or trailing unit dimensions.", "anchors": ["tinynn/converter/operators/optimize.py: reshape_mapping"]}
{"id": "C06", "title": "Lowering the rank of a transpose keeps the tensor", "statement": "When a transpose of rank above the target limit is rewritten as reshape-transpose-reshape with fewer dimensions, the produced tensor equals the original transpose for every input.", "quantifier": "every shape, every permutation", "why_tests_cant": "The rewrite merges axes by adjacency in the permutation; self-inverse permutations hide a confusion between a permutation and its inverse.", "anchors": ["tinynn/converter/operators/optimize.py: lower_transpose_dim_pass"]}
{"id": "C07", "title": "Folding an explicit zero pad into SAME padding keeps the operator's output", "statement": "When the converter removes a pad operator in front of a convolution or pooling and sets SAME padding, every output element stays the same.", "quantifier": "every input size, kernel size, stride, dilation, and every input value (also negative)", "why_tests_cant": "Off-by-one and asymmetric-padding cases depend on size mod stride, and max pooling differs only for negative border values.", "anchors": ["tinynn/converter/operators/optimize.py: fuse_same_padding, is_padding_fusable_edge, get_same_padding_args"]}
{"id": "C08", "title": "Folding batch norm that follows a convolution or linear layer keeps the function", "statement": "Folding batch-norm statistics into the preceding layer's weights and bias, including when an activation follows or is already fused, yields the same real-valued output for every input.", "quantifier": "every weight, bias, input, statistics with positive variance+eps, and every activation setting that the fusion accepts", "why_tests_cant": "Equality of real functions for all weights and inputs cannot be sampled; the order of activation and normalization matters only on some sign patterns.", "anchors": ["tinynn/converter/operators/optimize.py: fuse_conv_fc_bn, fuse_bn_weight, fuse_bn_bias, is_bn_fusable_edge"]}
{"id": "C09", "title": "Folding batch norm that precedes a convolution keeps the function", "statement": "When the converter folds a batch norm into the convolution that consumes it, every output element, including the border ones, is unchanged.", "quantifier": "every kernel, padding, statistics, and input", "why_tests_cant": "Without padding the fold is right everywhere, with padding it is wrong only on border pixels and only if the shift is non-zero.", "anchors": ["tinynn/converter/operators/optimize.py: fuse_bn_conv, is_rev_bn_fusable_edge, fuse_rev_bn_weight, fuse_rev_bn_bias"]}
{"id": "C10", "title": "Rewriting a division that involves a square root keeps the quotient", "statement": "When the converter rewrites a square root connected to a division as a reciprocal square root and a multiplication, the result equals the original quotient.", "quantifier": "all positive operands, both operand positions", "why_tests_cant": "Tests use the common 1/sqrt or x/sqrt form; the operand position is a structural condition.", "anchors": ["tinynn/converter/operators/optimize.py: fuse_reciprocal_sqrt, is_reciprocal_sqrt_edge"]}
{"id": "C11", "title": "Dropping a tile in front of a broadcasting operator keeps the result", "statement": "When the converter removes a tile whose output feeds a binary elementwise operator, the operator's output has the same shape and elements.", "quantifier": "all shapes and repetition counts, both operand positions, all element values", "why_tests_cant": "Correctness depends on the interplay of implicit broadcasting with repetition along several axes.", "anchors": ["tinynn/converter/operators/optimize.py: remove_tile_before_binary_elementwise_ops"]}
{"id": "C12", "title": "Folding channel gathers into convolution weights keeps the function", "statement": "Folding a channel gather that follows a convolution into its filters, or a channel gather that precedes a convolution into its input weights, gives the same output for every input.", "quantifier": "every channel count, every constant index vector accepted by the rewrite, all weights and inputs", "why_tests_cant": "For permutations the rewrite is right, for repeated or selecting indices it may be wrong; tests shuffle channels.", "anchors": ["tinynn/converter/operators/optimize.py: fuse_conv2d_gather, fuse_gather_conv2d, is_conv2d_gather_edge, is_gather_conv2d_edge"]}
{"id": "C13", "title": "Splitting a wide concatenation keeps the result and respects the limit", "statement": "Rewriting a concatenation of many inputs as a tree gives the same concatenation, terminates, and every concatenation in the result has at most ten inputs.", "quantifier": "every number of inputs above the limit, all tensor contents", "why_tests_cant": "The tree depth depends on the input count; a test checks one or two counts.", "anchors": ["tinynn/converter/operators/optimize.py: cat_split_pass"]}
{"id": "C14", "title": "Rewriting a grouped convolution as split, per-group convolutions and concat keeps the function", "statement": "The rewritten graph computes exactly the grouped convolution, including bias and fused activation, and each per-group weight keeps the quantization scales of its own channels.", "quantifier": "every group count dividing the channels, all weights, inputs, scales", "why_tests_cant": "Value equality for all weights and group counts cannot be sampled; per-channel scales only matter for quantized models.", "anchors": ["tinynn/converter/operators/optimize.py: group_conv_rewrite_pass"]}
{"id": "C15", "title": "Rewriting a grouped transposed convolution keeps the function", "statement": "The rewritten graph computes exactly the grouped transposed convolution including its fused activation.", "quantifier": "every group count, all weights, inputs, activation settings", "why_tests_cant": "The activation only shows on negative outputs of a configuration that combines several options.", "anchors": ["tinynn/converter/operators/optimize.py: group_deconv_rewrite_pass, fuse_activation"]}
{"id": "C16", "title": "Folding an addition into a fully connected layer keeps the function", "statement": "When the converter folds 'fully connected, then add a constant' into the layer's bias, the output is unchanged, whatever activation the layer already applies.", "quantifier": "all weights, inputs, constants and activation settings accepted by the rewrite", "why_tests_cant": "A wrong order of activation and addition shows only for negative pre-activations.", "anchors": ["tinynn/converter/operators/optimize.py: fuse_bmm_add_pass, is_bmm_add_edge, fuse_activation"]}
{"id": "C17", "title": "Moving a transpose across an axis-carrying operator keeps the result", "statement": "When the converter moves a transpose from before to after an operator that refers to axes (concatenation, split, softmax-like reduction, pad, slice, pack, unpack, gather), the rewritten axis arguments make the final tensor identical.", "quantifier": "every rank, permutation, axis, padding table, slice table and tensor", "why_tests_cant": "An axis mapped with the inverse instead of the permutation is invisible for self-inverse permutations.", "anchors": ["tinynn/converter/operators/optimize.py: elementwise_op_transpose_passthrough_pass"]}
{"id": "C18", "title": "Operators are emitted in an executable order and none is lost", "statement": "The operator list written to the model contains every operator exactly once and each operator appears after the producers of its inputs.", "quantifier": "every acyclic graph built by the converter, with any constants, inputs and fan-out", "why_tests_cant": "A scheduling bug shows only for particular graph shapes and stack orders.", "anchors": ["tinynn/converter/operators/graph.py: topological_sort, collect_operators"]}
{"id": "C19", "title": "Tensor and buffer indices written to the model are consistent", "statement": "After collection every tensor used by the graph has its own index equal to its position in the tensor table, every constant's buffer index is its position in the buffer table, buffer 0 is empty and shared by non-constant tensors, and input/output index lists name the requested tensors in order.", "quantifier": "every set of tensors, in every iteration order of the internal set, every list of distinct input names, every output list (repetitions allowed)", "why_tests_cant": "The table order follows hash-set iteration; tests see one order per run.", "anchors": ["tinynn/converter/operators/graph.py: collect_tensor_buffers"]}
{"id": "C20", "title": "Every operator gets the version its data types require", "statement": "The version assigned to an operator matches the version table the code documents for its operator code; in particular signed 8-bit operands never get version 1 for operators whose int8 kernels start at version 2.", "quantifier": "every operator code, every operand data type and rank, any prior version value", "why_tests_cant": "The table has dozens of rows; an unreachable row fails only for that operator and type.", "anchors": ["tinynn/converter/operators/op_version.py: OPVersioner.process_op"]}
{"id": "C21", "title": "Re-encoding quantized tensors between signed and unsigned 8 bit keeps real values", "statement": "Converting a quantized tensor to the target integer type keeps scale*(q - zero_point) for every element, and never leaves the target range.", "quantifier": "every stored byte, every zero point, every scale", "why_tests_cant": "Needs all values and zero points, including wrap-around ones.", "anchors": ["tinynn/converter/operators/tflite/base.py: Tensor.__init__"]}
{"id": "C22", "title": "Re-encoding quantized tensors as 16 bit keeps real values", "statement": "Converting a quantized 8-bit tensor to 16 bit keeps scale*(q - zero_point) for every element.", "quantifier": "every stored byte, every zero point, every scale", "why_tests_cant": "Wrong only for zero points other than the midpoint.", "anchors": ["tinynn/converter/operators/tflite/base.py: Tensor.__init__"]}
{"id": "C23", "title": "Weight quantization of the hybrid quantizer has bounded error", "statement": "Symmetric weight quantization (per tensor and per channel) maps every weight into [-127,127], keeps zero exact, and reconstructs every weight within half a scale step.", "quantifier": "every non-empty weight tensor, every channel axis", "why_tests_cant": "A bound over all real weights, including all-zero and extreme ones.", "anchors": ["tinynn/converter/operators/hybrid_quantizer.py: quantize"]}
{"id": "C24", "title": "Changing the quantized type of model inputs or outputs keeps real values", "statement": "Overriding the quantized input/output type between signed and unsigned 8 bit gives boundary tensors that denote the same real numbers.", "quantifier": "every byte, scale, zero point, direction", "why_tests_cant": "Needs all bytes and zero points.", "anchors": ["tinynn/converter/operators/optimize.py: quantize_input_output_type_pass"]}
{"id": "C25", "title": "Merging fusable edges yields the maximal chains and terminates", "statement": "Given fusable operator pairs that form disjoint simple paths, the merged sequences are exactly the maximal paths, every pair is used once, and the merging terminates.", "quantifier": "every set of disjoint paths of any length, in any order of the pairs", "why_tests_cant": "The merge loop drops and keeps partial sequences in an order-dependent way.", "anchors": ["tinynn/converter/operators/optimize.py: fuse_connected_edges"]}
{"id": "C26", "title": "Dead-operator cleanup removes only operators that no output needs", "statement": "Cleaning up never removes a model input, a model output, or any node from which an output can be reached; when the cleaning loop runs (the graph is not weakly connected) every remaining operator and constant reaches an output.", "quantifier": "every acyclic operator graph", "why_tests_cant": "Reachability over arbitrary graphs.", "anchors": ["tinynn/converter/operators/optimize.py: cleanup_dead_nodes", "tinynn/converter/operators/graph.py"]}
{"id": "C27", "title": "Names generated for split tensors are fresh", "statement": "Whenever the converter invents a tensor name, the name differs from every name in use, and the search for it terminates.", "quantifier": "every set of existing names", "why_tests_cant": "Depends on adversarial existing names.", "anchors": ["tinynn/converter/operators/graph.py: add_nodes"]}
{"id": "C28", "title": "Operators removed as no-ops are no-ops", "statement": "An operator removed because it does not change its input (transpose, reshape, slice, pad, tile, gather, concat and cast) is the identity on every input tensor.", "quantifier": "every accepted operator instance and every tensor", "why_tests_cant": "The test is on shapes and arguments; equality is about all elements.", "anchors": ["tinynn/converter/operators/optimize.py: is_ending_with_noop_edge"]}
{"id": "C29", "title": "Sharing equal constants changes no operand", "statement": "After merging equal constant tensors every operator still reads a constant with identical bytes, type, shape and quantization.", "quantifier": "every graph and every list of constants", "why_tests_cant": "Depends on hash/equality keys for arbitrary contents.", "anchors": ["tinynn/converter/operators/optimize.py: group_tensors_pass"]}
{"id": "C30", "title": "Folding boundary quantize/dequantize operators keeps every consumer", "statement": "When a quantize operator behind a model input (or a dequantize in front of an output) is folded into the boundary, every other operator that read the same tensor still has its producer.", "quantifier": "every fan-out of the boundary tensor", "why_tests_cant": "Needs a graph where the boundary tensor has several consumers.", "anchors": ["tinynn/converter/operators/optimize.py: fuse_quant_dequant_nodes"]}
{"id": "C31", "title": "Every tensor has one writer after splitting requantize operators", "statement": "After splitting requantize operators, each tensor is produced by exactly one operator of the graph.", "quantifier": "every number of requantize operators in the graph", "why_tests_cant": "Shows only with at least two such operators, and the result still runs.", "anchors": ["tinynn/converter/operators/optimize.py: split_requantize"]}
{"id": "C32", "title": "Channel constraints are merged into connected components", "statement": "Merging channel constraints returns disjoint sets with the same union; two indices end in one set exactly when they are linked by a chain of overlapping constraints.", "quantifier": "every list of finite index sets, in any iteration order", "why_tests_cant": "Transitive overlaps over arbitrary sets; the code redirects indices lazily.", "anchors": ["tinynn/graph/modifier.py: merge_constraint"]}
{"id": "C33", "title": "Channel groups are refined to their common refinement", "statement": "Merging channel groups returns pairwise disjoint sets with the same union such that every input group is a union of output groups; the loop terminates.", "quantifier": "every list of finite index sets", "why_tests_cant": "Arbitrary overlaps; the loop rewrites its own work list.", "anchors": ["tinynn/graph/modifier.py: merge_group"]}
{"id": "C34", "title": "The pruner selects the least important channels", "statement": "Selecting k channels returns min(k,n) distinct in-range indices in ascending order shifted by the offset, and no selected channel is more important than an unselected one.", "quantifier": "every importance list (with ties), every k and offset", "why_tests_cant": "Ties and k beyond the length.", "anchors": ["tinynn/graph/modifier.py: get_smallest_k"]}
{"id": "C35", "title": "Kept channels have the same order in producer and consumer", "statement": "After pruning, the order in which a layer's kept output channels are stored agrees with the order in which its consumer's kept input channels are stored, also when the consumer sees them through concatenation or flattening.", "quantifier": "every channel count, every set of removed channels", "why_tests_cant": "The order comes from hash-set iteration and is ascending for small tables only.", "anchors": ["tinynn/graph/modifier.py: complementary_list, ConvChannelModifier.modify_output, LinearChannelModifier.modify_input"]}
{"id": "C36", "title": "Grouped layers lose the same number of channels in every group", "statement": "Pruning a layer whose channels come in equal groups (grouped convolution, bidirectional recurrent layer) removes the same number of channels from every group, so the per-group slicing of weights addresses the right channels.", "quantifier": "every group size, group count, importance and sparsity", "why_tests_cant": "Depends on rounding carried from one group to the next; tests use sizes divisible by the sparsity.", "anchors": ["tinynn/graph/modifier.py: calc_prune_idx_by_center_importance, split_indices_with_directions, ConvChannelModifier.modify_input"]}
{"id": "C37", "title": "The 'multiple' option keeps the largest admissible number of removable channels", "statement": "With the option 'multiple = m', the pruner removes the largest multiple of m not exceeding the number of removable channels.", "quantifier": "every number of removable channels and every m > 0", "why_tests_cant": "Fails only when the count is already a multiple.", "anchors": ["tinynn/graph/modifier.py: calc_prune_idx_by_bn_variance"]}
{"id": "C38", "title": "Constant sizes in reshape and view calls follow pruning", "statement": "After pruning, the constant size in a reshape or view call equals the number of kept channels at that position.", "quantifier": "every size, every number of removed channels", "why_tests_cant": "At 50% the kept and removed counts coincide; floating-point truncation shows only for particular sizes.", "anchors": ["tinynn/graph/modifier.py: ReshapeModifier.apply_mask"]}
{"id": "C39", "title": "Shrinking a pruned network computes the same as masking it", "statement": "For a chain of layers the physically shrunk network gives, on the kept channels, the same output as the network with the removed channels masked to zero.", "quantifier": "all weights, inputs, removed sets; conv, grouped conv, depthwise conv, linear", "why_tests_cant": "Equality for all weights and inputs.", "anchors": ["tinynn/graph/modifier.py: ConvChannelModifier, LinearChannelModifier, NormChannelModifier", "tinynn/graph/masker.py"]}
{"id": "C40", "title": "Layers are divided into prune groups by connectivity", "statement": "Two pruned layers end in the same prune group exactly when a chain of shared consumers connects them, and every consumer with several pruned inputs has all of them in one group; the merging terminates.", "quantifier": "every consumer relation, any order", "why_tests_cant": "Redirect chains of merged groups over arbitrary graphs.", "anchors": ["tinynn/graph/modifier.py: SubGraphDivider.divide_subgraph"]}
{"id": "C41", "title": "Batch-norm compensation keeps the network output", "statement": "With compensation on, removing a channel whose batch norm outputs a constant leaves the next convolution's output unchanged.", "quantifier": "all weights, inputs, kernel sizes, paddings, activations", "why_tests_cant": "Exact inside the image, wrong on padded borders.", "anchors": ["tinynn/graph/modifier.py: NormChannelModifier.modify_input"]}
{"id": "C42", "title": "Recurrent pruning removes the same hidden unit from every gate and direction", "statement": "The row indices removed from the stacked gate matrices are exactly the rows of the removed hidden units in every gate, and for bidirectional layers each direction loses its own units.", "quantifier": "every hidden size, gate count, set of removed units", "why_tests_cant": "Index arithmetic over all sizes.", "anchors": ["tinynn/graph/modifier.py: RNNChannelModifier.tile_indices_with_gate_size, split_indices_with_directions"]}
{"id": "C43", "title": "Cross-layer equalization keeps the function", "statement": "Rescaling a pair of layers (also grouped) with a positively homogeneous activation in between leaves the network function unchanged.", "quantifier": "all weights, biases, inputs, group counts, thresholds", "why_tests_cant": "Equality of real functions; degenerate channels give undefined scales.", "anchors": ["tinynn/graph/quantization/algorithm/cross_layer_equalization.py: equalize, _weight_equal_helper"]}
{"id": "C44", "title": "Cross-layer equalization equalizes the channel ranges", "statement": "After one pass, for every channel above the threshold the largest weight of the producer's filter equals the largest weight of the consumer's corresponding input channel.", "quantifier": "all weights with non-zero ranges, all group counts", "why_tests_cant": "Holds without groups; a channel mix-up shows only with groups of more than one channel.", "anchors": ["tinynn/graph/quantization/algorithm/cross_layer_equalization.py: equalize, _weight_equal_helper"]}
{"id": "C45", "title": "High-bias absorption keeps the function where its three-sigma assumption holds", "statement": "If every pre-activation is at least the absorbed constant, absorbing it into the next layer's bias leaves the output unchanged.", "quantifier": "all weights, biases, inputs satisfying the assumption", "why_tests_cant": "Equality of real functions; depends on padding.", "anchors": ["tinynn/graph/quantization/algorithm/cross_layer_equalization.py: bias_absorb_helper_"]}
{"id": "C46", "title": "Batch-norm folding in quantization preparation keeps function and weight shape", "statement": "Folding batch norm into a convolution (either order, normal, transposed, depthwise) gives weights of the original shape and the same real function (without padding for the reverse order).", "quantifier": "all weights, statistics, inputs, channel counts", "why_tests_cant": "Broadcasting a scale along the wrong axis is silent.", "anchors": ["tinynn/graph/quantization/utils.py: fuse_conv_bn_weights, fuse_bn_conv_weights"]}
{"id": "C47", "title": "Fake quantization rounds like the deployed runtime", "statement": "The nudge applied before fake quantization makes exact ties round away from zero, as the runtime does, and changes no value whose distance to a tie exceeds the nudge.", "quantifier": "all real inputs, scales, zero points", "why_tests_cant": "Ties form a measure-zero set.", "anchors": ["tinynn/graph/quantization/fake_quantize.py: FakeQuantizeTFLite.forward"]}
{"id": "C48", "title": "KL calibration keeps the clipping range inside the observed range", "statement": "The calibrated range lies within the observed range and spans at least 128 histogram bins, for every histogram and whatever divergences (also infinite or undefined) are computed.", "quantifier": "every histogram and every outcome of the divergence computation", "why_tests_cant": "Divergence comparisons with infinities and NaN depend on data.", "anchors": ["tinynn/graph/quantization/observer.py: HistogramObserverKL"]}
{"id": "C49", "title": "4-bit weight packing round-trips", "statement": "Unpacking packed 4-bit weights returns the quantized weights in the original order.", "quantifier": "every even-width matrix of 4-bit values", "why_tests_cant": "Sign extension over all nibble pairs and positions.", "anchors": ["tinynn/llm_quant/modules.py: QLinear.__init__, QLinear.forward"]}
{"id": "C50", "title": "LLM weight/activation compression has bounded error", "statement": "Every value is mapped into the signed range of the bit width and reconstructed within half a step, per channel, per token and per tensor.", "quantifier": "every non-zero row, every bit width", "why_tests_cant": "A bound over all real inputs.", "anchors": ["tinynn/llm_quant/modules.py: compress_int"]}
{"id": "C51", "title": "The dynamic quantized linear layer adds its bias once, unscaled", "statement": "The dynamic quantized layer returns scale-corrected integer products plus the bias.", "quantifier": "all weights, inputs, biases", "why_tests_cant": "Wrong only for non-zero bias without the accelerated kernels.", "anchors": ["tinynn/llm_quant/modules.py: QLinear.forward"]}
{"id": "C52", "title": "Quantizable replacements of activations and norms compute the original function", "statement": "The replacement modules for PReLU, SiLU, GLU, hard-sigmoid, layer norm and RMS norm compute the same real function as the original module (without quantization effects).", "quantifier": "all inputs, weights, shapes", "why_tests_cant": "Equality of real functions.", "anchors": ["tinynn/graph/quantization/modules.py: QPReLU, QSiLU, QGLU, QHardsigmoid, QLayerNorm, QRMSNorm"]}
{"id": "C53", "title": "The running average is the weighted mean of the updates since the last reset", "statement": "After any history of updates and resets the reported average is the weighted mean of the values since the last reset.", "quantifier": "every history of updates and resets", "why_tests_cant": "Histories are unbounded.", "anchors": ["tinynn/util/train_util.py: AverageMeter"]}
{"id": "C54", "title": "Training ends with the best validated model", "statement": "After non-QAT training the model holds the weights of the epoch with the best validation accuracy.", "quantifier": "every sequence of accuracies", "why_tests_cant": "Fails only when no epoch exceeds zero accuracy.", "anchors": ["tinynn/util/train_util.py: train"]}
{"id": "C55", "title": "Restoring batch norm keeps the network function up to the eps term", "statement": "The restored conv+bn pair differs from the original convolution by at most the relative eps term, and is exact for eps = 0.", "quantifier": "all conv outputs, running statistics", "why_tests_cant": "Bound over all reals.", "anchors": ["tinynn/util/bn_restore.py: ConvBnTrain"]}
{"id": "C56", "title": "Lazy construction uses the argument it was given", "statement": "A lazily constructed object gets, for each keyword, the current object of that keyword's lazy argument.", "quantifier": "every list of positional and keyword options", "why_tests_cant": "Only nested lazy keyword arguments exercise the branch.", "anchors": ["tinynn/util/util.py: LazyObject.get_next"]}
{"id": "C57", "title": "Collapsing a chain of reshapes keeps the tensor", "statement": "When the converter replaces a chain of reshapes by one reshape (or nothing), the produced tensor is unchanged.", "quantifier": "every shape, every chain length, every element value", "why_tests_cant": "Equality of all elements for all shapes; removal is decided by comparing the first and last shape only.", "anchors": ["tinynn/converter/operators/optimize.py: fuse_simple_reshape_pass"]}
{"id": "C58", "title": "Slice arguments are normalised like the framework does", "statement": "For every start, end and step accepted by the framework (negative, out of range, reversed), the emitted slice selects exactly the elements the framework selects.", "quantifier": "every axis size, every integer start and end, every positive step", "why_tests_cant": "Out-of-range negative starts and starts beyond the axis are legal but rare.", "anchors": ["tinynn/converter/operators/torch/aten.py: ATenSliceOperator.parse"]}
{"id": "C59", "title": "Lowering batch norm to a multiplication and an addition keeps the function", "statement": "The multiply and add operators emitted for a batch normalisation compute gamma*(x-mean)/sqrt(var+eps)+beta followed by the fused activation, for every channel.", "quantifier": "all inputs of any rank, all parameters with var+eps positive", "why_tests_cant": "Equality over all reals and all ranks; a broadcast shape error only shows on some ranks.", "anchors": ["tinynn/converter/operators/tflite/transformable.py: BatchNormOperator.transform"]}
{"id": "C60", "title": "Replacing a sliced transposed convolution by SAME padding keeps the output", "statement": "When the pass drops the slice behind a transposed convolution with VALID padding and switches it to SAME, the outputs are equal.", "quantifier": "every shape, kernel, stride, dilation, weight, input and slice accepted by the pass", "why_tests_cant": "Off-by-one margins only show for odd total padding.", "anchors": ["tinynn/converter/operators/optimize.py: fuse_same_padding_slicing"]}
{"id": "C61", "title": "Integer parameters of the 16-bit LSTM bound the error", "statement": "The integer LSTM bias reconstructs every bias value within half of weight scale times input scale, and the cell-state scale is the least power of two over 32768 (not below 1/32768) that covers every value of the 8-bit cell state.", "quantifier": "every bias, scale and zero point", "why_tests_cant": "Needs all scales, including those just above a power of two.", "anchors": ["tinynn/converter/operators/hybrid_quantizer.py: int16_lstm_pass"]}
{"id": "C62", "title": "Calibration histograms keep their mass and the range keeps 128 bins", "statement": "In the Kullback-Leibler search the merged histogram and its expansion carry the mass of the bins they describe, the clipped candidate carries the whole mass, the threshold is the first of least divergence, and the returned range lies in the observed range and spans at least 128 bins.", "quantifier": "every histogram, number of bins and divergence", "why_tests_cant": "Bin borders cut bins at every fraction of 1/128 and empty bins matter.", "anchors": ["tinynn/graph/quantization/observer.py: HistogramObserverKL"]}
{"id": "C63", "title": "Convolutions are lowered without changing the function", "statement": "The TFLite operators emitted for a torch convolution (reshape, layout transposes, explicit padding, reordered weight, bias, fused activation) compute that convolution followed by the activation.", "quantifier": "every input, weight, bias, shape, groups, stride, dilation, padding and number of spatial dimensions from one to three", "why_tests_cant": "Layout and padding mistakes cancel on square kernels and equal paddings; equality is over all shapes and values.", "anchors": ["tinynn/converter/operators/tflite/transformable.py: GenericConvOperator.transform"]}
{"id": "C64", "title": "Transposed convolutions are lowered without changing the function", "statement": "The TFLite operators emitted for a torch transposed convolution without groups (enlarged output, slice for the padding, reordered weight, bias inside or behind the operator) compute that transposed convolution.", "quantifier": "every input, weight, bias, shape, stride, padding, output padding and number of spatial dimensions from one to three", "why_tests_cant": "Output padding, unequal paddings and strides only show in rare combinations; equality is over all values.", "anchors": ["tinynn/converter/operators/tflite/transformable.py: GenericTransposeConvOperator.transform"]}
{"id": "C65", "title": "Max pooling is lowered without changing the function", "statement": "The TFLite operators emitted for a torch max pooling (explicit padding, layout transposes, SAME or VALID pooling) compute that pooling, with the same number of windows.", "quantifier": "every input, shape, kernel, stride, padding and ceil mode that torch accepts", "why_tests_cant": "Wrong window counts only show for even kernels or for ceil mode with padding; wrong values only when a padded element wins.", "anchors": ["tinynn/converter/operators/torch/aten.py: ATenMaxPool1dOperator, ATenMaxPool2dOperator", "tinynn/converter/operators/torch/base.py: handle_padding"]}
{"id": "C66", "title": "Average pooling is lowered without changing the function", "statement": "The TFLite operators emitted for a torch average pooling compute that pooling for both ways of counting the padding in the divisor, or the conversion is rejected.", "quantifier": "every input, shape, kernel, stride, padding, divisor and ceil mode that torch accepts", "why_tests_cant": "The divisor differs only in border windows; equality over all reals.", "anchors": ["tinynn/converter/operators/torch/aten.py: ATenAvgPool1dOperator, ATenAvgPool2dOperator", "tinynn/converter/operators/torch/base.py: handle_padding"]}
{"id": "C67", "title": "Adaptive pooling is lowered without changing the function", "statement": "Adaptive average and max pooling are converted exactly when the output sizes divide the input sizes, and then the emitted pooling computes the adaptive pooling of torch.", "quantifier": "every input, batch, channel count, shape and output size", "why_tests_cant": "The equality of the adaptive window bounds with fixed windows must hold at every position and size.", "anchors": ["tinynn/converter/operators/torch/aten.py: ATenAdaptiveAvgPool1dOperator, ATenAdaptiveAvgPool2dOperator, ATenAdaptiveMaxPool1dOperator, ATenAdaptiveMaxPool2dOperator"]}
{"id": "C68", "title": "Rolls and flips are lowered without changing the function", "statement": "The splits and concatenations emitted for a roll, and the reversals emitted for a flip, put every element where torch puts it.", "quantifier": "every shape, shift (negative or above the axis), list of axes, element", "why_tests_cant": "Wrap-around only shows for shifts beyond the axis or repeated axes.", "anchors": ["tinynn/converter/operators/torch/aten.py: ATenRollOperator, ATenFlipOperator"]}
{"id": "C69", "title": "Pixel shuffles are lowered without changing the function", "statement": "Transposes, channel gather and DEPTH_TO_SPACE or SPACE_TO_DEPTH together compute pixel_shuffle or pixel_unshuffle, also when the gather is left out.", "quantifier": "every block size, channel count, image size, element", "why_tests_cant": "The channel orders of the two frameworks coincide only for one output channel.", "anchors": ["tinynn/converter/operators/torch/aten.py: ATenPixelShuffleOperator, ATenPixelUnshuffleOperator"]}
{"id": "C70", "title": "Unfold and fold are lowered without changing the function", "statement": "The padding and gathers emitted for unfold, and the scatter and crop emitted for fold, compute the torch operators.", "quantifier": "every kernel, stride, dilation, padding, shape, element", "why_tests_cant": "Overlaps and unequal paddings only show on asymmetric settings.", "anchors": ["tinynn/converter/operators/torch/aten.py: ATenIm2colOperator, ATenCol2imOperator"]}
{"id": "C71", "title": "Expansions and repetitions are lowered without changing the function", "statement": "Reshapes, tiles and gathers emitted for expand, repeat and repeat_interleave compute the torch operators.", "quantifier": "every shape, rank extension, repetition vector, axis, element", "why_tests_cant": "Broadcast rules have many shape cases.", "anchors": ["tinynn/converter/operators/torch/aten.py: ATenExpandOperator, ATenRepeatOperator, ATenRepeatInterleaveOperator"]}
{"id": "C72", "title": "Chunks, stacks and gated units are lowered without changing the function", "statement": "The pieces emitted for chunk have the sizes and elements of torch, stack by reshape and concatenation equals stack by packing, glu multiplies one half by the sigmoid of the other.", "quantifier": "every shape, number of chunks, axis, list of operands", "why_tests_cant": "Chunk counts that do not divide the axis, and more chunks than elements, are rare.", "anchors": ["tinynn/converter/operators/torch/aten.py: ATenSplitOperator, ATenChunkOperator, ATenStackOperator, ATenGluOperator"]}
{"id": "C73", "title": "Reductions are lowered without changing the function", "statement": "The TFLite reduction emitted by handle_reduce, with its axes, its detour through NHWC and its reshapes, equals the torch reduction; the same for argmax and argmin.", "quantifier": "every reduction function, rank, list of axes, keepdim flag, operand", "why_tests_cant": "The NHWC detour is only taken for rank 4 and two orders of two axes.", "anchors": ["tinynn/converter/operators/torch/base.py: handle_reduce", "tinynn/converter/operators/torch/aten.py: ATenMeanOperator, ATenSumOperator, ATenArgmaxOperator"]}
{"id": "C74", "title": "Variances, deviations and norms are lowered without changing the function", "statement": "The means, squared differences, sums and divisions emitted for var, std and norm compute the torch statistics for every correction and every set of axes.", "quantifier": "every shape, set of axes, correction, keepdim flag, operand", "why_tests_cant": "Sample counts and corrections differ by one element, invisible on large operands.", "anchors": ["tinynn/converter/operators/torch/aten.py: ATenVarOperator, ATenStdOperator, ATenNormOperator"]}
{"id": "C75", "title": "Layer, instance and group normalisation are lowered without changing the function", "statement": "The emitted chains of means, differences, square roots, splits and concatenations compute the torch normalisations.", "quantifier": "every shape, number of groups, weight, bias, epsilon", "why_tests_cant": "Group counts select three different lowerings; missing weights or biases are rare.", "anchors": ["tinynn/converter/operators/torch/aten.py: ATenLayerNormOperator, ATenInstanceNormOperator, ATenGroupNormOperator"]}
{"id": "C76", "title": "Indexing is lowered without changing the function", "statement": "The GATHER or GATHER_ND emitted for indexing by tensors and for index_select reads the elements that torch reads.", "quantifier": "every shape, list of index tensors, index value, axis, element", "why_tests_cant": "Broadcasting index shapes and negative values are rare in tests; both go through different code.", "anchors": ["tinynn/converter/operators/torch/aten.py: ATenIndexOperator, ATenIndexSelectOperator"]}
{"id": "C77", "title": "gather and scatter are lowered without changing the function", "statement": "The coordinates computed at conversion time, with the run-time index put in place of one of them, read and write the elements that torch.gather and torch.scatter read and write.", "quantifier": "every shape, axis, index seen at conversion and at run time, value", "why_tests_cant": "The index during conversion usually is the one used for checking.", "anchors": ["tinynn/converter/operators/torch/aten.py: ATenGatherOperator, ATenScatterOperator"]}
{"id": "C78", "title": "index_put is lowered without changing the function", "statement": "The sum of the operand and the scattered differences is the operand with the values written at the indexed places.", "quantifier": "every operand, list of index tensors, value", "why_tests_cant": "Repeated targets and constant values are not among the tests.", "anchors": ["tinynn/converter/operators/torch/aten.py: ATenIndexPutOperator"]}
{"id": "C79", "title": "Padding is lowered without changing the function", "statement": "The PAD, PADV2 or MIRROR_PAD emitted for constant_pad_nd, pad, reflection_pad1d and reflection_pad2d gives the padded tensor of torch: the flat list of amounts starts with the last axis, the TFLite matrix with the first.", "quantifier": "every rank, shape, list of amounts, fill value, element", "why_tests_cant": "Tests pad the last two axes by equal amounts, which hides a wrong order.", "anchors": ["tinynn/converter/operators/torch/aten.py: ATenConstantPadNdOperator, ATenPadOperator, ATenReflectionPad1dOperator, ATenReflectionPad2dOperator"]}
{"id": "C80", "title": "Nearest-neighbour upsampling is lowered without changing the function", "statement": "The resize emitted for upsample_nearest2d reads at every output position the source element that torch reads.", "quantifier": "every shape, output size or pair of scale factors, element", "why_tests_cant": "Tests upsample by integer factors.", "anchors": ["tinynn/converter/operators/torch/aten.py: ATenUpsampleNearest2dOperator"]}
{"id": "C81", "title": "Bilinear upsampling is lowered without changing the function", "statement": "The resize emitted for upsample_bilinear2d interpolates at every output position between the same elements with the same weights as torch, with and without aligned corners.", "quantifier": "every shape, output size or pair of scale factors, element", "why_tests_cant": "Tests upsample by integer factors.", "anchors": ["tinynn/converter/operators/torch/aten.py: ATenUpsampleBilinear2dOperator"]}
{"id": "C82", "title": "Arithmetic and comparisons are lowered without changing the function", "statement": "The operator emitted for add, sub, rsub, mul, div, remainder, floor_divide, maximum, minimum and the comparisons gives the result of torch, with a tensor or a scalar as second operand and after type promotion.", "quantifier": "every operator, pair of types, shapes that broadcast, values", "why_tests_cant": "Tests use float operands and integer-valued scalars.", "anchors": ["tinynn/converter/operators/torch/aten.py: ATenAddOperator, ATenSubOperator, ATenRsubOperator, ATenMulOperator, ATenDivOperator, ATenRemainderOperator, ATenFloorDivideOperator, comparison classes", "tinynn/converter/operators/torch/base.py: elementwise_binary, torch_tensor_from_scalar"]}
{"id": "C83", "title": "Clamping is lowered without changing the function", "statement": "The operators emitted for clamp and hardtanh give the clamped number, on floats, integers and quantized tensors (there: a nearest representable number).", "quantifier": "every pair of bounds, value, scale and zero point", "why_tests_cant": "Tests clamp floats only.", "anchors": ["tinynn/converter/operators/torch/aten.py: ATenClampOperator, ATenHardtanhOperator", "tinynn/converter/operators/torch/base.py: quantize_numpy"]}
{"id": "C84", "title": "Composed activations are lowered without changing the function", "statement": "The operators emitted for softplus, mish, hardsigmoid and gelu compute the function of torch.", "quantifier": "every argument", "why_tests_cant": "Tests evaluate a few arguments with a tolerance that hides the difference between the two forms of gelu.", "anchors": ["tinynn/converter/operators/torch/aten.py: ATenSoftplusOperator, ATenMishOperator, ATenHardsigmoidOperator, ATenGeluOperator"]}
{"id": "C85", "title": "PReLU is lowered without changing the function", "statement": "The PRELU emitted uses for every element the slope of its channel.", "quantifier": "every rank, shape, slope count, element", "why_tests_cant": "Tests have one PReLU per model.", "anchors": ["tinynn/converter/operators/torch/aten.py: ATenPreluOperator"]}
{"id": "C86", "title": "Masked selection is lowered without changing the function", "statement": "x * (1 - mask) + value * mask, as emitted for masked_fill and where, gives the selected element.", "quantifier": "every operand, mask, value in IEEE binary32 and shapes that broadcast", "why_tests_cant": "Tests fill finite random tensors.", "anchors": ["tinynn/converter/operators/torch/aten.py: ATenMaskedFillOperator, ATenWhereOperator"]}
{"id": "C87", "title": "A scalar next to a quantized tensor is represented exactly", "statement": "The scale, zero point and stored integer that quantize_scalar_tensor chooses stand for the scalar itself.", "quantifier": "every scalar, type", "why_tests_cant": "Tests multiply by one or two constants.", "anchors": ["tinynn/converter/operators/torch/base.py: quantize_scalar_tensor"]}
{"id": "C88", "title": "Matrix products and linear layers are lowered without changing the function", "statement": "The FULLY_CONNECTED or BATCH_MATMUL emitted for matmul, mm, bmm and linear computes the product of torch, with the weight transposed where needed and the leading axes kept.", "quantifier": "every rank from one to five, shapes that broadcast, elements", "why_tests_cant": "Tests use batch size one, where a lost leading axis is invisible.", "anchors": ["tinynn/converter/operators/torch/aten.py: ATenMatmulOperator, ATenMmOperator, ATenBmmOperator, ATenLinearOperator"]}
{"id": "C89", "title": "Matrix products with an addition are lowered without changing the function", "statement": "addmm, addbmm and baddbmm compute beta * addend + alpha * product with the addend broadcast.", "quantifier": "every factor, shape of the addend, element", "why_tests_cant": "Tests use the default factors and a vector as addend.", "anchors": ["tinynn/converter/operators/torch/aten.py: ATenAddmmOperator, ATenAddbmmOperator, ATenBaddbmmOperator"]}
{"id": "C90", "title": "Softmax is lowered without changing the function", "statement": "The SOFTMAX or LOG_SOFTMAX between two TRANSPOSE operators normalises along the axis asked for.", "quantifier": "every rank, axis, element", "why_tests_cant": "Tests normalise the last or second axis of small tensors.", "anchors": ["tinynn/converter/operators/torch/aten.py: ATenSoftmaxOperator, ATenLogSoftmaxOperator", "tinynn/converter/operators/torch/base.py: wrap_ops_with_last_dim_transposes"]}
{"id": "C91", "title": "Axis permutations and selections are lowered without changing the function", "statement": "The operators emitted for permute, transpose, select, unbind and embedding read for every output position the element that torch reads; negative axes and indices count from the end.", "quantifier": "every rank, axis, index, element", "why_tests_cant": "Tests use non-negative axes.", "anchors": ["tinynn/converter/operators/torch/aten.py: ATenPermuteOperator, ATenTransposeOperator, ATenSelectOperator, ATenUnbindOperator, ATenEmbeddingOperator"]}
{"id": "C92", "title": "Unrolled LSTMs compute the LSTM", "statement": "With unroll_rnn, the operators emitted for an LSTM (per time step or per gate) compute the output and the final states of torch from the initial state.", "quantifier": "every number of layers, directions, time steps, batch size, units, features, weights, states, both layouts, with and without biases", "why_tests_cant": "Tests use one or two layers with zero states and compare floats with a tolerance.", "anchors": ["tinynn/converter/operators/torch/aten.py: ATenLstmOperator"]}
{"id": "C93", "title": "LSTM sequence operators compute the LSTM", "statement": "Without unroll_rnn, the UNIDIRECTIONAL_SEQUENCE_LSTM and BIDIRECTIONAL_SEQUENCE_LSTM operators, or the pair of unidirectional ones with map_bilstm_to_lstm, compute the output of torch on every invocation and leave the final state in the variables.", "quantifier": "every number of layers, directions, time steps, batch size, units, features, weights, content of the variables, both layouts", "why_tests_cant": "Tests run the interpreter once.", "anchors": ["tinynn/converter/operators/torch/aten.py: ATenLstmOperator"]}
{"id": "C94", "title": "Unrolled GRUs compute the GRU", "statement": "The operators emitted for a GRU compute the output and the final state of torch from the initial state.", "quantifier": "every number of layers, directions, time steps, batch size, units, features, weights, states, both layouts, with and without biases", "why_tests_cant": "Tests use zero states.", "anchors": ["tinynn/converter/operators/torch/aten.py: ATenGruOperator"]}
{"id": "C95", "title": "Transposes move across a RESHAPE", "statement": "elementwise_reshape_transpose_passthrough moves a transpose across a RESHAPE: the transpose inserted on its side cancels it and the two inserted transposes with the new shape between them compute the old reshape; without groups of several axes on both sides every candidate can be carried out.", "quantifier": "every pair of positive shapes with equal products, every permutation, every content", "why_tests_cant": "Tests use a handful of shapes; the grouping of axes has many cases.", "anchors": ["tinynn/converter/operators/optimize.py: GraphOptimizer.elementwise_reshape_transpose_passthrough_pass", "tinynn/converter/operators/optimize.py: reshape_mapping"]}
{"id": "C96", "title": "Reshapes move across other nodes", "statement": "elementwise_op_reshape_passthrough moves a reshape that only adds or removes axes of length one across an elementwise, one-axis, concatenating, reducing, packing or unpacking node: operands, attributes and recorded shapes are adjusted so that the reshape put behind restores the old result, and the pass does not raise.", "quantifier": "every shape, axis, attribute, operand content and every reshape in front of or behind the node", "why_tests_cant": "Tests convert models whose reshapes move in the common way; leading axes and broadcasting operands are not combined with reshapes.", "anchors": ["tinynn/converter/operators/optimize.py: GraphOptimizer.elementwise_op_reshape_passthrough_pass", "tinynn/converter/operators/optimize.py: op_input_dims", "tinynn/converter/operators/optimize.py: op_input_indices", "tinynn/converter/operators/optimize.py: is_simple_reshape"]}
{"id": "C97", "title": "The quantizable GRU computes the float GRU", "statement": "The module that replaces torch.nn.GRU before quantization returns the same output sequence and the same final state as the GRU it was built from, with the same weights and the same initial state (zero when none is given).", "quantifier": "every number of layers, one or two directions, both layouts, every weight, input and initial state", "why_tests_cant": "Tests compare outputs of one configuration with random weights.", "anchors": ["tinynn/graph/quantization/quantizable/gru.py: GRUCell.forward", "tinynn/graph/quantization/quantizable/gru.py: _GRULayer.forward", "tinynn/graph/quantization/quantizable/gru.py: GRU.forward"]}
{"id": "C98", "title": "QAT transposed convolution with batch norm", "statement": "The QAT module ConvTransposeBn2d computes the same outputs as the module transform makes of it when the statistics are frozen, whatever the weight fake-quantizer does; without rounding it computes batch norm of the transposed convolution in training and evaluation; frozen statistics stay frozen and otherwise the batch norm follows train and eval.", "quantifier": "every weight, bias, statistic, input, stride, padding, dilation, group count, fake-quantizer and sequence of mode calls", "why_tests_cant": "Tests check one or two layers with random weights and no groups.", "anchors": ["tinynn/graph/quantization/qat_modules.py: _ConvTransposeBnNd._forward", "tinynn/graph/quantization/qat_modules.py: ConvTransposeBn2d.transform", "tinynn/graph/quantization/qat_modules.py: _ConvTransposeBnNd.train"]}
{"id": "C99", "title": "Channels removed by the pruner are consistent", "statement": "calc_prune_idx ties two channels of a center only if a chain of shared indices ties them, and removes an index of a leaf exactly if the center channels that feed it are removed; channels of one class are removed together, and get_pruned_idx agrees at the operations in between.", "quantifier": "every subgraph, importance and sparsity", "why_tests_cant": "Tests prune a few networks and check only that the result runs; the removed set depends on importances, on the order of the leaves and on how constraints propagate.", "anchors": ["tinynn/graph/modifier.py: SubGraph.calc_prune_idx", "tinynn/graph/modifier.py: SubGraph.calc_prune_idx_by_center_importance", "tinynn/graph/modifier.py: Modifier.get_pruned_idx"]}
{"id": "C100", "title": "Quantized layers are lowered without changing what they compute", "statement": "The operator emitted for a quantized convolution, transposed convolution or linear layer rounds a number within half a bias step of the one torch rounds, so that 8-bit results agree up to one; rescaling of tiny weight scales ends and leaves ordinary results unchanged; multiplying by a scalar gives the integers of torch and adding one gives them up to one.", "quantifier": "every input, weight, bias, scale, zero point, channel, storage type, set of input and weight elements that meet in an output element, scalar", "why_tests_cant": "Tests compare a few layers with a tolerance; scales below 2^-32, biases beyond 32 bits and scalars of -1 do not occur.", "anchors": ["tinynn/converter/operators/torch/quantized.py: QuantizedConv2dOperator, QuantizedLinearOperator, QuantizedMulOperator, QuantizedMulScalarOperator, QuantizedAddOperator", "tinynn/converter/operators/torch/base.py: rescale_weight_scale_for_qnnpack, quantize", "tinynn/converter/operators/tflite/transformable.py: GenericTransposeConvOperator.transform (bias)"]}
{"id": "C101", "title": "Moving quantization through an operator keeps the integers behind it", "statement": "When the converter replaces DEQUANTIZE, float operator, QUANTIZE by the quantized kernel of the operator, the integers read behind it are those of the float operator; only nodes with a single QUANTIZE reader, supported parameters and quantizable operands are edited; everything else that reads the node is unchanged.", "quantifier": "every operator of the list, operand values, scales, zero points, types, readers and constants", "why_tests_cant": "The choice of nodes is by counting tensors; comparisons with unequal scales, scalars and graph outputs are combinations that tests leave out.", "anchors": ["tinynn/converter/operators/optimize.py: elementwise_op_quantize_passthrough_pass, is_quantizable_rewrite_op, op_input_indices"]}
{"id": "C102", "title": "Removing pairs of DEQUANTIZE and QUANTIZE keeps the values", "statement": "A chain of DEQUANTIZE and QUANTIZE operators computes the same tensor before and after the pass that collapses it.", "quantifier": "every chain, scale, zero point, type and input", "why_tests_cant": "Only chains with different parameters in the middle or equal parameters of different types show the difference.", "anchors": ["tinynn/converter/operators/optimize.py: fuse_dequant_quant_pass, is_dequant_quant_fusable_edge"]}
{"id": "C103", "title": "The generated forward function computes the graph", "statement": "After recompute_forward_order, the generated forward function has one line per node in the order of the graph with the arguments the links say, and the lines `name = None` never release a name that is read later: the function returns what the function without these lines returns.", "quantifier": "every graph, meaning of the calls and input", "why_tests_cant": "A name is released where the largest order of its readers is reached; the order and the readers change with each edit of the graph.", "anchors": ["tinynn/graph/tracer.py: TraceGraph.__gen_forward_code, recompute_forward_order, TraceNode.prev_node_unique_name"]}
{"id": "C104", "title": "Inserting a node behind another and removing a node keep the rest of the graph", "statement": "insert_after makes every reader of the node read f of its result and changes nothing else; remove_node of a node that returns its argument keeps the result; both keep the graph consistent, so that the generated code of the edited graph runs.", "quantifier": "every graph, node, inserted function and input", "why_tests_cant": "The edit touches links, tensors, indices and rendered argument strings of every reader; one stale entry shows only in models with shared nodes.", "anchors": ["tinynn/graph/tracer.py: TraceGraph.insert_after, remove_node, TraceFunction.replace_tensor_name"]}
{"id": "C105", "title": "Inserting a node in front of a node or between two nodes changes that input only", "statement": "insert_between makes the next node read f of what it read from the previous node and changes nothing else; insert_before does so for the only input of a node, and for the values an output node returns; both keep the graph consistent, so that the generated code of the edited graph runs.", "quantifier": "every graph, pair of nodes, inserted function and input", "why_tests_cant": "Which of several inputs is rewired depends on the tensors the two nodes share, on their indices and on the number of inputs left out; the quantizer inserts its stubs one tensor at a time.", "anchors": ["tinynn/graph/tracer.py: TraceGraph.insert_between, insert_before", "tinynn/graph/quantization/quantizer.py: 1511-1523, 1670-1686, 2728-2784"]}
{"id": "C106", "title": "Removing dead nodes keeps the results", "statement": "eliminate_dead_graph_pass keeps exactly the inputs and nodes that an output needs and the constants they read; the graph stays consistent, and the generated code returns what it returned before, given the inputs that are kept.", "quantifier": "every consistent graph and every input", "why_tests_cant": "The nodes are found by a breadth-first search over links that also run through constants and shared nodes; whether what is left reads only what is kept depends on every path.", "anchors": ["tinynn/graph/tracer.py: TraceGraph.eliminate_dead_graph_pass, __active_detection"]}
{"id": "C107", "title": "The extracted part of a graph computes what the graph computes there", "statement": "reset_input_output_for_graph accepts the part between the first and the last nodes exactly if nothing else feeds it; its code, given the arguments of the first nodes, returns the results of the last nodes.", "quantifier": "every consistent graph, pair of node lists and input", "why_tests_cant": "The new inputs replace links but not the names a function was recorded with, and they take over the tensors of other nodes; which part is affected depends on the chosen nodes.", "anchors": ["tinynn/graph/tracer.py: TraceGraph.reset_input_output_for_graph, assert_is_subgraph, add_input_node, add_output_node"]}
{"id": "C108", "title": "A transpose becomes a reshape exactly when it only moves axes of size one", "statement": "transpose_to_reshape_pass turns a TRANSPOSE into a RESHAPE to its output shape exactly if all axes of a size other than one keep their order, and then the two compute the same for every tensor.", "quantifier": "every shape and permutation", "why_tests_cant": "The decision is made by permuting the numbers 0, 1, 2, ... of one tensor of that shape; whether this speaks for all tensors and whether no other permutation passes needs a proof for all shapes.", "anchors": ["tinynn/converter/operators/optimize.py: transpose_to_reshape_pass, is_transpose_same_to_reshape_op, is_transformable_transpose_node"]}
{"id": "C109", "title": "A reshape between two transposes is replaced by a reshape only when the three compute one", "statement": "fuse_wrapped_reshape_within_transpose_pass replaces TRANSPOSE, RESHAPE, TRANSPOSE by one RESHAPE only if the result is the same for every tensor; it always comes to a decision, on three such nodes next to each other.", "quantifier": "all shapes, permutations and tensors", "why_tests_cant": "The axes before and after the RESHAPE are matched by their sizes; whether the match is right depends on repeated sizes and on the cycles of the permutations.", "anchors": ["tinynn/converter/operators/optimize.py: fuse_wrapped_reshape_within_transpose_pass, fuse_transpose_perms_extended, is_simple_reshape"]}
{"id": "C110", "title": "Taking chains of operators out of the graph keeps the results", "statement": "elinimate_sequences takes every given chain of nodes out of the graph, connects what read the last node to what the first one read, keeps the graph consistent (edges, tensor names, producers, buffers), and every result is as before if each chain does to its input what its replacement does.", "quantifier": "every graph, every list of chains, every meaning of the operators", "why_tests_cant": "Whether the tensor of the first or of the last node keeps its name is decided by the other readers of the two and by graph inputs and outputs; the vertices are deleted at the end only, so a later chain sees the edges of the earlier ones.", "anchors": ["tinynn/converter/operators/optimize.py: elinimate_sequences", "tinynn/converter/operators/graph.py: connect_next_tensors, replace_next_tensors, replace_operator_input"]}
{"id": "C111", "title": "Operators that hand on their input are taken out of the graph", "statement": "remove_noop_pass never fails, keeps the results, and leaves none of the operators that return their input and are read by anyone.", "quantifier": "every graph and every meaning of the operators", "why_tests_cant": "The chains are found by merging edges, with and without branches; an order of the edges or a second reader decides which case of the rewriting is taken.", "anchors": ["tinynn/converter/operators/optimize.py: remove_noop_pass, is_ending_with_noop_edge"]}
{"id": "C112", "title": "Chains of transposes and of reshapes become at most one in the graph", "statement": "fuse_simple_transpose_pass and fuse_simple_reshape_pass replace each chain of transposes (reshapes) by one with a new constant, or by none if it does nothing; the graph is consistent and the results are as before for every input.", "quantifier": "every graph, every shape, permutation and tensor", "why_tests_cant": "The chain is one of many in a graph; its constant operands are shared with nobody, its first node is edited after all chains are connected, and its tensors may be read by outputs of the graph.", "anchors": ["tinynn/converter/operators/optimize.py: fuse_simple_transpose_pass, fuse_simple_reshape_pass, fuse_transpose_perms", "tinynn/converter/operators/graph.py: replace_operator_input, remove_operator_input, add_nodes"]}
{"id": "C113", "title": "Negation, division and subtraction as multiplication and addition", "statement": "The quantizer writes -x as x * -1, x / c as x * (1/c), x - c as x + (-c), c - x as x * -1 + c and x - y as x + y * -1 in place of the operators without a quantized kernel; the result is the same tensor.", "quantifier": "every tensor, every number and every way to give the arguments", "why_tests_cant": "The number is read back from the text of the generated call, in several places with different tests; the keyword alpha and the order of the operands are rarely used.", "anchors": ["tinynn/graph/quantization/quantizer.py: rewrite_quantize_graph (neg, div, sub)"]}
{"id": "C114", "title": "torch.stack as a concatenation", "statement": "Unsqueezing every operand and concatenating along the new axis gives the stack, whether the axis is given by position, as dim, as axis or not at all, and for negative axes.", "quantifier": "every list of operands of one shape, every axis", "why_tests_cant": "A negative axis counts from another end after the unsqueeze.", "anchors": ["tinynn/graph/quantization/quantizer.py: rewrite_quantize_graph (stack)"]}
{"id": "C115", "title": "Clamps as relu, relu6, clamp_min, clamp_max and fused clamps", "statement": "The call written in place of a clamp computes the same function for every pair of bounds and every way to give them.", "quantifier": "every number and every pair of bounds", "why_tests_cant": "Which call is written depends on which bounds are given and on their values.", "anchors": ["tinynn/graph/quantization/quantizer.py: rewrite_quantize_graph (clamp_min, clamp)"]}
{"id": "C116", "title": "Functions replaced by modules keep their parameters", "statement": "nn.LeakyReLU, nn.ELU, nn.GLU and nn.Dropout are constructed with the parameters the function was called with, by position, by name or by default.", "quantifier": "every call that torch accepts", "why_tests_cant": "Each function has other names and defaults for its parameters; one helper reads them for several functions.", "anchors": ["tinynn/graph/quantization/quantizer.py: rewrite_quantize_graph (FUNCTIONAL_MODULE_MAPPING, dropout)"]}
{"id": "C117", "title": "Pools with windows of one element as slices", "statement": "Average and max pools with kernel size 1 are written as slices with the strides as steps; the result is the same in shape and elements, with ceil_mode or without.", "quantifier": "every shape, stride and tensor", "why_tests_cant": "The number of windows and the number of elements of a slice are computed by different formulas; strides come as a number, a list or not at all.", "anchors": ["tinynn/graph/quantization/quantizer.py: rewrite_quantize_graph (_is_pool_nd_with_one_kernel_size)"]}
{"id": "C118", "title": "Linear and BatchNorm1d in two dimensions", "statement": "A Linear followed by a BatchNorm1d is a 1x1 convolution followed by a BatchNorm2d between an unsqueeze and a flatten; a BatchNorm1d is a BatchNorm2d between an unsqueeze and a squeeze.", "quantifier": "every weight, bias, state and operand, in training and evaluation", "why_tests_cant": "In training the statistics are taken over all elements of a channel; the ranks that BatchNorm1d takes are two.", "anchors": ["tinynn/graph/quantization/quantizer.py: rewrite_quantize_graph (fc-bn1d, BatchNorm1d)"]}
{"id": "C119", "title": "Explicit broadcasting of quantized operands", "statement": "For any two shapes that broadcast, exactly one operand is expanded to the shape of the other or both are broadcast, both then have the shape of the result and the result is the same.", "quantifier": "every pair of shapes that broadcast, every operation", "why_tests_cant": "Which operand is expanded is found by a loop over the axes with three states.", "anchors": ["tinynn/graph/quantization/quantizer.py: rewrite_quantize_graph (_is_broadcastable_binary_quantized_op_node)"]}
{"id": "C120", "title": "A node of the graph placed between two other nodes", "statement": "insert_between with a node that is already in the graph gives a graph with consistent links, and the generated code computes what the model computes when the second node sees the first through the given node.", "quantifier": "every graph with consistent links, every pair of linked nodes, every meaning of the operators", "why_tests_cant": "The call changes the links of three nodes, the text of one call and the counts of uses; a wrong one shows only in models with further readers.", "anchors": ["tinynn/graph/tracer.py: TraceGraph.insert_between"]}
{"id": "C121", "title": "QuantStub and DeQuantStub around operators without a quantized kernel", "statement": "The quantizer makes every such operator read its operands through a DeQuantStub and every reader of its results read through a QuantStub, one per tensor, except for properties such as shape; the generated code computes that and nothing else of the model changes.", "quantifier": "every graph, every set of such operators, every meaning of the operators and of the stubs", "why_tests_cant": "Operators may read each other, share operands and be read several times; the links are changed while the loops run.", "anchors": ["tinynn/graph/quantization/quantizer.py: rewrite_quantize_graph (unsupported_nodes)", "tinynn/graph/tracer.py: TraceGraph.insert_between"]}
{"id": "C122", "title": "Pairs of a QuantStub and a DeQuantStub", "statement": "Taking out the pairs, with branches or without, removes no other node, leaves consistent links, removes every stub read only by opposite stubs together with its readers, and keeps the result of the generated code when the second stub undoes the first.", "quantifier": "every graph, every set of stubs, every meaning of the operators that undoes the stubs", "why_tests_cant": "The pairs are collected before any is removed; branches are handled in a second loop with other conditions.", "anchors": ["tinynn/graph/quantization/quantizer.py: rewrite_quantize_graph (_is_consecutive_dequant_quant_nodes)", "tinynn/graph/tracer.py: TraceGraph.remove_node"]}
{"id": "C123", "title": "Axes on which channel numbers arrive", "statement": "calc_dim_changes reports an axis only if values vary along it, reports exactly the filled axes of size above one of a filled tensor, and reports every axis along which the numbers grow.", "quantifier": "every tensor and every axis", "why_tests_cant": "The axis is found by comparing sums of slices; sums coincide only for particular shapes.", "anchors": ["tinynn/graph/modifier.py: calc_dim_changes", "tinynn/graph/modifier.py: fill_tensor_by_dim_changes"]}
{"id": "C124", "title": "Channels followed through the graph", "statement": "What update_i records for an index of a tensor contains every channel of the layer that the index depends on, and no other channel where no operator drops elements; get_pruned_idx therefore removes an index exactly if a removed channel reaches it.", "quantifier": "every path of operators and every wiring of them that fits their kind, every shape", "why_tests_cant": "Channel numbers are run through the real operators and refilled in between; a wrong mapping removes channels that are still used, and shows only for particular sequences of operators.", "anchors": ["tinynn/graph/modifier.py: DimensionChangeInfo.update_i", "tinynn/graph/modifier.py: calc_dim_constraint", "tinynn/graph/modifier.py: Modifier.dim_change_forward", "tinynn/graph/modifier.py: PoolingModifier.dim_change_forward", "tinynn/graph/modifier.py: PaddingModifier.dim_change_forward", "tinynn/graph/modifier.py: ReIndexModifier.dim_change_forward", "tinynn/graph/modifier.py: CatModifier.dim_change_forward", "tinynn/graph/modifier.py: LinearChannelModifier.dim_change_forward", "tinynn/graph/modifier.py: ConvChannelModifier.dim_change_forward"]}
{"id": "C125", "title": "Sizes of a split after pruning", "statement": "The sizes that SplitModifier writes split the kept channels into the kept channels of each part.", "quantifier": "every list of parts, every set of readers, every set of removed channels", "why_tests_cant": "The parts are matched with readers by comparing values and the sizes are written by position.", "anchors": ["tinynn/graph/modifier.py: SplitModifier"]}
{"id": "C126", "title": "Removal of channels without variance", "statement": "Without an importance the pruner removes a channel exactly if batch normalizations bear on it, directly or through a channel that it meets, and none of them sees variance there; no index of a batch normalization with variance is removed.", "quantifier": "every subgraph, every mapping of channels to leaves, every set of running variances, every multiple", "why_tests_cant": "The states of channels are collected in nested dictionaries over several centers and leaves and joined afterwards; which write wins shows only where mappings overlap.", "anchors": ["tinynn/graph/modifier.py: SubGraph.calc_prune_idx_by_bn_variance", "tinynn/graph/modifier.py: SubGraph.calc_prune_idx"]}
{"id": "C127", "title": "Channels without variance removed together", "statement": "The removed indices of a leaf are exactly those that a removed channel feeds, channels of different layers that meet in an index are removed together, and with a multiple the number removed of each layer is a multiple of it.", "quantifier": "every subgraph, every mapping of channels to leaves, every set of running variances", "why_tests_cant": "Layers that are added together must lose the same channels or the pruned model fails; the dependency is followed for one step only.", "anchors": ["tinynn/graph/modifier.py: SubGraph.calc_prune_idx_by_bn_variance", "tinynn/graph/modifier.py: SubGraph.constraint_mapping"]}
{"id": "C128", "title": "Observers around a concatenation become one", "statement": "After disable_requantization_for_cat_pass each quantized concatenation and all layers whose results it puts together share one observer, observers elsewhere stay, and the search ends.", "quantifier": "every graph, every order of the concatenations", "why_tests_cant": "The search carries a counter and a direction per node and marks concatenations across searches; whether a layer is assigned twice depends on the order of operands and on the sharing of results.", "anchors": ["tinynn/graph/quantization/quantizer.py: QATQuantizer.disable_requantization_for_cat_pass"]}
{"id": "C129", "title": "The NetAdapt plan keeps as many channels as the target allows", "statement": "find_prune_plan returns the largest multiple of the minimum feature size below the number of channels with which the operations fall below the target, together with their number, or nothing if there is none.", "quantifier": "every number of channels, feature size, target and count of degree two", "why_tests_cant": "The search stops counting when two quotients or two differences agree; whether the extrapolation is right depends on the coefficients of the count.", "anchors": ["tinynn/prune/netadapt_pruner.py: NetAdaptPruner.find_prune_plan"]}
{"id": "C130", "title": "The count of operations with masks is that of the pruned network", "statement": "calc_flops with registered masks gives the operations of the network without the masked channels, and it is a polynomial of degree two in the number of channels that stay.", "quantifier": "every list of layers and masks", "why_tests_cant": "The formulas divide element counts by channel counts and treat depthwise and grouped convolutions apart.", "anchors": ["tinynn/prune/base_pruner.py: BasePruner.calc_flops", "tinynn/graph/modifier.py: is_dw_conv"]}
{"id": "C131", "title": "The NetAdapt rounds end and always reduce the operations", "statement": "The rounds of prune stop after at most as many rounds as operations above the budget; each has fewer operations than the one before and is that of a subgraph with the highest accuracy; they stop at the budget, after the given number of rounds, or when no subgraph has a plan.", "quantifier": "every sequence of results, every rate, decay and budget", "why_tests_cant": "A decay makes the targets approach the current count, and results of failed subgraphs take part in the comparison.", "anchors": ["tinynn/prune/netadapt_pruner.py: NetAdaptPruner.prune, NetAdaptPruner.get_pruned_subgraph_info"]}
{"id": "C132", "title": "Fusing requantize operators keeps what the graph computes", "statement": "After fuse_requantize every remaining operator computes the same numbers from inputs of the same quantization, every tensor that is read is still made by an operator, only requantize operators are removed, those behind an operator with no other reader are, and a result that is not quantized stays as it is.", "quantifier": "every graph, every number and order of readers", "why_tests_cant": "The quantization of a shared tensor is changed in place while other readers stay, and edges added for one reader are seen by the check for the next.", "anchors": ["tinynn/converter/operators/optimize.py: GraphOptimizer.fuse_requantize, is_requantize_fusable_edge", "tinynn/converter/operators/graph.py: CommonGraph.connect_next_tensors, CommonGraph.replace_next_tensors"]}
{"id": "C133", "title": "Statistics given for inputs become the quantization parameters", "statement": "After prepare_quantized_inputs_pass every quantize stub behind an input has scale 1/std and zero point mean, both in its fake quantization and in the parameters that torch computes from its observer at conversion, and observes no more.", "quantifier": "every number of inputs and stubs, every mean in the range, every positive std, every range", "why_tests_cant": "The observer is given a fabricated minimum and maximum; that torch computes the same parameters from them needs rounding to give back the mean for every range.", "anchors": ["tinynn/graph/quantization/quantizer.py: QATQuantizer.prepare_quantized_inputs_pass, QATQuantizer.set_module_quantization"]}
{"id": "C134", "title": "Rescaled activations represent the same numbers", "statement": "rescale_activations_with_quant_min_max keeps the interval of numbers each activation can represent, leaves weights alone, and gives sigmoids the parameters 1/32768 and 32768 for 16 bits.", "quantifier": "every list of modules, every scale, every range", "why_tests_cant": "The zero point is recomputed from the range alone and modules may share one fake quantization.", "anchors": ["tinynn/graph/quantization/quantizer.py: QATQuantizer.rescale_activations_with_quant_min_max"]}
{"id": "C135", "title": "An ADMM update projects, accumulates and trains against the right penalty", "statement": "After admm_params_update Z is the point nearest to W + U among those with the pruned channels zero (and among all with as many zero channels), U is the sum of all differences W - Z, and the gradient of the penalty in training is rho (W - Z + U).", "quantifier": "every weight, every mask, every number of updates, any training between them", "why_tests_cant": "A wrong gradient or projection only changes the course of training; the result is still a network of the right shape.", "anchors": ["tinynn/prune/admm_pruner.py: ADMMPruner.register_mask, ADMMPruner.admm_params_update, ADMMPruner.construct_admm_criterion", "tinynn/graph/modifier.py: l1_norm, l2_norm"]}
{"id": "C136", "title": "The ADMM learning rate falls in thirds of an iteration and starts again", "statement": "Epochs are numbered from 1 through all iterations, and within an iteration of E epochs the learning rate is the given one, a tenth and a hundredth of it in the first, second and last third.", "quantifier": "every number of iterations and epochs, also those no multiple of three", "why_tests_cant": "A schedule has as many cases as epochs and the float quotient decides the boundaries.", "anchors": ["tinynn/prune/admm_pruner.py: ADMMPruner.adjust_learning_rate, ADMMPruner.prune"]}
{"id": "C137", "title": "ADMM updates prune the centres that were registered", "statement": "Every update computes indices for exactly the centres that were registered at the start: those of subgraphs that are not excluded and have a sparsity other than zero.", "quantifier": "every list of subgraphs", "why_tests_cant": "Excluded subgraphs appear only in models with excluded operators, and the first update comes after a full iteration of training.", "anchors": ["tinynn/prune/admm_pruner.py: ADMMPruner.admm_params_update", "tinynn/prune/oneshot_pruner.py: OneShotChannelPruner.register_mask"]}
{"id": "C138", "title": "Transposing outputs keeps what the graph computes", "statement": "After output_transpose_pass every operator has the values it had, an output chosen for transposition has under its name the transposed value and exactly one OUTPUT node, the other outputs have their value and their OUTPUT nodes, and the graph has an edge for every input and no other.", "quantifier": "every graph, every set of outputs to transpose, any other readers of the outputs, any meaning of the operators", "why_tests_cant": "The pass renames tensors and re-points other readers of an output; models whose outputs are also read inside, or several dequantized outputs, are rarely in tests.", "anchors": ["tinynn/converter/operators/optimize.py: GraphOptimizer.output_transpose_pass", "tinynn/converter/operators/graph.py: CommonGraph.replace_operator_input, CommonGraph.remove_operator_input, CommonGraph.add_operator"]}
{"id": "C139", "title": "Copying branching reshapes and transposes keeps the graph", "statement": "After branch_reshape_expand_pass (branch_transpose_expand_pass) every operator has the values it had and every OUTPUT node its tensor, the graph has an edge for every input and no other, and no reshape (transpose) with several readers is read by another reshape (transpose).", "quantifier": "every graph, every order in which Python enumerates the sets of nodes, any number of readers and repeated inputs, any meaning of the operators", "why_tests_cant": "The order of a Python set is arbitrary, and the copies change the number of readers of the operator before; tests have one branch and look at numbers only.", "anchors": ["tinynn/converter/operators/optimize.py: GraphOptimizer.branch_reshape_expand_pass, GraphOptimizer.branch_transpose_expand_pass, expand_op_outputs_in_branches, is_reshape_branch_edge, is_transpose_branch_edge", "tinynn/converter/operators/graph.py: CommonGraph.replace_operator_input, CommonGraph.add_operator"]}
{"id": "C140", "title": "Fusing activations keeps the graph", "statement": "fuse_activation removes exactly the RELU and RELU6 operators that are the only reader of an operator that can hold them (a transposed convolution only if it holds the bias), gives their output to that operator, and leaves every other operator as it was; every remaining tensor has the value it had, the graph has an edge for every input and no other, and no activation is left that could be fused.", "quantifier": "every graph, any meaning of the operators, any number of readers of the activations", "why_tests_cant": "Several activations in a row of additions share edges that are rewritten while the list of chosen edges is processed; tests have one activation.", "anchors": ["tinynn/converter/operators/optimize.py: GraphOptimizer.fuse_activation, is_activ_fusable_edge", "tinynn/converter/operators/graph.py: CommonGraph.connect_next_tensors"]}
{"id": "C141", "title": "Fusing batch norms keeps the graph", "statement": "fuse_conv_fc_bn removes exactly the batch norms that are the only reader of a convolution or linear layer with constant weights and fitting activations, gives their output and activation to that layer, and leaves every other operator as it was; every remaining tensor has the value it had and the graph has an edge for every input and no other.", "quantifier": "every graph, any meaning of the operators, any number of readers of the batch norms, every activation of the layers and batch norms", "why_tests_cant": "Which activation is applied first only matters for graphs that already carry activations; the rewriting of edges matters with several readers.", "anchors": ["tinynn/converter/operators/optimize.py: GraphOptimizer.fuse_conv_fc_bn, is_bn_fusable_edge", "tinynn/converter/operators/graph.py: CommonGraph.connect_next_tensors"]}
{"id": "C142", "title": "The converted graph follows the program, not the traced values", "statement": "TFLiteConverter.init_operations runs the program on the dummy input and puts operators into the graph. For every other input of the same shapes the graph gives every name of the program the value the program gives it: values that depend on the input are computed by operators of the graph, and what was kept as a constant does not depend on the input. Branches of prim::If and the subgraphs of prim::PythonOp are walked in order and with names of their own, and without prim::If the walk never fails. Only operators that read a tensor of the graph that is not constant are put into it, and none of those that give shapes, numbers or filled tensors.", "quantifier": "every program with branches and python functions, every dummy input and every other input, any meaning of the operators with fixed shapes", "why_tests_cant": "Tests compare the model with the dummy input itself, for which a constant in place of a computed value gives the right answer.", "anchors": ["tinynn/converter/base.py: TFLiteConverter.init_operations, init_common_graph, init_inputs", "tinynn/converter/operators/torch/prim.py: PrimIfConverter, PrimPythonOpConverter, PrimParamConverter, PrimReturnConverter", "tinynn/converter/operators/torch/base.py: OperatorConverter.get_tensor_name, find_or_create_input", "tinynn/converter/operators/torch/__init__.py: OPERATOR_CONVERTER_DICT (NoTrackOperator)"]}
{"id": "C143", "title": "Constants in half precision change nothing but their rounding", "statement": "HalfQuantizer.quantize_pass gives every float32 constant a float16 constant and a DEQUANTIZE operator. Afterwards no operator reads a float32 constant, every tensor the graph had has the value it has with the constants rounded to float16 and back, the new constants hold exactly the rounded data, the outputs of the graph are the same tensors, and the edges fit the inputs of the operators. It does so for every float32 constant, wherever it is read.", "quantifier": "every consistent graph, every order of the readers, any rounding and any meaning of the operators", "why_tests_cant": "Tests convert a few models and read each weight once; a weight read twice by one operator, or by several in an order that depends on hashes, needs other graphs.", "anchors": ["tinynn/converter/operators/half_quantizer.py: HalfQuantizer.quantize_pass, is_quantizable_node", "tinynn/converter/operators/graph.py: CommonGraph.add_operator, replace_operator_input"]}
{"id": "C144", "title": "Error reports say what they measure and leave the model alone", "statement": "layer_error_analysis reports, for weights and activations apart, the sort_num smallest errors in ascending order; each is the error of one FakeQuantize module on the input it got last in a float run, measured with the fake quantization the module had. graph_error_analysis compares, in the order of the first calls, the inputs of the float run with those of the quantized run. Afterwards every module has the fake quantization flag, the observer flag and the training mode it had before.", "quantifier": "every model, every state of its flags, every metric with a total order, every sort_num", "why_tests_cant": "Tests look at the log of one model that was in evaluation mode as a whole; flags that are not restored only show in training that goes on.", "anchors": ["tinynn/util/quantization_analysis_util.py: layer_error_analysis, graph_error_analysis"]}
{"id": "C145", "title": "Transposed inputs reach every reader through one transpose", "statement": "input_transpose_pass turns flagged inputs into channel last ones. Fed with transposed inputs the new graph computes what the old one computed at every tensor except these inputs and the outputs of the QUANTIZE operators that are their only readers; every reader, however often it reads the input, reads the new TRANSPOSE instead; inputs that are not flagged, the outputs and all the other operators stay, and the edges of the graph fit the inputs of its operators.", "quantifier": "every consistent graph, every list of flags, any meaning of the operators for which QUANTIZE commutes with the transpose", "why_tests_cant": "Tests convert models with one image input that is read once; several inputs, inputs read twice and the edges collected for deletion under changing indices need other graphs.", "anchors": ["tinynn/converter/operators/optimize.py: GraphOptimizer.input_transpose_pass", "tinynn/converter/operators/graph.py: CommonGraph.replace_next_tensors, add_operator"]}
{"id": "C146", "title": "Configuration files of the converter survive writing and reading", "statement": "What export_converter_files writes for a model, parse_config reads back: the paths of the model and of the TFLite file beside it, one flag per input and per output as asked for (given flags, or true for four dimensions), and zeros with the shapes and types of the inputs, although they are transposed on the way when flagged. Flags that do not fit the number of tensors are refused.", "quantifier": "all tensors, all nestings of outputs by one level, all flags, all paths", "why_tests_cant": "The example writes and reads one file for a model with one image input and one output; several outputs, quantized inputs and other paths are never tried.", "anchors": ["tinynn/util/converter_util.py: tensor_config, generate_converter_config, export_converter_files, get_tensor_details, prepare_input_arrays, data_to_pytorch, parse_config"]}
{"id": "C147", "title": "The converter transposes the inputs that were asked for", "statement": "The flags of the converter after init_input_transpose belong to the unpacked inputs one by one: the given flag, or for an open one whether the tensor has four dimensions. inputs_for_tflite returns the inputs in their order, with element (n, h, w, c) of the array equal to element (n, c, h, w) of the tensor where the flag is set and unchanged elsewhere.", "quantifier": "all tensors, all lists, tuples and single flags", "why_tests_cant": "Tests pass a single image or a list of tensors with default flags; mixed lists, nested inputs and lists of flags that are used again are not covered.", "anchors": ["tinynn/converter/base.py: TFLiteConverter.init_flatten_inputs, init_input_transpose, init_jit_graph, inputs_for_tflite"]}
{"id": "C148", "title": "Lists among the outputs are unpacked, and unread outputs are connected", "statement": "output_list_unpack_pass replaces every list among the outputs of the graph by its items, in order, and gives each item one OUTPUT node for each time it is listed. connect_unused_tensors_pass gives every unread output of an operator with several outputs an UNUSED node - for a split into a list, every unread output of a RESHAPE behind it - so that all of them are read afterwards, and gives no UNUSED node to a tensor that is read. Both leave nodes, edges and the map of tensors otherwise alone.", "quantifier": "all graphs, all lists, all outputs", "why_tests_cant": "Tests return single tensors or tuples, which torch flattens; lists that share items, and operators with only some outputs used, need other models.", "anchors": ["tinynn/converter/operators/optimize.py: GraphOptimizer.output_list_unpack_pass, connect_unused_tensors_pass, is_multi_output_op_node", "tinynn/converter/operators/graph.py: CommonGraph.add_outputs, add_nodes"]}
{"id": "C149", "title": "Replacing the converter's own operators keeps the graph", "statement": "transform_graph takes out every BATCH_NORM, GENERIC_CONV and GENERIC_DECONV operator that is read, together with the OUTPUT nodes of its result, lets it add TFLite operators, and restores the edges to its readers. If the added operators compute what the operator did, and every such operator comes after those whose results it reads, the pass succeeds; no such operator that is read is left; every other node stays as it was; each output has its OUTPUT node again, once; every tensor is made by a node and keeps its value; and the graph has exactly the edges of the inputs of its nodes.", "quantifier": "all graphs, all lowerings, all values", "why_tests_cant": "Tests convert networks whose own operators form chains; several readers, repeated inputs and readers that are themselves replaced meet in few of them, and a lost edge shows only in a later pass.", "anchors": ["tinynn/converter/operators/optimize.py: GraphOptimizer.transform_graph, is_transformable_node", "tinynn/converter/operators/graph.py: CommonGraph.add_operator, add_node, add_nodes, add_outputs, try_restore_edges"]}
{"id": "C150", "title": "Submodules are found under the names the tracer gives them", "statement": "__tag_nodes gives every module below the traced one a name made of attribute accesses, subscripts and get_submodule calls. Every module gets one; the name, written behind self, evaluates to that module; get_submodule_with_parent_from_name with inplace finds the module together with the module that holds it; and two modules never share a name. The second kind of name, with dots and dashes replaced, holds none of the replaced characters and is no number, and different modules have different ones.", "quantifier": "all module trees, all names, modules that occur several times", "why_tests_cant": "Tests trace models with ordinary names; dashes, dictionaries in lists, shared modules and containers as the traced module appear in few of them, and a wrong name shows only when the generated code is loaded.", "anchors": ["tinynn/graph/tracer.py: TraceGraph.__tag_nodes, get_submodule_with_parent_from_name"]}
{"id": "C151", "title": "Inputs and outputs get the wanted 8-bit type", "statement": "quantize_input_output_type_pass gives the selected inputs and outputs that have another 8-bit type the wanted one. It succeeds and leaves a well-formed graph; fed with the converted inputs the graph computes at every other tensor what it computed before; the outputs come in the same order, those that are changed are new tensors of the wanted type with the converted values; every output has exactly one OUTPUT node; all operators stay and only QUANTIZE operators are new. The codes and zero points stay in the range of the type and keep their differences.", "quantifier": "all graphs, all sets of inputs and outputs, all selections, all meanings of the operators", "why_tests_cant": "Tests convert a few quantized models with one input and one output; inputs read several times, outputs read by other operators, several outputs of one node, and partial selections do not occur in them.", "anchors": ["tinynn/converter/operators/optimize.py: GraphOptimizer.quantize_input_output_type_pass", "tinynn/converter/operators/graph.py: CommonGraph.add_operator, replace_next_tensors, add_outputs"]}
{"id": "C152", "title": "Layers for cross-layer equalization", "statement": "get_cls_set finds the pairs of layers that are equalized. Every group is a pair of supported layers of which the second reads the first through scalable nodes only and nothing else reads the values between; no group is found twice and a layer is first in at most one; the search ends. Where nodes follow each other without branches exactly those pairs are found. Scaling the output of the first layer and undoing it at the input of the second keeps the values at all other nodes, so the outputs.", "quantifier": "all graphs, all modules, all meanings of the layers, all scalings", "why_tests_cant": "Tests equalize a few classification models; modules that are used twice, linear layers directly after convolutions, and branches that end in layers are not compared with what the search should find.", "anchors": ["tinynn/graph/quantization/algorithm/cross_layer_equalization.py: graph_traverse, is_group_supported, get_cls_set"]}
{"id": "C153", "title": "Cross-layer equalization of two layers", "statement": "_weight_equal_helper divides the output channels of the first layer (weights and bias) by scales and multiplies the input channels of the second layer by them. With ReLU, LeakyReLU, PReLU or nothing between, the two layers compute the same as before. Afterwards the weights of both layers for a channel have the same range, the geometric mean of the ranges before, unless the scale is clamped; channels whose weights are below the threshold stay as they are; all scales are numbers.", "quantifier": "all weights, biases, numbers of groups and channels, thresholds, inputs", "why_tests_cant": "Tests equalize whole models and compare outputs; that ranges are equal afterwards is not tested, nor are grouped convolutions that are not depthwise or channels without weights.", "anchors": ["tinynn/graph/quantization/algorithm/cross_layer_equalization.py: equalize, _weight_equal_helper"]}
{"id": "C154", "title": "High biases are absorbed by the next layer", "statement": "bias_absorb_helper_ subtracts from the bias of a layer, where it is positive, the mean minus three standard deviations of its batch norm, and adds what the next layer makes of it to the bias of that layer. For values within three standard deviations of the mean that are not negative, and activations that keep what is not negative, the two layers compute what they computed before, also at padding and also after equalization. It works for all convolutions with batch norms.", "quantifier": "all weights, biases, batch norms, numbers of groups and channels, inputs", "why_tests_cant": "Tests run the absorption on whole models without comparing outputs before and after; values outside of the assumption hide what is due to padding or to batch norms that are out of date.", "anchors": ["tinynn/graph/quantization/algorithm/cross_layer_equalization.py: bias_absorb_helper_, cross_layer_equalize"]}
