# Design of the formal model

Subject: TinyNeuralNetwork (python), read as text in `/repo`, never run.
Prover: Rocq/Coq 8.16.1.  All files live in `rocq/theories/` (logical path `Verif`).

## Method

* Every python function that is modelled becomes one total Gallina function with the same branches.
  A comment above each definition cites the file and lines it models and says what was simplified.
* Python exceptions (index errors, failed asserts, `KeyError`, division by zero) are values (`None`, an
  error constructor).  Loops are structural recursion, folds, or fuel; a theorem shows the fuel suffices.
* What an operator *means* (transpose, gather, slice, pad, conv, concat ...) is specified separately in
  `Tensor.v` / `*Spec.v`, from the operator's documented semantics, without using helpers of the model.
  A rewrite theorem then says: graph before and graph after denote the same tensor.
* Real arithmetic: algebraic identities are proved over Coq's `R` (the standard library's axioms for the reals
  show up in `Print Assumptions`) or over `Z`/`Q` when only ring operations are involved.  Floating-point
  rounding of tensor arithmetic is *not* modelled except where named (C38 uses `SpecFloat` binary64).
* If the full statement is false for the code that exists, the theorem `..._refuted` gives a concrete witness
  computed with the model, and `..._partial` proves the statement on the exact domain where it holds.
* Theorems about properties are in `Properties*.v`, each closed by `exact` of a lemma with `Print Assumptions`
  beneath and an `Example` that meets its hypotheses beside it.

## Plan per property

| id | model | proof |
|----|-------|-------|
| C01 | tensors as shape + index function; `fuse_transpose_perms` as a fold | composition of permutations, induction on the chain |
| C02 | gather along an axis; the pass' fold and its "sorted" test | composition by induction; removal refuted for sorted proper subsets |
| C03 | strided slice per axis; `fuse_slices` as a fold | arithmetic of arithmetic progressions, induction on the chain |
| C04 | `is_simple_reshape` two-pointer scan | invariant: equal filtered prefixes |
| C05 | `reshape_mapping` scan | invariant on running products |
| C06 | `lower_transpose_dim_pass` computation of shapes/perm | refuted by witness; partial for the involutive merged case |
| C07 | `get_same_padding_args`; windowed reduction with SAME/VALID padding | index arithmetic per axis; max-pool refuted |
| C08 | `fuse_bn_weight/bias`, fusability test with activations | real algebra over sums; activation order |
| C09 | `fuse_rev_bn_weight/bias` | real algebra; border refuted |
| C10 | edge test + operand choice | refuted when the root is the numerator; partial otherwise |
| C11 | tile and broadcast semantics | index algebra with `mod` |
| C12 | weight re-indexing with indices / argsort | permutation inverse; refuted for selections |
| C13 | the 10-ary regrouping loop | strong induction on the number of inputs |
| C14 | split + per-group conv + concat | index algebra; scales part refuted if not split |
| C15 | as C14 for transposed conv with activation flag | refuted (activation dropped), partial without activation |
| C16 | FC with activation followed by add | refuted with ReLU, partial without |
| C17 | axis/pad/slice remap functions | equality of tensors for every perm |
| C18 | graph as predecessor lists; explicit stack loop | invariant on the loop; completeness by counting |
| C19 | collection loop over an arbitrary ordering of the tensor set | induction |
| C20 | transcription of the whole version table | case analysis; refuted rows SUB/TILE/SPACE_TO_BATCH |
| C21 C22 C24 | byte re-encoding arithmetic with wrap-around | `lia` over Z; int16 refuted |
| C23 C50 | rounding to nearest-even on reals | bounds |
| C25 | merging loop over list of pairs | invariant on set of edges; termination measure |
| C26 | cleanup loop over graph | reachability |
| C27 | fresh-name loop with fuel | pigeonhole |
| C28 | per-operator no-op tests | equality of tensors |
| C29 | grouping by key | induction |
| C30 C31 | small graph models of the passes | refuted by witness, partial with single consumer / node |
| C32 C33 C40 | list-of-set algorithms | invariants, equivalence closure |
| C34 | stable sort + take | permutation/sorting lemmas |
| C35 | CPython `set` of small ints (open addressing with table sizes) | refuted by `vm_compute`; partial for ascending orders |
| C36 C37 C38 | transcription | refuted by witness, partial |
| C39 C41 C42 | linear algebra of channel selection | sums over index lists |
| C43 C44 C45 C46 | real algebra | sums, `field` |
| C47 C48 | rounding, threshold search with abstract divergences | bounds, invariants |
| C49 | int8 bit operations on Z | `Z.testbit`/exhaustive on a *finite domain lifted by a proof* |
| C51 C52 C55 | real algebra | `ring`/`field` |
| C53 C54 C56 | state machines | induction over histories |
| C62 | sums over bins | telescoping sums, invariant of the search loop |
| C63 C64 | lowering of convolutions: composition of the emitted operators | index arithmetic, exchange of sums |
| C65 C66 C67 | lowering of pooling: composition of the emitted operators | window arithmetic, folds over windows |
| C68 - C72 | lowering of element-moving operators | index arithmetic, sums over scattered indices |
| C73 C74 C75 | lowering of reductions and normalisations | fibres of index sets, broadcasting |
| C76 C77 C78 | lowering of indexing operators | flat positions modulo tails of a shape, sums with one nonzero term |
| C79 C80 C81 | lowering of padding and resampling | reversed rows by position, floor of exact quotients, one-axis interpolation lemma |
| C82 C83 C84 C85 C86 C87 | lowering of elementwise operators | case analysis on types, broadcasting lemmas, rounding lemmas, Flocq for IEEE selection |
| C88 C89 C90 C91 | lowering of matrix products, softmax, axis permutations | shape splitting, sums over indices, permutation lemmas |
| C92 C93 C94 | lowering of LSTM and GRU | relation between tensors and activation functions kept step by step, layer by layer |
| C95 C96 | moving transposes and reshapes across a reshape or another node | flat indices of reshapes, axes of length one erased, pairing of axes |
| C97 | quantizable GRU | induction over steps and layers, relation of tensors to functions (as C94) |
| C98 | QAT transposed convolution with batch norm | linearity of the transposed convolution in its weight, invariant of the mode |
| C99 | removed channels of the pruner | invariants of the aggregation over the leaves; one set of labels is decided by the first center and carried by the order of visits |
| C100 | quantized layers | error of one rounded bias, sums over taps, exponents by Flocq `mag` |
| C101 C102 | quantization passes | counting argument for the selection, monotone rounding, idempotent quantization |
| C103 C104 | generated code and edits of the traced graph | last-reader invariant for the released names, simulation between the environments of two programs |
| C105 | insertion between nodes and in front of outputs | the two programs agree off the new name; the wrong cases are computed on small graphs |
| C106 C107 | dead nodes and extraction | the search visits what is needed, its fuel is the number of links; the run of the part mirrors the run of the graph on the nodes kept |
| C108 C109 | transposes as reshapes | row-major positions ignore axes of size one; the axes matched by size are counted; a RESHAPE that adds axes is the inverse of one that drops them |
| C110 C111 C112 | chains taken out of the operator graph | an invariant of the half-rewritten graph (live edges, names, buffers) with a renaming back to the first graph; evaluation by rank; the lists of chains are disjoint by the lemmas on merged edges of C25 |
| C113 C114 C115 C116 C117 C118 C119 | operators written in place of others | texts of arguments as an inductive type, one rule for binding parameters on both sides; batch statistics through a bijection of indices |
| C120 C121 C122 | stubs on the traced graph | one invariant for both loops, with the nodes inserted so far numbered by an interval; a removed pair as a change of the meaning of two nodes |
| C123 C124 C125 | channel numbers | wirings of operators as relations between elements; one invariant for soundness and one for exactness, by cases on the operator; sums of slices by permutation of one slice |
| C126 C127 | channels without variance | the writes into the nested dictionaries as one list; membership of the list against a relation between channels and leaf indices |
| C128 | observers at concatenations | the list of processed queue entries with its origin; induction along it upwards and along paths downwards; a weight per node for the end of the loop |
| C129 C130 C131 | NetAdapt | invariant of the search: the running count is exact, and a constant step means no square term; polynomials per layer; the count over the budget as measure |
| C132 | requantize fusion | an invariant over the pending edges: edges cover all readers, and a tensor whose quantization was changed still has a requantize reader with that quantization |
| C133 C134 | parameters set by hand | real arithmetic with round-half-even; the fold over modules is split at the one module that touches the fake quantization |
| C135 C136 C137 | ADMM pruning | entrywise projection, an exchange argument for the least channels, the derivative of the penalty with the slope of U, floors of rational quotients |
| C138 | transposed outputs | an invariant of the pass with the edges still to be deleted, counts of edges against counts of inputs, values by induction over the outputs |
| C139 | branching reshapes and transposes | an invariant of the copies, the delayed replacements one by one, counts of edges against counts of inputs |
| C140 C141 | fused activations and batch norms | the state of the loop in closed form over the chosen edges, one proof for both passes |
| C142 | conversion of a traced program | the walk next to two runs of the program, on the dummy input and on any other; names of one scope at a time, the others framed |
| C143 | half precision constants | adding a node keeps a graph consistent; replacing an input by a tensor of the same value (C139) |
| C144 | error reports | dictionaries filled by hooks as last calls and first calls; stable insertion sort |
| C145 | transposed inputs | edges deleted at the end by index against the graph without them; readers renamed by the tensors done so far |
| C146, C147 | configuration files | induction over the entries; a pattern without overlap is replaced once |
| C148 | lists among the outputs | induction over the names that are added; counting OUTPUT edges |
| C149 | replacing the own operators | one invariant over the operators done so far, with the edges that are still to be restored |
| C150 | names of submodules | names as lists of tokens; the two substitutions and the evaluation are run along the tokens; the queue by total size |
| C151 | types of inputs and outputs | invariant of the edges not yet removed (as C145) for the inputs, a second one over the mapping for the outputs, then OUTPUT nodes added and removed |
| C152 | layers for equalization | invariant of the recursive search (current group = a layer and scalable nodes after it); chains by induction on the distance to the output; a scaled valuation as witness |
| C153 | scaling of two layers | arithmetic of reals, `sqrt`; index computation of the permuted weight |
| C154 | absorbing biases | shift of both sums, case analysis of the shapes that fit |
| C59 | `BatchNormOperator.transform` | broadcasting + `field` |
| C60 | `fuse_same_padding_slicing` | index shift in the transposed convolution |

The final status of each property is in `MANIFEST.json`; the trusted base is listed at the end of this file
and updated with every milestone.

## Trusted base

* the Coq 8.16.1 kernel and `vm_compute`;
* the axioms printed by `Print Assumptions` under each theorem.  They are all from the standard library:
  `ClassicalDedekindReals.sig_forall_dec`, `ClassicalDedekindReals.sig_not_dec`,
  `FunctionalExtensionality.functional_extensionality_dep` (the axioms of `Reals`) and, in
  `C38_view_size_partial`, `C61_cell_scale`, the theorems `C84_softplus_*`, `C84_mish`, `C86_*`, `C90_log_softmax`, `C92_recorded_state_refuted`,
  `C92_state_outputs_refuted` `C93_*_refuted`, and the `C100` theorems about `conv_operands`, `linear_operands` and `rescale` only, `Classical_Prop.classic` (through lemmas of Flocq about
  rounding and of the standard library about `ln` and `exp`; Flocq adds no axiom).  Theorems over nat/Z/Q are closed;
* the transcription from python to Gallina.  The comment on every definition names the lines and what was
  simplified;
* the semantics of the operators in `Tensor.v`, `ConvSpec.v`, `CatSpec.v`, `LayoutSpec.v`, `AtenSpec.v`, `PoolSpec.v`, `MoveSpec.v`, `NormSpec.v`, `IndexSpec.v`, `ResizeSpec.v`, `EltSpec.v`, `LinSpec.v`, `RnnSpec.v`, `QatSpec.v`, `PruneIdxSpec.v`, `QLayerSpec.v`, `PassQuantSpec.v`, `TraceSpec.v`, `TraceSubSpec.v`, `PassWrapSpec.v`, `ElimSpec.v`, `QRewriteSpec.v`, `TraceStubSpec.v`, `PruneTrackSpec.v`, `PruneTrackPathSpec.v`, `PruneBnSpec.v`, `CatObsSpec.v`, `NetAdaptSpec.v`, `RequantSpec.v`, `QStatsSpec.v`, `AdmmSpec.v`, `OutTransSpec.v`, `BranchSpec.v`, `FuseActSpec.v`, `InitOpsSpec.v`, `HalfSpec.v`, `ErrAnaSpec.v`, `InTransSpec.v`, `CfgSpec.v`, `UnpackSpec.v`, `TransformSpec.v`, `NamesSpec.v`, `QuantIOSpec.v`, `ClsSpec.v`, `CleSpec.v`, `HbaSpec.v`, `QuantSpec.v` (documented behaviour of the TFLite and
  torch operators), including numpy broadcasting;
* for C35: the iteration order of CPython `set` of small ints (`setobject.c`: open addressing, linear probes of
  9, growth).  The table grows by a factor 4 in the model, CPython switches to 2 above 50000 entries;
* for C38: python floats are IEEE binary64 with round-to-nearest-even, modelled by `SpecFloat`.

### What is modelled

| code | file | properties |
|------|------|------------|
| `optimize.py`: chains of transpose/gather/slice/reshape, transpose lowering, edge merging | `ChainModel.v` | C01-C06 C25 C57 |
| `modifier.py`, `oneshot_pruner.py`, `util.py`: set algorithms of the pruner | `PruneModel.v` | C32-C38 C40 C42 |
| `optimize.py`: batch-norm, padding, rsqrt, tile, gather, matmul fusion; `transformable.py` batch-norm | `FuseModel.v` | C07-C12 C16 C59 C60 |
| `optimize.py`: splitting wide concatenations and grouped (transposed) convolutions | `RewriteModel.v` | C13-C15 |
| `optimize.py`: moving a transpose across one node, removal of no-op nodes | `PassModel.v` | C17, C28 |
| `graph.py`: `topological_sort`, `collect_operators`, `collect_tensor_buffers`, `add_nodes`, `replace_operator_input`; `optimize.py`: `cleanup_dead_nodes`, `group_tensors_pass`, `fuse_quant_dequant_nodes`, `split_requantize` | `GraphModel.v` | C18 C19 C26 C27 C29 C30 C31 |
| `op_version.py`: `process_op` | `VersionModel.v` | C20 |
| `tflite/base.py`: `Tensor.__init__`; `optimize.py`: input/output type override; `hybrid_quantizer.py`: `quantize`, 16-bit LSTM parameters; `fake_quantize.py`; `observer.py`: search of the KL observer (divergences arbitrary) | `QuantModel.v` | C21-C24 C47 C48 C61 |
| `llm_quant/modules.py`: `compress_int`, `QLinear` without the accelerated kernels | `LlmModel.v` | C49-C51 |
| `cross_layer_equalization.py`: `equalize`, `_weight_equal_helper`, `bias_absorb_helper_`; `quantization/utils.py`: `fuse_conv_bn_weights`, `fuse_bn_conv_weights` | `EqModel.v` | C43-C46 |
| `util/train_util.py`: `AverageMeter`, `train`; `util/bn_restore.py`: `ConvBnTrain`; `util/util.py`: `LazyObject.get_next` | `UtilModel.v` | C53-C56 |
| `torch/aten.py`: `ATenSliceOperator.parse` on one axis | `SliceModel.v` | C58 |
| `quantization/modules.py` (quantize/dequantize stubs as identity) | `QModModel.v` | C52 |
| `graph/modifier.py`: `register_mask`, `modify_input`, `modify_output` of conv, transposed conv, linear, batch norm, PReLU; `is_dw_conv`; batch-norm compensation; one-dimensional layer norm. Chains only: add, concat, split and recurrent layers are not in the chain | `ShrinkModel.v` | C39 C41 |
| `graph/quantization/observer.py`: `HistogramObserverKL` (exact reals; `F.kl_div` is an argument) | `HistModel.v` | C62 |
| `tflite/transformable.py`: `GenericConvOperator.transform`, `GenericTransposeConvOperator.transform` (float) | `AtenConvModel.v` | C63 C64 |
| `torch/aten.py`: `ATen{Max,Avg,AdaptiveAvg,AdaptiveMax}Pool{1d,2d}Operator.parse`; `torch/base.py`: `handle_padding`, `wrap_ops_with_nhwc_nchw_transposes` (float) | `AtenPoolModel.v` | C65 C66 C67 |
| `torch/aten.py`: roll, flip, pixel_shuffle, pixel_unshuffle, expand, repeat, repeat_interleave, split, chunk, stack, glu, im2col, col2im | `AtenMoveModel.v` | C68 C69 C70 C71 C72 |
| `torch/base.py`: handle_reduce; `torch/aten.py`: mean, sum, prod, amax, amin, argmax, argmin, var, std, norm, layer_norm, instance_norm, group_norm | `AtenNormModel.v` | C73 C74 C75 |
| `torch/aten.py`: index, index_select, gather, scatter, index_put | `AtenIndexModel.v` | C76 C77 C78 |
| `torch/aten.py`: constant_pad_nd, pad, reflection_pad1d/2d, upsample_nearest2d, upsample_bilinear2d | `AtenResizeModel.v` | C79 C80 C81 |
| `torch/aten.py`: elementwise binary operators, comparisons, clamp, hardtanh, softplus, mish, silu, hardsigmoid, gelu, prelu, masked_fill, where; `torch/base.py` elementwise_binary, quantize_numpy, quantize_scalar_tensor | `AtenEltModel.v` | C82 C83 C84 C85 C86 C87 |
| `torch/aten.py`: matmul, mm, bmm, linear, addmm, addbmm, baddbmm, softmax, log_softmax, permute, transpose, select, unbind, embedding | `AtenLinModel.v` | C88 C89 C90 C91 |
| `torch/aten.py`: lstm, gru (float) | `AtenRnnModel.v` | C92 C93 C94 |
| `optimize.py`: `elementwise_reshape_transpose_passthrough_pass`, `elementwise_op_reshape_passthrough_pass` (per node) | `PassReshapeModel.v` | C95 C96 |
| `graph/quantization/quantizable/gru.py`: `GRUCell.forward`, `_GRULayer.forward`, `GRU.forward`, `from_float` (weight order); observers absent | `QGruModel.v` | C97 |
| `graph/quantization/qat_modules.py`: `_ConvTransposeBnNd._forward`, `transform`, `train`, `freeze_bn_stats`, `update_bn_stats`; the weight fake-quantizer is any function that keeps the shape | `QatModel.v` | C98 |
| `graph/modifier.py`: `SubGraph.calc_prune_idx` and `calc_prune_idx_by_center_importance` 2734-3185 and `Modifier.get_pruned_idx` 791-812; python sets are lists, importances are rationals | `PruneIdxModel.v` | C99 |
| `torch/quantized.py`: conv, conv_transpose, linear, mul, mul_scalar, add, add_scalar; `torch/base.py`: `quantize`, `rescale_weight_scale_for_qnnpack`; scales are reals, the result of an out-of-range conversion is an argument | `QLayerModel.v` | C100 |
| `optimize.py`: `elementwise_op_quantize_passthrough_pass` (per node), `fuse_dequant_quant_pass` (per chain), `op_input_indices`; kernels exact, scales reals | `PassQuantModel.v` | C101 C102 |
| `tracer.py`: `__gen_forward_code`, `recompute_forward_order`, `prev_node_unique_name`, `insert_after`, `remove_node`, `replace_tensor_name`; names are numbers, in-place operators and properties left out | `TraceModel.v` | C103 C104 |
| `tracer.py`: `insert_between` (new and existing node), `insert_before` (one module, list in front of a returned list); insertion before an existing node left out | `TraceInsertModel.v` | C105 C120 |
| `tracer.py`: `eliminate_dead_graph_pass`, `__active_detection`, `reset_input_output_for_graph`, `assert_is_subgraph` | `TraceSubModel.v` | C106 C107 |
| `optimize.py`: `transpose_to_reshape_pass`, `fuse_wrapped_reshape_within_transpose_pass`, `fuse_transpose_perms_extended` | `PassWrapModel.v` | C108 C109 |
| `optimize.py`: `elinimate_sequences`, `remove_noop_pass`, `is_ending_with_noop_edge`, `fuse_simple_transpose_pass`, `fuse_simple_reshape_pass` on the graph; `graph.py`: `connect_next_tensors`, `replace_next_tensors`, `replace_operator_input`, `remove_operator_input`, `add_nodes` (operators are functions of their inputs; `tensor_map` left out) | `ElimModel.v`, `ElimLayoutModel.v` | C110 C111 C112 |
| `quantization/quantizer.py`: the operators written by `rewrite_quantize_graph` in place of neg, div, sub, stack, clamp, leaky_relu, elu, glu, dropout, pools of one element, Linear-BatchNorm1d, BatchNorm1d, and for broadcasting (calls over the reals; not the conditions on types and `layerwise_config`, nor the stubs) | `QRewriteModel.v` | C113 C114 C115 C116 C117 C118 C119 |
| `quantization/quantizer.py`: the QuantStub and DeQuantStub nodes around operators without a quantized kernel and the removal of pairs (2698-2834; which operators these are, which pairs `layerwise_config` keeps and which nodes are properties are arguments; the names are numbers) | `TraceStubModel.v` | C121 C122 |
| `graph/modifier.py`: the channel numbers on one path (`fill_tensor_by_dim_changes`, `calc_dim_changes`, `calc_dim_constraint`, `update_i`, `dim_change_forward` of the default, reindexing, padding, pooling, depthwise convolution, linear layer and concatenation on the channel axis; integers for floats, the other inputs hold -1) and `SplitModifier` | `PruneTrackModel.v` | C123 C124 C125 |
| `graph/modifier.py`: `calc_prune_idx_by_bn_variance` (2596-2732), on the maps of `PruneIdxModel.v`; `running_var < 1e-8` of the leaves that are batch normalizations and not in `ignored_bn` is given; the order of a set is not modelled | `PruneBnModel.v` | C126 C127 |
| `graph/quantization/quantizer.py`: `disable_requantization_for_cat_pass` (1210-1343); nodes as numbers, observers as numbers in slots; which slots a node has is given | `CatObsModel.v` | C128 |
| `prune/netadapt_pruner.py`: `find_prune_plan` (205-294), the rounds of `prune` (303-373), results of `get_pruned_subgraph_info` (142-203), training and validation given; `prune/base_pruner.py`: `calc_flops` (185-247); floats as rationals | `NetAdaptModel.v` | C129 C130 C131 |
| `converter/operators/optimize.py`: `fuse_requantize` (385-463), `is_requantize_fusable_edge` (3722-3740); `graph.py`: `connect_next_tensors`, `replace_next_tensors` (354-420); single outputs, no element types | `RequantModel.v` | C132 |
| `graph/quantization/quantizer.py`: `prepare_quantized_inputs_pass` (1345-1362), `set_module_quantization` (1397-1442), `rescale_activations_with_quant_min_max` (1444-1466); integer means, exact arithmetic; torch `_calculate_qparams` as documented | `QStatsModel.v` | C133 C134 |
| `prune/admm_pruner.py` (44-153), `prune/oneshot_pruner.py`: `register_mask` (135-154); `graph/modifier.py`: `l1_norm`, `l2_norm` (107-138); exact arithmetic, autograd as a derivative, training arbitrary | `AdmmModel.v` | C135 C136 C137 |
| `converter/operators/optimize.py`: `output_transpose_pass` (3181-3393); `graph.py`: `add_operator`, `add_outputs`, `remove_operator_input`, `replace_operator_input` (211-324); no attribute inputs, outputs of a node handled one by one | `OutTransModel.v` | C138 |
| `converter/operators/optimize.py`: `branch_reshape_expand_pass`, `branch_transpose_expand_pass` (1240-1314), `is_reshape_branch_edge`, `is_transpose_branch_edge` (4150-4169), `expand_op_outputs_in_branches` (4814-4842); the order of a Python set is an argument; attributes without edges | `BranchModel.v` | C139 |
| `converter/operators/optimize.py`: `fuse_activation` (234-266), the graph part of `fuse_conv_fc_bn` (95-170), `is_bn_fusable_edge` (3636-3652), `is_activ_fusable_edge` (3743-3762); `graph.py`: `connect_next_tensors` (354-384); the folded weights are an argument | `FuseActModel.v` | C140 C141 |
| `converter/base.py`: `init_operations` (397-493), `init_common_graph` (350-368), `init_inputs` (370-376); `converter/operators/torch/prim.py`: `PrimIfConverter` (96-112), `PrimPythonOpConverter` (168-197), `PrimReturnConverter` (200-212), `PrimParamConverter` (214-226); `torch/base.py`: `get_tensor_name`, `get_input_tensors` (60-82), `find_or_create_input` (209-218); the entries of `OPERATOR_CONVERTER_DICT` that are not tracked (223-236). What torch computes for an operator or a python function is an argument | `InitOpsModel.v` | C142 |
| `converter/operators/half_quantizer.py`: `quantize_pass` (50-77), `is_quantizable_node` (80-84); `converter/operators/graph.py`: `add_operator` (228-244), `replace_operator_input` (298-324, with BranchModel.v). Rounding and dequantizing are arguments | `HalfModel.v` | C143 |
| `util/quantization_analysis_util.py`: `layer_error_analysis` (75-174), `graph_error_analysis` (177-256). What a run of the model calls, the quantization of a module and the metric are arguments; torch's `disable_fake_quant` and `disable_observer` are taken from torch | `ErrAnaModel.v` | C144 |
| `converter/operators/optimize.py`: `input_transpose_pass` (3012-3067); `converter/operators/graph.py`: `replace_next_tensors` (386-420), `add_operator` (228-244). Shapes are left out; what the operators compute is an argument | `InTransModel.v` | C145 |
| `util/converter_util.py` (14-233); `converter/base.py`: `init_flatten_inputs` (329-336), `init_input_transpose` (338-348), the dump of the configuration (271-280), `inputs_for_tflite` (630-643). JSON keeps the dictionary; deeper nesting is left out | `CfgModel.v` | C146, C147 |
| `converter/operators/optimize.py`: `output_list_unpack_pass` (3426-3440), `connect_unused_tensors_pass` (3395-3424), `is_multi_output_op_node` (3807-3808); `converter/operators/graph.py`: `add_outputs`, `add_nodes` (116-156, 211-226) | `UnpackModel.v` | C148 |
| `converter/operators/optimize.py`: `transform_graph` (706-747), `is_transformable_node` (3795-3796); `converter/operators/graph.py`: `add_nodes`, `add_node`, `add_outputs`, `add_operator`, `try_restore_edges` (116-260); the operators that `transform` adds are an argument | `TransformModel.v` | C149 |
| `graph/tracer.py`: `__tag_nodes` (1930-2003, modules only), `get_submodule_with_parent_from_name` (2553-2571); parameters and buffers are left out | `NamesModel.v` | C150 |
| `converter/operators/optimize.py`: `quantize_input_output_type_pass` (3069-3179), with `add_operator`, `replace_next_tensors`, `add_outputs` (`graph.py` 211-244, 386-420); the arrays of the tensors are left to the meaning of QUANTIZE | `QuantIOModel.v` | C151 |
| `graph/quantization/algorithm/cross_layer_equalization.py`: `graph_traverse`, `is_group_supported`, `get_cls_set` (22-76); the arithmetic of `_weight_equal_helper` is left to the meaning of the layers | `ClsModel.v` | C152 |
| `graph/quantization/algorithm/cross_layer_equalization.py`: `equalize`, `_weight_equal_helper` (79-129), reals for floats | `CleModel.v` | C153 |
| `graph/quantization/algorithm/cross_layer_equalization.py`: `bias_absorb_helper_`, `bias_absorb_`, `high_bias_absorb` (204-252, 283-296), reals for floats | `HbaModel.v` | C154 |

### What is not modelled

The igraph bookkeeping of the passes (vertex deletion, restoring edges, tensor maps) unless a property is about
it; rounding of tensor arithmetic; the torch operators themselves; flatbuffer serialisation; how the tracer hooks
torch and records a graph, and the text of the generated code (the order, the names and the releases of its lines
are in `TraceModel.v`); training loops other than the parts named above.
