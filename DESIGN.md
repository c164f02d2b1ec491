# Formal model of tensorflow-onnx in Rocq (Coq 8.16.1)

Source under study: `/repo` (onnx/tensorflow-onnx at the pinned commit).  Nothing of it is
executed; the model is a hand translation, function by function, and every definition in a
`*Model.v` (or the model section of a file) cites the file and lines it models.

## Conventions

* One area = one group of files in `rocq/theories/`: model, proofs, and the property theorems
  in files called `Prop_*.v`, which contain only statements closed by `exact lemma`, followed by
  `Print Assumptions`, plus non-vacuity `Example`s.
* Python exceptions are values (`option`, or a `result` type); loops are structural recursion,
  or recursion on explicit fuel whose exhaustion is a distinguished value that the theorems
  exclude by proving that it never happens.
* Python `dict` is modelled by an association list or a total function with default; insertion
  order matters only where the code iterates over the dict, and there lists are used.
* Meaning of operators: theorems about graph rewrites quantify over an arbitrary interpretation
  of every operator (a parameter), so they hold for whatever ONNX says an op computes, except
  for ops whose meaning the rewrite relies on (Identity, Transpose, Reshape, Slice, Cast ...),
  which are given by an explicit small specification.
* `…_refuted` : the property as stated in properties.jsonl is false of the faithful model; the
  theorem exhibits a concrete witness.  `…_partial` : a proved fragment of the property.

## Semantic layer for graph rewrites (FGraph*.v)

`FGraph.v` gives a graph (with nested body graphs) a relational meaning: a valuation of tensor names
satisfies a node when the operator's relation (a parameter, arbitrary apart from what a theorem
names) holds between input values, body meanings and output values; a body graph relates arguments
to results when some valuation agreeing with the surrounding scope satisfies all its nodes.
`body_rel r g args res` is that relation, and two graphs are equivalent when it coincides for every
scope, arguments and results.  This is order free, so it needs no evaluation order.  Optimizers are
modelled on this representation and lifted through nested bodies by `apply_opt`
(optimizer_base.py: every optimizer runs on the bodies first and then on the graph).

## Plan per property
* C01 Generated names never repeat: counter + string concatenation model; injectivity of decimal printing; induction on call history.
* C02 Generated names never collide with names of a loaded model: regex suffix parser model; every scanned name n satisfies: n = base__k implies k < counter.
* C03 Tensor name <-> node name/port mapping is lossless: string splitting model; round trip lemmas.
* C04 Combined random seed is collision free: Z arithmetic (triangular numbers), injectivity.
* C05 Shape compatibility and merging is sound and complete: shape = option (list dim); refinement relation as the independent spec; exactness of merge.
* C06 Broadcast shape inference never claims a wrong shape: inference model + numpy broadcasting spec; refuted for different ranks, partial for equal ranks.
* C07 Dependency sort returns each item once, after its dependencies, or reports a cycle: explicit stack machine of the code with visiting/visited sets; invariant proof + cycle characterisation.
* C08 Exported node order is a valid ONNX execution order: DFS label model of Graph.topological_sort; permutation + order + cycle iff error.
* C09 Consumer lookup is exact after any edit history: record with nodes + consumer index; invariant over arbitrary op lists.
* C10 Producer and name lookups are consistent after any edit history: same record; invariant over arbitrary op lists.
* C11 Global input replacement rewires every occurrence and nothing else: same record; functional effect of replace_all_inputs; nested graph part refuted/partial.
* C12 Dead node removal keeps exactly what the outputs need: reachability closure model vs. inductive reachability spec; valuation semantics.
* C13 Evaluation is independent of the chosen topological order: execution in order vs. consistent valuations.
* C14 Identity elimination preserves results and the model's output names: valuation semantics, all op meanings.
* C15 Identity elimination reaches a fixed point: loop model with the overwritten has_update flag; the single pass is shown to suffice on valid models.
* C16 Merging duplicated nodes preserves results: valuation semantics; refuted for domain, partial for the guarded case.
* C17 Constant folding computes what the operator would have computed: tensors as shape x flat row-major data (Tensor.v), ONNX operator specs as relations (OnnxSpec.v, FoldOnnxSpec.v), numpy calls and the nine folding functions modelled (FoldModel.v, FoldMapModel.v), the in-place pass over the node list as index iteration (FoldGraphModel.v). Proved: every folding function returns the unique ONNX value; the pass preserves the relation computed by the graph, terminates, leaves nothing foldable; allowzero=1 is a counterexample. Not modelled: element arithmetic of the data types (a parameter), constants captured from an enclosing graph.
* C18 Fusing consecutive Transposes is exact: fusion rule over perm lists, ONNX Transpose as an index relation; permutation algebra.
* C19 Fusing consecutive Casts is exact: false (two counterexamples); positive part for lossless first casts, numbers as rationals, types as value sets (CastSpec.v).
* C20 Fusing consecutive Reshapes is exact: false for a 0 in the second target; positive part otherwise.
* C21 Cancelling Squeeze/Unsqueeze is exact: axis relations of both operators.
* C22 Folding BatchNormalization into Conv: 2-D convolution with groups/strides/dilation/padding over the reals (ConvSpec.v); uses the axioms of the standard library's reals.
* C23 PushSpec gives the operators as relations on tensors; PushModel/PushConvModel the attribute computations of transpose_optimizer.py; PushProofs* prove 'Transpose p ; op = op' ; Transpose q' for all tensors; SwitchModel/SwitchProofs* lift this to graphs with nested bodies (exchange of two nodes: new rank function for acyclicity, valuations changed at two names).
* C24 ReshapeModel.v models symbolic_executor.py and reshape_optimizer.py's shape calculation; ReshapeSpec.v states the ONNX operators on the shape computation; Prop_Reshape.v proves the executor sound and the optimised Reshape equal to the original for every valuation of the nodes, and refutes it for a 0 entry with a shift, negative Squeeze axes and value-changing Cast. Not modelled: the node list edit, int64 overflow.
* C25 A failing optimizer never damages the model: DriverModel (mutable graph heap, deepcopy, optimizers as arbitrary heap transformers that may raise after partial mutation); proved in Prop_Driver: a raised optimizer leaves the current graph untouched, any relation kept by every returning optimizer is kept by the driver, strict mode propagates.
* C26 Converter selection: HandlerModel (registry as nested insertion-ordered dictionaries, create_mapping loops); proved in Prop_Handler against a specification over the registration history only (iff).
* C27 Schema selection: HandlerModel.get_schema / max_supported; proved in Prop_Handler (newest, none-iff, maximum).
* C28 Pattern matching: MatchModel (pattern trees, itertools.permutations order, exceptions on missing producers, the MatchResult dictionaries); proved in Prop_Match: sound, complete, whole-graph iteration exact, bindings real and one per element; refuted: consistency for pattern objects used twice, never raising.
* C29 FlexBuffer decoding: FlexModel (whole flexbuffers.py, Python slicing included; floats and strings as raw bytes; recursion limit as fuel); proved in Prop_Flex against the format as a relation (FlexSpec, writing direction) and against a concrete writer (FlexWriter).
* C30 WeightsModel.v models parse_tflite_string_tensor on byte lists; WeightsSpec.v writes the DynamicBuffer layout; round trip by induction over the strings.
* C31 WeightsModel.v models read_tfjs_weight, read_string_weight and the loading loop; round trip (any sharding) and its converse (accepted data is exactly the concatenated encodings) by induction over the manifest; refutations for trailing NULs and several manifest groups.
* C32 NNModel.v models add_padding over integer shapes; NNSpec.v has TensorFlow's padding formulas and ONNX's pads/auto_pad semantics per axis; arithmetic proof that output size and window start agree.
* C33 NNModel.v models the permutations and shape helpers; proved inverse for every rank by list reasoning.
* C34 inputs_as_nchw (Layout*.v): transpose_inputs on the relational graph semantics; theorem: body_rel of the new graph on channel-first arguments iff body_rel of the old one; recorded shapes stay right.
* C35 outputs_as_nchw: proved when the output's Identity is the only reader of its input (partial; holds after Graph.__init__ for outputs not used inside, via C51); refuted for outputs whose value is used inside (the transpose is inserted before all readers).
* C36 StridedSlice. Specification (StridedSpec.v): an index expression is a list of entries (ellipsis, newaxis, index, b:e:s) decoded from begin/end/strides and the five masks with TensorFlow's precedence; an inductive relation view gives the output shape and, for each output index, the input index. Model (StridedModel.v): the loops of version_1 and any_version_after10 with the mask arithmetic, the ellipsis gap, the Unsqueeze axes, the 1e9 replacements and the float32 round trip of the Max node used when values are not constants. Proof: a plan with one cell per axis of the unsqueezed tensor is built from the view; Unsqueeze/Slice/Squeeze are characterised against the plan; the loops are shown by induction to produce parameters that realise the plan. Not modelled: the Casts for opset < 9, overflow of the conversion back from float32. Refuted outside the stated domain (8 theorems).
* C37 InlineModel.v (parameter_binding, bind_inputs, prefix_graph as a loop over a copied node list with replacement in kept/todo nodes and bodies, inline_subgraph, wire_if_branch); InlineSpec.v: valuation semantics of function graphs, conditions inlinable/fresh_in; proved by an explicit description of the renamed copy (InlineProofs*.v), soundness and completeness of valuations through the renaming. Not modelled: shapes, dtypes, while wiring.
* C38 External tensor file names are unique: string model with counter suffix.
* C39 QDQ pairs: quantise/dequantise over Q/R and Flocq binary32-precision reals (library only; axioms are the stdlib reals' sig_forall_dec, sig_not_dec, functional_extensionality_dep and Classical_Prop.classic); remove_pair and push_dequantize of q_dq_optimizer.py on FGraph (QdqModel.v), meaning of copying operators in QdqSpec.v; overflow, multi-output nodes and the Q push-up of lines 54-79 not modelled.
* C40 GlobalAveragePool/GlobalMaxPool: reductions are an arbitrary aggregation of the list of elements with the kept coordinates (PoolSpec.v); optimize_reduce of global_pool_optimizer.py on FGraph; graph theorem through SplitProofs (one node becomes two) with the constant for Squeeze's axes from opset 13.
* C41 Generated names avoid every name of a loaded model: see the Prop file named in MANIFEST.json.
* C42 Shape inferred for a Merge covers both branches: see the Prop file named in MANIFEST.json.
* C43 Structural shape inference is sound: see the Prop file named in MANIFEST.json.
* C44 Function resolution order respects calls and drops nothing: see the Prop file named in MANIFEST.json.
* C45 Conversions are independent: sequences of conversions over the shared registry; refuted in general, proved when the custom-op domain is not requested.
* C46 Domain fallback: find_effective_op with a domain; refuted in general, proved when a larger usable version exists.
* C47 NNSpec.v gives tf.nn.convolution and ONNX Conv as relations on real tensors with any number of spatial axes; convert_conv models ConvOp.any_version; proof by index transport through the transposes and exchange of finite sums.
* C48 as C47, plus the Reshape of the filter (row-major position argument).
* C49 pooling as an arbitrary aggregate of the non-padding window elements; same transport argument.
* C50 axis-level alignment and size of ConvTranspose with explicit pads against the forward SAME/VALID formulas.
* C51 Graph.__init__ 503-537: wrap_outputs as a fold over the outputs; invariant WW and equality of the values of all old tensors; duplicates in the output list not modelled.
* C52 Graph.__init__ 480-499: cut_inputs renames the producer's output; runs of old and new graph related both ways.
* C53 WhileSpec.v defines TensorFlow's While and ONNX's Loop as inductive relations over arbitrary values and operators; WhileModel.v models controlflow.py 369-654 on the graphs of InlineModel. WhileProofs*.v prove by induction on the executions that states of the loop correspond (loop variables equal, tensor lists = rows of scan outputs so far), the wired body by rewriting the function graph stepwise (state variables, items, removed feeds, inlined condition). Partial: ragged lists not modelled, success of the conversion not proved, the counter outputs are not replaced (refuted).
* C54 MakeSpec.v defines GraphProto (nodes, inputs, initializers, outputs) and its meaning with optional inputs, MakeModel.v models make_graph and update_proto recursively; MakeProofs.v proves by induction on the nesting that a body graph and its written form are the same relation, and for the model that the valuations correspond (dropped default constants are put back). Partial because of the refuted shared default.
* C55 ElemSpec.v gives TensorFlow's and ONNX's elementwise operators on one element (two's complement integers, Flocq IEEE 754 floats) and by broadcasting on tensors; ElemModel.v models the handlers of logical.py as the nodes they make; computes_lift (ElemLift.v) reduces tensors of any shape to one element; ElemFloat.v has the facts on rounding. One NaN is not told from another.
* C56 Same model; Select.version_7/9 and the reshape of the condition; the text of the condition and branch nodes is abstracted to what version_9 inspects.
* C57 Same model; handlers of math.py. The Real numbers behind Flocq bring the axioms of the standard library's reals and Classical_Prop.classic.
* C58 RewModel.v models rewrite_leakyrelu and rewrite_thresholded_relu on top of the matcher of C28 (MatchModel) and the graph model of C14 (FGraph): matches are found once, then each is applied with make_node, replace_all_inputs and safe_remove_nodes. RewProofs(2).v prove once, by induction over the matches, that a list of sound and independent changes keeps validity and meaning; RewMatch.v inverts the matcher, RewValues.v proves the value equations over the reals, RewProofs3/4.v put them together. Statement in RewSpec.v (meaning of the operators, groups of nodes, same_results).
* C59 RewModel.v models rewrite_gemm (five patterns, get_gemm_attr, the shape and rank tests) on the machinery of C58. GemmSpec.v states products as sums over indices, Gemm, groups of nodes and the conditions; GemmMatch.v inverts the patterns, GemmValues.v proves the value equation, GemmProofs.v one match and what it leaves for later matches (a later match whose summand was replaced finds no shape and is skipped), GemmProofs2.v the five patterns.
* C60 TOps.v gives a functional semantics of the ONNX operators the handlers emit (tensors of any rank, values = data | int64 | bool tensors, opset-dependent attribute/input forms); SpaceModel.v is the expression each handler builds (both the DepthToSpace/SpaceToDepth path and the general reshape/transpose path, constant and computed crops); SpaceSpec.v states TensorFlow's element-wise definition. Proved for every rank and block by evaluating the expression symbolically and comparing elements through row-major index arithmetic (ravel of interleaved shapes). Partial: tensors with an empty non-batch dimension are excluded, and a theorem exhibits that the emitted graph is wrong there.
* C61 RollModel.v: the loop of Roll as a fold building TOps expressions. RollSpec.v: tf.roll element-wise with the shifts per axis summed modulo the dimension. Induction over the axes; each round is Slice/Slice/Concat along one axis of a tensor of any rank. Partial: refuted for a rolled dimension 0 (remainder modulo 0) and for a one-element shift vector (unsqueezed to a matrix).
* C62 Rev2Model.v: the loop of ReverseV2 with the accumulated axis swaps and the restoring permutation. Rev2Spec.v: mirrored indices. Induction over the sorted axes with the invariant that the current layout is a permutation that still fixes the remaining axes; the restoring permutation is shown to invert the composed swaps.
* C63 Model (PackModel.v): the handlers Pack, Unpack, Split and SplitV as ONNX expressions over TOps.v (Unsqueeze+Concat, Split+Squeeze, Split with sizes attribute or input). Spec (PackSpec.v): tf.stack, tf.unstack, tf.split index by index. Proof by decomposing indices at the axis. Partial: negative axis before opset 11, -1 with an unknown dimension and -1 in run-time sizes are refuted by counterexamples.
* C64 Model (IdxModel.v): Slice handler, constant and run-time path, with two's complement additions of the given width. Spec (IdxSpec.v): tf.slice index by index. Proof through the ends that make ONNX Slice equal tf.slice. Refuted: run-time size -1 with begin >= 2 overflows.
* C65 Model (IdxModel.v): GatherV2 (Gather, or Transpose/GatherND/Transpose with python list slicing of the permutations). Spec (IdxSpec.v): tf.gather index by index. Proof: the permutations swap two blocks of axes (swap_blocks), GatherND with one index addresses one axis. Refuted: negative axis with batch_dims, negative batch_dims.
* C66 Model (PadModel.v): Pad.version_1/11 and convert_symmetric_pad (dummy rows, reflect Pad, ScatterElements mask, Compress, one axis at a time). Spec (PadSpec.v): the source coordinate of every output coordinate of tf.pad. Proof: f_pad_reflect is the mirror map; loop invariant over the axes that the dummy rows are removed one axis at a time; values full for all modes. Refuted: PadV2 on float16 from opset 11 on casts the data to float but not the border value.
* C67 Model (HotModel.v): OneHot.version_1 (np.eye with the two masked assignments, Gather, Transpose) and any_version_after9. Spec (HotSpec.v): tf.one_hot index by index. Proof: entry by entry of the table; rank-0 indices by Expand and Squeeze. Refuted: negative indices (from opset 11 on, and by Gather), indices beyond depth by Gather, on = 0 with off = 1 by Gather.
* C68 Model (DepthModel.v): SpaceToDepth, DepthToSpace with conv_convert_inputs. Spec (DepthSpec.v): pixel by pixel for NHWC and NCHW. Proof: the permutations on rank 4, div/mod bounds. Full.
* C69 Model (DepthModel.v): ReverseSequence versions 8, 9, 10. Spec (DepthSpec.v): tf.reverse_sequence; Scan-8 as a relation that leaves the tail undefined. Proof: index by index; swap of the first two axes. Refuted: the tail at opset 8, seq_dim = 1 with batch_dim = 2 at opset 8, axes beyond the first two from opset 10 on.
* C70 Model: the arms of the handler Range with the node sequences of the trip count and the loop body over ElemSpec values. Spec: tf.range on integers and on floats (CPU kernel), numpy.arange, ONNX Range and Loop. Proof: the float32/float64 quotient of two integers is rounded up to the exact ceiling as long as the difference is exact (relative error of rounding); induction over the iterations. Loss above 2^24 refuted.
* C71 Model: the nodes before, at and behind TopK per opset, what the other consumers read. Spec: top-k of a row as a sorted list of indices (relation, proved unique), tensors row by row; inverse of a permutation. Proof: the cast to float32 keeps the order and is invertible on exactly represented values (Flocq), so the unique top list is the same; for permutations the inverse is the top list of the negated values.
* C72 ReduceSpec gives reductions as a relation on lanes (elements that agree off the axes), TensorFlow's and ONNX's rules for axes (attribute before opset 13/18, int64 vector input after, noop_with_empty_axes, negative axes only from opset 11), float sums/minima as trees over any permutation. ReduceModel models ReduceOpBase, ArgMax, AllAny. Proved: equivalence with TensorFlow for every relation R shared by the operators; refuted: All over an empty dimension before opset 13, scalar axes of unknown recorded rank for All/Any, negative ArgMax axis of unknown rank before opset 11, int16 results.
* C73 SegSpec.v: TensorFlow's segments (tf_segment) and the ONNX operators on int64 scalars/vectors/matrices, rows and grids of rows (op_result, exec). SegModel.v: the nodes of the handler for each of the 15 operators. Proof: execution of the node list (num_exec, sort_exec, scale_exec, grid_exec), row j of the grid is a permutation of segment j followed by identity rows (s_row_perm), for any reductions with sem_ok; sem_ok is proved for float32 (any reduction tree, up to the sign of zero) and lifted to rows of any width.
* C74 RagSpec.v says in TensorFlow's terms what a ragged range, a gather of rows and the index tuples of a nested ragged tensor are, and gives integer semantics to the ONNX operators used; RagModel.v models the handlers as expressions; the scattered deltas of the gather are summed up by induction over the non-empty rows, nested splits by induction over the ragged dimensions. Refuted: a limit on the other side of the start by less than delta, three scalars, no rows.
* C75 PartSpec.v states the four TensorFlow operators as relations and the ONNX operators (Compress, Split, Unique with and without axis, ScatterElements, ScatterND) as functions on lists; PartModel.v models the handlers as expressions; counting lemmas over distinct values and cells. Refuted: duplicates and gaps in DynamicStitch, Bincount of a matrix, DenseBincount with unknown rank, Unique of doubles (cast to float32).
* C76 Expressions over integer vectors, matrices, booleans and dense tensors (SpSpec.v), model of the five handlers (SpModel.v, with RagModel.v for the partitions); strides and digits by induction over the dims, row ids by the delta machinery of C74, ScatterND as a finite map. Partial: dimension 0 in the new shape, order of filled rows, vector indices and empty VALUE_ROWIDS are refuted.
* C77 AtanModel.v models the expression of Atan2Op (Sign/Atan/Div and the masks) over the real numbers; AtanSpec.v says what an angle of a point is (cos/sin times the radius, in (-pi,pi]) and is shown to determine it uniquely. Proved by case analysis on the signs with cos_atan/sin_atan from Coq's Reals; the ranks by the run of the graph; two scalar operands come out with rank 1 (refuted).
* C78 MatSpec.v defines the products of stacks of matrices and the sums of Einsum for any function [dot] of the list of products (no assumption on rounding or order); MatModel.v models MatMul.version_1/version_10 and Einsum.version_12 including the parsing of the equation (lower, split, the letter positions). Proved: the value for every flag and rank (two transpositions cancel), what is accepted, every Einsum whose labels stay distinct in lower case, replaced by MatMul or not. Refuted: unknown recorded rank drops the transposition, labels that differ in case only are merged.
* C79 CumSpec.v states the product over the positions before (or after) each position and gives a semantics of graphs with Slice, Pad, Mul and Loop over the functions of TOps; CumModel.v models CumProd (constant and run-time axis, get_pads_node, the loop body). Proved by an invariant of the loop over the accumulator. Refuted: opset 10 (Pad takes no pads input), an exclusive product along an empty axis, a negative run-time axis.
* C80 nn.py 1541-1645: both handlers as expressions over the vector of a pixel's channels (TopK, Split, GatherElements, GatherND of the constant tables, Mod, Clip), over R; specification: TensorFlow's hue/saturation/value formulas. Proof: the angle read off the order is the hue (case analysis over the six orders), the ramps agree on every part of a turn. AdjustSaturation is refuted for the two cyclic orders (GatherElements would need the inverse order). Not modelled: rounding (the constants 2/6, 4/6 and all arithmetic are exact), the batch and pixel axes (all operators act per pixel).
* C81 nn.py 1646-1803: version_11 as an expression over the operands (Shape, Slice, Expand, CumSum, Reshape, Div, Mod, Greater, EyeLike, ConstantOfShape, Mul) evaluated with the operators of TOps; version_7 as the composition of its operators with the Loop as a recursion. Specification: tf_band_part, entry by entry with in_band. Proof: the index matrix holds i*c+j, hence the masks; lines by induction over the trips. Refuted: a non-constant bound that is negative at run time, no columns, 0 * infinity. Simplified: INT64 casts left out (unbounded integers), BOOL data not cast to FLOAT and back, the multiplication is any with 1*v=v and 0*v=0.
* C82 FusedBatchNorm: the graph (transposes, own mean and variance, BatchNormalization) over the reals against tf_batch_norm, all shapes of rank 4 and 5 (partial: training needs averaging factor 1, otherwise refuted; casts and the other outputs are not modelled).
* C83 ScatterNd, TensorScatter*: handlers as a node whose inputs are rearranged, zeros or negated, plus a reduction; ScatterND row by row against 'old value combined with all the updates for it in some order', all shapes (partial: ScatterNd needs distinct rows, Max/Min opset 18; both refuted otherwise; int64 casts left out).
* C84 LRN: transposes around the operator over the reals against x / (bias + alpha sum)^beta, all shapes and radii (partial: alpha and beta must be given; a beta that is left out is refuted).
* C85 CeModel models Softmax/LogSoftmax (any row function) and the dense and sparse cross entropies over the reals, with all three ways of making the mask; CeSpec is written from TensorFlow's definition. Proved: row-wise softmax at every opset, the dense case with batch broadcasting, the sparse case; refuted: features with one class broadcast after instead of before the softmax, and the GatherNd variant for opsets 7/8, whose Squeeze names an axis its input does not have.
* C86 CtcModel models the graph with matrices as functions of their indices and flattened tensors as lists (TopK, CumSum, Compress, ReduceMax, shifted Concat); CtcSpec is TensorFlow's loop over the rows. Proved by induction over time (positions = running counts, shifted comparison = memory of the previous class) for all sizes; refuted: nothing decoded at all (ReduceMax of no rows), attribute blank_index (never read).
* C87 SetModel follows the handler: rows of coordinates and values (NonZero of ones), Unique with axis 0 as sorted distinct rows with first positions and counts, the two or three concatenated copies and the required count, the swap for b-a, then positions by ScatterElements of shifted 1 - count and CumSum. SetSpec says which values are members for each row and how the sparse tensor is laid out. Proof: strictly ordered lists with the same members are equal, so the rows are the groups in row-major order; scatter and running sum by induction on groups. If nothing is left ReduceMax has no input (and the scatter one update for no position): refuted. Strings are outside (their Cast to INT64 parses digits only).
* C88 MpaModel follows lines 742-781 node by node on tensors (Split of the shape, Mul, Mod or Div/Mul/Sub before opset 10, Range or a constant range of the channels, batch offsets) and returns None where make_sure raises. MpaSpec has the two numberings, shown to be the row-major ones. The pooling and its padding and transposes are not modelled here: the theorem holds for any choice of maxima MaxPool reports. A left out include_batch_in_index counts as true, as the comment in the code says of TensorFlow 1.13.
* C89 DiagModel computes the handler's index arithmetic as written (starts of super- and subdiagonals as descending ranges, clamped or right-aligned indices, casts to FLOAT as rounding to 24 binary digits, the If for a single diagonal) and gathers from the padded, flattened matrix. DiagSpec is TensorFlow's documentation of the operator (offset, diag_len, max_diag_len). Proof: both ranges together run from k1 down to k0, the maximum size is max_diag_len, then entry by entry by linear arithmetic on row * (cols + 1) + column. Leading dimensions are left out: every matrix is gathered from with the same indices. Refuted beyond 2^24 elements and for the handler's default alignment. The opset 11 variant with a Loop is not modelled.
* C90 MdpModel follows the handler of MatrixDiagPart node by node (shape slices, casts through FLOAT, Min, Slice with axes [2, 1], Range, Expand, GatherElements, Squeeze) over tensors of any rank with TOps; slice_two and tail_ok give the result for every shape; the theorem states the ranks and proportions for which it is TensorFlow's diagonal, two refutations the rest.
* C91 ConModel: ReduceMean over list(range(rank))[-3:-1] (f_reduce of BnSpec), Sub, Mul, Add with broadcasting over tensors of reals of any rank; ConProofs shows that the lane reduced for a channel is a permutation of its pixels and that the mean broadcasts to them. Rounding is not modelled; the failing Cast for half-precision images is.
* C92 CatModel filters the constant inputs without elements, finds the axis (for a negative one from the first known rank), and applies Concat of TOps; kept_dims shows that dropping inputs that are empty along the axis changes neither the total nor the part an index falls into; concat_spec gives the result for any number of tensors of any rank.

<!-- trusted base: begin -->
## Trusted base

The kernel of Coq 8.16.1 and its virtual machine (`vm_compute` in examples and refutations), the translation of
`/repo` into the `*Model.v` files (by hand, each definition cites its lines), and the specifications (`*Spec.v`, `Tensor.v`,
`FGraph.v`) of what TensorFlow, ONNX, numpy and Python do where the models need it.  There are no axioms of our own, no
parameters, no functors, no module types.  `Print Assumptions` for every theorem named in MANIFEST.json:

* *Closed under the global context*: all 328 theorems of MANIFEST.json not listed below.
* `ClassicalDedekindReals.sig_forall_dec`: `C23_conv_add_partial`, `C47_unknown_channels_refuted`, `C59_output_removed_refuted`, `C85_softmax_is_rowwise`.
* `ClassicalDedekindReals.sig_forall_dec`, `FunctionalExtensionality.functional_extensionality_dep`: `C23_conv_add_refuted`, `C23_conv_mul_partial`, `C39_default_axis_refuted`, `C39_no_zero_point_refuted`, `C39_round_trip`, `C47_conv_conversion_partial`, `C48_depthwise_conversion`, `C58_alpha_vector_refuted`, `C58_leakyrelu_partial`, `C58_output_removed_refuted`, `C58_stacked_refuted`, `C58_swapped_refuted`, `C58_theta_vector_refuted`, `C58_thresholded_relu_partial`, `C59_factor_refuted`, `C59_gemm_partial`, `C59_rank_refuted`, `C80_hue`, `C80_saturation_cycle_refuted`, `C80_saturation_partial`, `C86_blank_index_refuted`, `C86_ctc_partial`, `C86_nothing_decoded_refuted`, `C91_contrast_partial`.
* `ClassicalDedekindReals.sig_forall_dec`, `ClassicalDedekindReals.sig_not_dec`, `FunctionalExtensionality.functional_extensionality_dep`: `C22_conv_batchnorm_fusion_exact`, `C77_atan2_accepted`, `C77_atan2_rank_partial`, `C77_atan2_scalars_refuted`, `C82_averaging_factor_refuted`, `C82_batch_norm_is_batch_norm_partial`, `C82_batch_norm_runs`.
* `ClassicalDedekindReals.sig_forall_dec`, `ClassicalDedekindReals.sig_not_dec`, `Classical_Prop.classic`, `FunctionalExtensionality.functional_extensionality_dep`: `C39_round_trip_binary32`, `C55_equal`, `C55_equal_float_refuted`, `C55_equal_self`, `C55_equal_uint64_refuted`, `C55_greater_equal_nan_refuted`, `C55_greater_less_equal_partial`, `C55_greater_less_partial`, `C55_greater_refuted`, `C55_not_equal_self`, `C55_not_equal_self_7_refuted`, `C55_not_equal_self_refuted`, `C56_constants`, `C56_float16_refuted`, `C56_infinity_refuted`, `C56_int8_refuted`, `C56_select_partial`, `C56_vector_condition_partial`, `C56_where`, `C57_bit_shift_partial`, `C57_clip_partial`, `C57_clip_refuted`, `C57_div_no_nan`, `C57_div_no_nan_refuted`, `C57_floor_div_negative_refuted`, `C57_floor_div_partial`, `C57_floor_div_refuted`, `C57_floor_mod_float_refuted`, `C57_floor_mod_partial`, `C57_floor_mod_refuted`, `C57_is_finite`, `C57_is_finite_refuted`, `C57_max_int8_refuted`, `C57_max_refuted`, `C57_min_max_partial`, `C57_right_shift_refuted`, `C57_round`, `C57_round_7_partial`, `C57_round_half_refuted`, `C57_round_integer_refuted`, `C57_sign`, `C57_sign_refuted`, `C57_square`, `C57_squared_difference`, `C70_accepted`, `C70_int16_refuted`, `C70_long_ranges_refuted`, `C70_range_floats`, `C70_range_ints_partial`, `C71_invert_int32_refuted`, `C71_invert_permutation_partial`, `C71_large_integers_refuted`, `C71_other_consumers_partial`, `C71_other_consumers_refuted`, `C71_top_k_partial`, `C72_all_any_accepted`, `C72_all_any_partial`, `C72_all_of_nothing_refuted`, `C72_scalar_axes_refuted`, `C73_empty_max_refuted`, `C73_empty_mean_refuted`, `C73_float32`, `C73_negative_refuted`, `C73_no_result_refuted`, `C77_atan2_partial`, `C84_beta_left_out_refuted`, `C84_lrn_is_lrn_partial`, `C85_broadcast_classes_refuted`, `C85_cross_entropy_partial`, `C85_gathernd_refuted`, `C85_sparse_cross_entropy_partial`.

All of these are axioms of the Coq standard library (Reals, FunctionalExtensionality, Classical_Prop); they come in through the real numbers and Flocq.
### What is modelled

Lines of `/repo/tf2onnx` cited by the definitions of the model (generated from their comments; the file paths are unique).
What a definition leaves out is said in its comment.

* `__init__.py`: DriverModel 45-95, 55-73, 58-72
* `back_to_back_optimizer.py`: B2BModel 86-137, 108-131, 139-166, 168-204, 206-272
* `common.py`: BnModel 987-998, 1000-1004, 1016-1032, 1036-1048
* `const_fold_optimizer.py`: FoldGraphModel 35-47, 41-46, 49-63, 65-77, 87-91, 93-102, 118-124; FoldMapModel 17-28, 104-205; FoldModel 104-110, 105-205, 112-119, 121-133, 135-139, 141-166, 168-190, 192-205
* `constants.py`: LayoutModel 43-44
* `controlflow.py`: ElemModel 138-181, 160-165, 183-234, 190-215, 223-233; InlineModel 697-706, 721-729, 759-769, 785-787, 788-793, 789-792; RangeModel 25-134, 25-35, 45-66, 74-86, 94-98, 117-134; WhileModel 369-648, 429-465, 431-435, 440-441, 447-451, 457-461, 463-465, 467-472, 477-495, 479-512, 550-654, 557-562, 588-611, 591-604, 656-689
* `flexbuffers.py`: FlexModel 16-19, 22-25, 28-33, 44-45, 52-58, 61-147, 77-80, 83-90, 150-155
* `gemm_rewriter.py`: RewModel 20-66, 70-100, 86-90, 106-114, 115-126
* `global_pool_optimizer.py`: PoolModel 
* `graph.py`: DeadModel 393-418, 398-414, 1516-1585, 1516-1545, 1528-1544, 1533-1543, 1547-1568, 1559-1562, 1570-1585; ElemModel 422-441, 607-679; FGraph 33-59, 352-362, 455-545, 1436-1466; FoldMapModel 325-351; GraphModel 33-59, 73-84, 457-485, 607-679, 635-639, 643-644, 693-725, 706-709, 716-722, 727-763, 754-759, 860-866, 868-871, 873-879, 1282-1308, 1293-1308, 1382-1403, 1405-1412, 1418-1424, 1436-1466, 1453-1461, 1459-1461, 1467-1496, 1498-1515, 1503-1506; IdentityModel 693-725, 1436-1466, 1455-1456; InlineModel 200-201, 554-556, 624-630, 641-645, 693-714, 717-756, 727-763, 772-796, 1462-1466; LayoutModel 486-493, 495-499, 503-537, 607-679, 1108-1117, 1343-1383; MakeModel 185-187, 199-200, 367-391, 1088-1182, 1105-1182, 1108-1117, 1120-1133, 1136-1144; MatchModel 73-140, 86-90, 155-162, 164-217, 203-217, 206-211, 219-240, 242-270; MergeModel 32-38, 40-47, 50-62, 55-56, 64-79, 90-101, 94-101, 98-99, 185-187, 384-389; NamesModel 25-31, 96-119, 108-109; NestedModel 356-362, 643-644, 750-751, 878-879, 1382-1403, 1411-1415, 1425-1430, 1436-1466, 1463-1466; PoolModel 38-65, 1343-1355; QdqModel 38-52, 118-126, 124-126, 134-142, 145-165, 693-725, 1400-1403; RewModel 86-90, 302-326, 607-679, 641-645, 1385-1403, 1431-1467, 1600-1610, 1605-1609; RollModel 303-322, 373-417, 375-379, 381-394, 401-414; SplitProofs 1343-1383; SwitchModel 30-32, 195-244, 284-291, 287-293, 293-305, 295-316, 308-315, 318-340, 342-344, 539-548, 539-619, 551-558, 561-571, 574-576, 580-596, 597-604, 606-617, 693-725, 700-755, 757-811, 851-871, 873-880, 882-908, 929-937, 1002-1003, 1385-1403, 1469-1496; TopModel 1343-1385; TopoModel 1026-1083, 1071-1080; WhileModel 369-547, 564-575, 616-629, 631-632, 642-651, 653-661, 1385-1403
* `graph_builder.py`: IdxModel 26-82, 448-455, 463-493, 476-477, 480-481, 484-486; PoolModel 172-210, 179-188; ReduceModel 84-121, 127-158, 160-181; SpaceModel 26-82, 165-200, 202-238, 1516-1698, 1527-1529, 1530-1618, 1540-1549, 1560-1567, 1568-1593, 1605-1618, 1638-1682, 1652-1655, 1659-1661, 1664-1669, 1672-1677, 1680-1698, 1692-1845, 1703-1709, 1711-1772, 1723-1733, 1734-1756, 1761-1772, 1797-1807, 1811-1815, 1818-1823, 1822-1825, 1828-1831, 1831-1840; TopModel 202-238
* `graph_matcher.py`: MatchModel 29-250; RewModel 117-135
* `handler.py`: HandlerModel 12-135, 53-71, 84-87, 90-96, 103-120
* `identity_optimizer.py`: IdentityModel 22-39, 25-38, 31-36, 41-46, 63-64, 68-69, 72-73
* `leakyrelu_rewriter.py`: RewModel 17-24
* `logical.py`: ElemModel 20-30, 62-111, 114-131, 133-148
* `math.py`: AtanModel 909-1013, 923-929, 939-944; CeModel 202-222, 1804-1824, 1827-1869, 1888-1920, 1925-1959; CumModel 563-642, 645-713, 716-753; ElemModel 82-143, 144-156, 158-199, 224-230, 264-271, 274-307, 332-341, 512-523, 526-543, 761-774, 777-783, 793-817, 882-902; LrnModel 349-353, 358-366; MatModel 368-425, 371-417, 381-382, 391-400, 394-399, 402-411, 404-409, 418-429, 839-880, 843-873; Prop_Ce 202-222; Prop_Lrn 341-366; StridedModel 82-115; TopModel 1016-1044
* `merge_duplicated_nodes_optimizer.py`: MergeModel 75-87
* `nn.py`: BandModel 1668-1743, 1700-1713; BnModel ; CeModel 1804-1998; ColModel 1541-1645, 1544-1573, 1578-1643, 1600-1615; ConModel ; CtcModel 2003-2094; DepthModel 30-33, 48-57, 61-197, 86-113, 163-190, 1061-1083, 1061-1067, 1070-1083; MpaModel 742-781; NNModel 24-28, 31-34, 37-46, 49-58, 61-197, 199-272, 242-253, 274-284, 286-303, 306-321, 347-396, 380-391, 496-518, 624-664, 683-724; PadModel 822-951, 829-886, 842-848, 850-853, 855-859, 863-884, 872-879, 888-918, 908-915, 927-931, 936-945; Prop_Bn 960-1052; Prop_Ce 1804-1998; Prop_Con 1521-1538; Prop_Ctc 2000-2094; Prop_Mpa 742-781
* `optimizer_base.py`: ApplyOptProofs ; IdentityModel 58-75
* `q_dq_optimizer.py`: QdqModel 128-132
* `reduction.py`: ReduceModel 22-181, 22-26, 29-48, 56-68, 71-82, 84-112; SegModel 192-351, 204-210, 213-219, 236-260, 262-266, 267-280, 282-302, 305-327, 319-325, 332-344
* `reshape_optimizer.py`: ReshapeModel 43-117, 50-60, 67-95, 78-81, 86-92, 106-108
* `schemas.py`: HandlerModel 62-77, 80-91, 98-107, 110-113
* `shape_inference.py`: ShapesModel 123-140, 225-248, 239-248, 358-381, 383-397, 399-413, 484-504, 506-515, 538-575, 556-574
* `symbolic_executor.py`: ReshapeModel 15-25, 27-35, 37-47, 56-62, 64-72, 78-90, 92-104, 106-117, 119-124, 126-135, 137-142, 144-145, 147-154, 156-177, 179-182, 184-190, 192-202, 204-210
* `tensor.py`: CeModel 535-626, 1936-1938, 1961-1998; DepthModel 2102-2196, 2105-2162, 2165-2171, 2173-2196; DiagModel 3453-3456, 3466-3558, 3484-3486, 3559-3586; HotModel 1357-1485, 1360-1396, 1374-1380, 1398-1411, 1412-1470; IdxModel 316-369, 330-362, 333-343, 346-357, 435-496; MdpModel 3166-3216; PackModel 712-738, 714-721, 741-784, 745-784, 747-758, 1282-1322, 1286-1288, 1290-1313, 1325-1356, 1330-1348; PartModel 2366-2486, 2369-2373, 2371-2405, 3079-3159, 3081-3106, 3137-3140; Prop_Diag 3440-3600; Prop_Mdp 3166-3216; Prop_Scat 648-709; Prop_Set 2989-3080; RagModel 2504-2806, 2504-2524, 2527-2545, 2548-2570, 2554-2558, 2573-2592, 2596-2608, 2675-2734, 2704-2708, 2738-2805, 2755-2760; Rev2Model 2201-2364, 2265-2360, 2267-2271, 2277-2338, 2342-2348; RollModel 371-432; ScatModel 648-709, 649-660, 663-670, 673-680, 683-690, 693-701, 704-709; SetModel 2989-3080, 2991-3001, 3014-3022, 3024-3056, 3044-3056, 3058-3080; SpModel 2489-2501, 2490-2501, 2611-2671, 2613-2635, 2636-2671, 2638-2645, 2640-2645, 2660-2668, 2865-2985, 2867-2913, 2883-2898, 2928-2974; SpaceModel 1514-1687, 1690-1845; StridedModel 825-1186, 827-924, 926-948, 951-1178, 973-974, 1013-1014, 1035-1036, 1043-1077, 1083-1103, 1105-1130, 1132-1153; TopModel 1206-1268, 1208-1234, 1236-1268
* `tf_loader.py`: TopoModel 893-899
* `tfjs_utils.py`: WeightsModel 273-292, 286-290, 318-341, 344-354
* `tflite_utils.py`: WeightsModel 306-321, 308-316, 318-320
* `tfonnx.py`: HandlerModel 505-580, 540-573; LayoutModel 309-330, 332-355
* `thresholded_relu_rewriter.py`: RewModel 17-26, 30-43
* `transpose_optimizer.py`: Prop_Push2 176-183; PushConvModel 489-505, 579-581, 582-590; PushModel 39-43, 92-113, 420-429, 606-617, 621-663, 625-641, 654-661, 673-680, 682-698, 700-742, 757-773, 816-822, 851-862, 864-871, 882-888, 894-907, 915-917, 939-943, 961-962, 996-999; SwitchModel 
* `utils.py`: LayoutModel ; NamesModel 96-100, 135-140, 151-153, 229-240, 242-254, 245-249, 294-301, 309-315, 431-440; ShapesModel 446-450, 453-476, 468-475, 479-488, 491-503; ShapesSpec ; TopoModel 318-343, 327-342, 338-342

### What is not modelled

* Loading of models (`convert.py`, `tf_loader.py` except the ordering of functions, `tf_utils.py`, `tflite_utils.py` and
  `tfjs_utils.py` except the decoding of weights and flexbuffers, everything in `tflite/`), protobuf, files, logging.
* Handlers (`onnx_opset/`, `tflite_handlers/`, `custom_opsets/`) other than the lines above: recurrent nets, signal, generators,
  reductions, most of `tensor.py`.
* Rewriters (`rewriter/`, `tflite_rewriters/`): the driver that runs them, the pattern matcher they use, and the LeakyRelu, ThresholdedRelu and Gemm rewriters; not the others.
* `einsum_optimizer.py`, `loop_optimizer.py`, `upsample_optimizer.py`, and in `transpose_optimizer.py` the handlers not named in C23.
* Python itself (evaluation order, aliasing beyond what `GraphModel.v` models, memory), numpy, the ONNX and TensorFlow runtimes:
  the parts used are specified in the `*Spec.v` files.
<!-- trusted base: end -->
