{"id": "C01", "title": "Generated names never repeat", "statement": "For any sequence of make_name calls (with any base names, in any order) starting from any counter value, all returned names are pairwise different.", "quantifier": "all finite call histories, all base strings, all initial counters", "why_tests_cant": "the number and the interleaving of calls, and the base strings (which may themselves end in __<digits>), are unbounded", "anchors": ["tf2onnx/utils.py:make_name", "tf2onnx/utils.py:INTERNAL_NAME"]}
{"id": "C02", "title": "Generated names never collide with names of a loaded model", "statement": "After the name counter has been initialised from a set of graphs, every name that make_name returns later differs from every node name and every node output name occurring in those graphs (including their sub graphs).", "quantifier": "all models, all base names, all later call histories", "why_tests_cant": "names in a model are arbitrary strings; a test samples a few", "anchors": ["tf2onnx/utils.py:make_name", "tf2onnx/utils.py:make_name", "tf2onnx/tf_utils.py"]}
{"id": "C03", "title": "Tensor name <-> node name/port mapping is lossless", "statement": "Splitting a tensor name made from a node name without ':' and a port gives back the node name; the port-0 tensor of a node and its other outputs have different names; distinct (node, port) pairs give distinct tensor names.", "quantifier": "all node names without a colon and all ports", "why_tests_cant": "string space is infinite", "anchors": ["tf2onnx/utils.py:node_name", "tf2onnx/utils.py:port_name"]}
{"id": "C04", "title": "Combined random seed is collision free", "statement": "The single seed derived from the two TensorFlow seeds (graph seed, op seed) differs for different pairs of non-negative seeds, so two differently seeded random ops never share an ONNX seed.", "quantifier": "all pairs of non-negative integer seeds", "why_tests_cant": "unbounded integer pairs", "anchors": ["tf2onnx/utils.py:combine_seeds"]}
{"id": "C05", "title": "Shape compatibility and merging is sound and complete", "statement": "Merging two partially known shapes succeeds exactly when some concrete shape refines both, and then the concrete shapes refining the merged shape are exactly the ones refining both; the compatibility test agrees with this.", "quantifier": "all pairs of partially known shapes (unknown rank, unknown dims)", "why_tests_cant": "infinitely many ranks, dims and unknown patterns", "anchors": ["tf2onnx/utils.py:merge_shapes", "tf2onnx/utils.py:are_shapes_compatible", "tf2onnx/utils.py:are_shapes_equal", "tf2onnx/utils.py:is_unknown_dimension"]}
{"id": "C06", "title": "Broadcast shape inference never claims a wrong shape", "statement": "If an elementwise binary op is executed on tensors whose runtime shapes refine the statically known operand shapes, the runtime result shape (numpy/ONNX trailing-aligned broadcasting) refines the shape the inference claimed.", "quantifier": "all static shapes of any rank and all runtime shapes refining them", "why_tests_cant": "all ranks and dimension values", "anchors": ["tf2onnx/shape_inference.py:broadcast_shape_inference", "tf2onnx/utils.py"]}
{"id": "C07", "title": "Dependency sort returns each item once, after its dependencies, or reports a cycle", "statement": "For any dependency table in which every dependency is itself a key, the sort returns a permutation of the keys in which every item comes after all its dependencies when the table is acyclic, and raises an error exactly when it is cyclic; it always terminates.", "quantifier": "all finite dependency tables", "why_tests_cant": "unbounded graph sizes and shapes, cycles of any length", "anchors": ["tf2onnx/utils.py:topological_sort", "tf2onnx/tf_loader.py:resolve_functions"]}
{"id": "C08", "title": "Exported node order is a valid ONNX execution order", "statement": "Sorting a graph yields a permutation of its nodes in which each node comes after the producers of all its inputs (including those captured by sub graphs); a graph with a cycle is rejected, never emitted in wrong order.", "quantifier": "all graphs, all node orders", "why_tests_cant": "unbounded graphs", "anchors": ["tf2onnx/graph.py:Graph.topological_sort"]}
{"id": "C09", "title": "Consumer lookup is exact after any edit history", "statement": "After any sequence of node creations, removals, input replacements and global input replacements, asking for the consumers of a tensor returns exactly the nodes that currently have this tensor among their inputs.", "quantifier": "all finite histories of graph edit API calls, all tensors", "why_tests_cant": "histories are unbounded and the index is maintained incrementally", "anchors": ["tf2onnx/graph.py:Graph.find_output_consumers", "tf2onnx/graph.py:Graph._register_input_name", "tf2onnx/graph.py:Graph._unregister_input_name", "tf2onnx/graph.py:Graph.replace_all_inputs", "tf2onnx/graph.py:Graph.replace_input", "tf2onnx/graph.py:Graph.replace_inputs", "tf2onnx/graph.py:Graph.make_node", "tf2onnx/graph.py:Graph.remove_node"]}
{"id": "C10", "title": "Producer and name lookups are consistent after any edit history", "statement": "After any sequence of successful graph edits every node is found under its own name, every output is found to be produced by the node that lists it, no two nodes share a name and no two nodes share an output; removed nodes and their outputs are no longer found.", "quantifier": "all finite histories of graph edit API calls", "why_tests_cant": "histories are unbounded", "anchors": ["tf2onnx/graph.py:Graph.make_node", "tf2onnx/graph.py:Graph.remove_node", "tf2onnx/graph.py:Graph.get_node_by_name", "tf2onnx/graph.py:Graph.get_node_by_output", "tf2onnx/graph.py:Graph.reset_nodes"]}
{"id": "C11", "title": "Global input replacement rewires every occurrence and nothing else", "statement": "Replacing tensor a by tensor b everywhere leaves no consumer of a, turns precisely the input slots that held a into b, and changes no other input, no node output, no node name, no attribute and no graph output; consumers inside nested sub graphs are rewired too.", "quantifier": "all graphs reachable by edit histories, all tensor names", "why_tests_cant": "must hold in every reachable index state and every nesting", "anchors": ["tf2onnx/graph.py:Graph.replace_all_inputs"]}
{"id": "C12", "title": "Dead node removal keeps exactly what the outputs need", "statement": "Removing unused nodes keeps exactly the nodes from which some requested output is reachable (plus graph inputs), never removes a needed node, is idempotent and leaves the values of all outputs unchanged.", "quantifier": "all graphs, all requested output sets, all interpretations of the ops", "why_tests_cant": "reachability over unbounded graphs and arbitrary op semantics", "anchors": ["tf2onnx/graph.py:Graph.delete_unused_nodes", "tf2onnx/graph.py:Graph.extract_sub_graph_nodes", "tf2onnx/graph.py:Graph._extract_sub_graph_nodes"]}
{"id": "C13", "title": "Evaluation is independent of the chosen topological order", "statement": "A graph evaluated in any valid order of its nodes gives the same value to every tensor, and a valid order always evaluates when every op is defined on its arguments; hence re-sorting on export never changes results.", "quantifier": "all graphs, all valid orders, all op semantics, all inputs", "why_tests_cant": "unbounded orders and semantics", "anchors": ["tf2onnx/graph.py:Graph.topological_sort", "tf2onnx/graph.py:Graph.make_graph"]}
{"id": "C14", "title": "Identity elimination preserves results and the model's output names", "statement": "The identity optimizer leaves the value of every graph output unchanged for every model input and every meaning of the other ops, and never changes the names, number or order of graph outputs and inputs.", "quantifier": "all graphs, op semantics and inputs", "why_tests_cant": "all wiring shapes, all op meanings", "anchors": ["tf2onnx/optimizer/identity_optimizer.py"]}
{"id": "C15", "title": "Identity elimination reaches a fixed point", "statement": "After the identity optimizer ran no Identity node remains that it would be able to remove.", "quantifier": "all graphs", "why_tests_cant": "depends on node order and chains of any length", "anchors": ["tf2onnx/optimizer/identity_optimizer.py:IdentityOptimizer._optimize_at_current_graph_level"]}
{"id": "C16", "title": "Merging duplicated nodes preserves results", "statement": "The duplicate-merging optimizer only merges nodes that compute the same function of the same inputs; every graph output keeps its value for every input.", "quantifier": "all graphs, all deterministic op semantics", "why_tests_cant": "all wiring shapes and op meanings", "anchors": ["tf2onnx/optimizer/merge_duplicated_nodes_optimizer.py"]}
{"id": "C17", "title": "Constant folding computes what the operator would have computed", "statement": "Whenever the constant-folding optimizer replaces a node by a constant, the constant equals the ONNX semantics of the node on its constant inputs (value, shape), for Cast/Transpose/Reshape/Unsqueeze/Concat/Split/Mul/Add/Sub.", "quantifier": "all constant tensors, all shapes and attributes", "why_tests_cant": "all shapes, ranks and values", "anchors": ["tf2onnx/optimizer/const_fold_optimizer.py"]}
{"id": "C18", "title": "Fusing consecutive Transposes is exact", "statement": "Two back-to-back Transpose nodes are replaced by one with the composed permutation (or none if it is the identity) computing exactly the same tensor.", "quantifier": "all ranks, permutations, tensors", "why_tests_cant": "all ranks and permutations", "anchors": ["tf2onnx/optimizer/back_to_back_optimizer.py:_optimize_transpose"]}
{"id": "C19", "title": "Fusing consecutive Casts is exact", "statement": "Two back-to-back Casts that get fused give the same value as the original pair for every input value.", "quantifier": "all type combinations and all values", "why_tests_cant": "all values of each type", "anchors": ["tf2onnx/optimizer/back_to_back_optimizer.py:_optimize_cast"]}
{"id": "C20", "title": "Fusing consecutive Reshapes is exact", "statement": "Dropping the first of two consecutive Reshapes never changes the result shape or content.", "quantifier": "all shapes and reshape targets (with 0 and -1)", "why_tests_cant": "all ranks, dims, 0/-1 combinations", "anchors": ["tf2onnx/optimizer/back_to_back_optimizer.py:_optimize_reshape_reshape"]}
{"id": "C21", "title": "Cancelling Squeeze/Unsqueeze is exact", "statement": "A Squeeze directly followed by an Unsqueeze on the same axes (or the reverse) is removed only when the pair is the identity on every tensor it accepts.", "quantifier": "all ranks, axes and tensors", "why_tests_cant": "all ranks and axes sets", "anchors": ["tf2onnx/optimizer/back_to_back_optimizer.py:_optimize_squeeze_unsqueeze"]}
{"id": "C22", "title": "Folding BatchNormalization into Conv is exact over the reals", "statement": "Replacing Conv followed by BatchNormalization by a single Conv with rescaled weights and bias computes the same output over the real numbers.", "quantifier": "all weights, biases, statistics, epsilon > 0 and inputs", "why_tests_cant": "uncountable inputs; any channel count/kernel size", "anchors": ["tf2onnx/optimizer/back_to_back_optimizer.py:_optimize_conv_batchnorm_fusion"]}
{"id": "C23", "title": "Pushing a Transpose through an op preserves the computed tensor", "statement": "For each op kind the transpose optimizer knows (elementwise, reduce, softmax, concat, split, slice, pad, tile, squeeze, unsqueeze, shape, argmax/argmin ...) op(Transpose(x)) with the original attributes equals Transpose'(op'(x)) with the attributes and permutation the optimizer writes.", "quantifier": "all ranks, permutations, attribute values and tensors", "why_tests_cant": "ranks/permutations/attributes combine without bound", "anchors": ["tf2onnx/optimizer/transpose_optimizer.py"]}
{"id": "C24", "title": "Symbolic shape tracking in the reshape optimizer is sound", "statement": "When the reshape optimizer replaces a computed shape by a constant or simpler shape, the reshaped tensor has the same shape for every runtime shape of the inputs.", "quantifier": "all symbolic shape programs and all runtime dimension assignments", "why_tests_cant": "runtime dims are unbounded", "anchors": ["tf2onnx/optimizer/reshape_optimizer.py", "tf2onnx/symbolic_executor.py"]}
{"id": "C25", "title": "A failing optimizer never damages the model", "statement": "If an optimizer raises while error catching is on, the driver continues from the graph as it was before this optimizer ran, the remaining optimizers still run, and with error catching off the error reaches the caller.", "quantifier": "all graphs, all optimizer behaviours (any partial mutation before the failure), all failure points", "why_tests_cant": "every crash point in every optimizer", "anchors": ["tf2onnx/optimizer/__init__.py:optimize_graph", "tf2onnx/optimizer/__init__.py:optimize_graph"]}
{"id": "C26", "title": "The chosen converter is the newest one not newer than the opset", "statement": "For every op type, domain set and target opset, the conversion handler selected is the registered one with the largest version not exceeding the target opset of that domain; ops with no such version are reported unsupported; custom handlers take precedence.", "quantifier": "all registries, ops, domains and opsets", "why_tests_cant": "all opset/version combinations and registration orders", "anchors": ["tf2onnx/handler.py:tf_op.create_mapping", "tf2onnx/handler.py:tf_op.register_compat_handler", "tf2onnx/tfonnx.py:tensorflow_onnx_mapping"]}
{"id": "C27", "title": "The operator schema used is the newest one not newer than the opset", "statement": "Looking up an op schema for a maximal opset returns the schema with the largest since_version not above that opset, and nothing if there is none.", "quantifier": "all schema tables, names, domains, opsets", "why_tests_cant": "all version combinations", "anchors": ["tf2onnx/schemas.py:get_schema"]}
{"id": "C28", "title": "Pattern matching is sound and complete", "statement": "The sub graph matcher reports a match exactly when the graph below a node has the shape of the pattern (op types, arity, inputs up to reordering when allowed), and a reported match binds each pattern element to a node it really matches, consistently.", "quantifier": "all patterns, all graphs, all nodes", "why_tests_cant": "patterns and graphs unbounded, permutations of inputs", "anchors": ["tf2onnx/graph_matcher.py"]}
{"id": "C29", "title": "FlexBuffer option decoding inverts encoding", "statement": "Decoding the custom options of a TFLite op returns the value that was encoded, for every value of the supported types (ints of all widths, floats, bools, strings, vectors, typed vectors, maps) and any nesting.", "quantifier": "all values, nestings and byte widths", "why_tests_cant": "unbounded nesting and sizes, offsets", "anchors": ["tf2onnx/flexbuffers.py"]}
{"id": "C30", "title": "TFLite string tensors decode to the encoded strings", "statement": "Parsing a TFLite string tensor buffer returns exactly the list of byte strings that was serialised.", "quantifier": "all lists of byte strings (total size below 2^31)", "why_tests_cant": "all lengths and contents", "anchors": ["tf2onnx/tflite_utils.py:parse_tflite_string_tensor"]}
{"id": "C31", "title": "TF.js weight shards decode to the encoded tensors", "statement": "Reading string weights and the concatenated weight groups of a TF.js model returns exactly the tensors that were written, each from its own byte range, with nothing left over or overlapping.", "quantifier": "all weight manifests and contents", "why_tests_cant": "all sizes and shard layouts", "anchors": ["tf2onnx/tfjs_utils.py:read_tfjs_weight", "tf2onnx/tfjs_utils.py:read_string_weight"]}
{"id": "C32", "title": "SAME padding reproduces TensorFlow's output size", "statement": "For SAME padding the explicit pads written for Conv/Pool are non-negative, begin <= end <= begin+1, and give exactly TensorFlow's output size ceil(in/stride) for every spatial axis; VALID gives TensorFlow's VALID size.", "quantifier": "all input sizes, kernels, strides, dilations", "why_tests_cant": "unbounded integers", "anchors": ["tf2onnx/onnx_opset/nn.py:add_padding"]}
{"id": "C33", "title": "Layout conversion between NHWC and NCHW is lossless", "statement": "The channels-first and channels-last permutations are inverse to each other for every rank, and the shape helper functions agree with what transposing by them does to the shape.", "quantifier": "all ranks >= 2 and all shapes", "why_tests_cant": "all ranks", "anchors": ["tf2onnx/constants.py", "tf2onnx/onnx_opset/nn.py:make_shape_channels_first", "tf2onnx/onnx_opset/nn.py:make_shape_channels_last", "tf2onnx/onnx_opset/nn.py:get_channels_first_permutation"]}
{"id": "C34", "title": "inputs_as_nchw only changes the layout of the named inputs", "statement": "With inputs_as_nchw every other tensor in the model gets the value it had in the original model when the named input is fed in transposed layout.", "quantifier": "all graphs, op semantics, inputs", "why_tests_cant": "all wiring", "anchors": ["tf2onnx/tfonnx.py:transpose_inputs"]}
{"id": "C35", "title": "outputs_as_nchw only changes the layout of the named outputs", "statement": "With outputs_as_nchw the named outputs deliver the transposed value and all other outputs are unchanged.", "quantifier": "all graphs, op semantics, inputs", "why_tests_cant": "all wiring", "anchors": ["tf2onnx/tfonnx.py:transpose_outputs"]}
{"id": "C36", "title": "StridedSlice conversion selects the same elements as TensorFlow", "statement": "For constant begin/end/strides the ONNX Slice+Squeeze that is produced selects exactly the elements TensorFlow's strided_slice semantics select, for every mask combination accepted.", "quantifier": "all ranks, begin/end values, masks", "why_tests_cant": "masks x values x ranks", "anchors": ["tf2onnx/onnx_opset/tensor.py:StridedSlice"]}
{"id": "C37", "title": "Inlining a control-flow function computes the function", "statement": "Inlining a condition/branch sub graph into its parent graph with parameters bound computes the function applied to the bound tensors, changes no value of the parent graph and introduces no name clash.", "quantifier": "all function graphs, bindings, parent graphs", "why_tests_cant": "all wirings, repeated inlining", "anchors": ["tf2onnx/onnx_opset/controlflow.py:inline_subgraph", "tf2onnx/onnx_opset/controlflow.py:prefix_graph", "tf2onnx/onnx_opset/controlflow.py:parameter_binding"]}
{"id": "C38", "title": "External tensor file names are unique", "statement": "When large tensors are stored outside the protobuf, every tensor gets its own storage key, so no tensor's data overwrites another's.", "quantifier": "all sequences of stored tensors and their names", "why_tests_cant": "names are arbitrary strings, sanitisation may collide", "anchors": ["tf2onnx/graph.py:ExternalTensorStorage", "tf2onnx/tf_utils.py", "tf2onnx/graph.py:Node"]}
{"id": "C39", "title": "Removing redundant DequantizeLinear/QuantizeLinear pairs is exact", "statement": "A DequantizeLinear followed by QuantizeLinear with equal scale, zero point and type is the identity on every quantised value, so removing the pair preserves results.", "quantifier": "all quantised values, positive scales, zero points in range", "why_tests_cant": "all values/scales", "anchors": ["tf2onnx/optimizer/q_dq_optimizer.py"]}
{"id": "C40", "title": "GlobalAveragePool/GlobalMaxPool rewriting is exact", "statement": "A ReduceMean/ReduceMax that is replaced by a Global*Pool reduces over exactly all the spatial axes with kept dims.", "quantifier": "all ranks and axes attributes", "why_tests_cant": "all ranks/axes", "anchors": ["tf2onnx/optimizer/global_pool_optimizer.py"]}
{"id": "C41", "title": "Generated names avoid every name of a loaded model", "statement": "After a model was loaded for optimisation, every name generated later differs from every name occurring in the model: node names, node outputs, graph inputs, initializers and graph outputs.", "quantifier": "all models and all later make_name calls", "why_tests_cant": "names in a model are arbitrary strings", "anchors": ["tf2onnx/graph.py:GraphUtil.optimize_model_proto", "tf2onnx/utils.py:make_name", "tf2onnx/graph.py:GraphUtil.create_graph_from_onnx_model"]}
{"id": "C42", "title": "Shape inferred for a Merge covers both branches", "statement": "The shape statically claimed for the output of a control-flow Merge is satisfied by every tensor either branch can deliver.", "quantifier": "all pairs of partially known branch shapes and all runtime shapes refining them", "why_tests_cant": "all partial shapes", "anchors": ["tf2onnx/shape_inference.py:infer_shape_for_op"]}
{"id": "C43", "title": "Structural shape inference is sound", "statement": "The shape claimed for ExpandDims, Unpack, Pack, reductions and Pow refines to the runtime result shape for every runtime input shape refining the known input shapes.", "quantifier": "all ranks, axes and partially known shapes", "why_tests_cant": "all partial shapes and axes", "anchors": ["tf2onnx/shape_inference.py:infer_shape_for_op"]}
{"id": "C44", "title": "Function resolution order respects calls and drops nothing", "statement": "The order in which library functions are converted places each function after all the functions it calls, contains each function once, and contains every function of the library.", "quantifier": "all call graphs", "why_tests_cant": "all call graphs including cyclic ones", "anchors": ["tf2onnx/tf_loader.py:resolve_functions"]}
{"id": "C45", "title": "Earlier conversions do not influence later ones", "statement": "The converters used in a conversion depend only on the handlers registered through the decorator API and on the custom handlers and opsets of that conversion, not on conversions made earlier in the same process.", "quantifier": "all registries, all sequences of conversions with any custom handlers and opsets", "why_tests_cant": "history: depends on every earlier call in the process", "anchors": ["tf2onnx/tfonnx.py:process_parsed_graph", "tf2onnx/handler.py:tf_op.register_handler"]}
{"id": "C46", "title": "Falling back to another domain picks that domain's newest converter", "statement": "When a converter of a custom domain falls back to the converter of another domain for the same op, it gets the newest usable converter of that domain.", "quantifier": "all registries, ops, domains, opsets", "why_tests_cant": "ranges over all registries and opsets", "anchors": ["tf2onnx/handler.py:tf_op.find_effective_op", "tf2onnx/custom_opsets/string_ops.py"]}
{"id": "C47", "title": "Converted convolutions compute TensorFlow's convolution", "statement": "For every Conv1D/2D/3D node (any data format, padding, strides, dilations, groups) the exported Transpose/Conv/Transpose nodes compute, for all inputs and filters, exactly the tensor TensorFlow's convolution computes.", "quantifier": "all tensors, spatial ranks, layouts, paddings, strides, dilations, group counts and partially known static shapes", "why_tests_cant": "all attribute combinations x all values", "anchors": ["tf2onnx/onnx_opset/nn.py:ConvOp", "tf2onnx/onnx_opset/nn.py:conv_convert_inputs", "tf2onnx/onnx_opset/nn.py:add_padding"]}
{"id": "C48", "title": "Converted depthwise convolutions compute TensorFlow's depthwise convolution", "statement": "The exported reshape/transpose of the filter and grouped Conv compute TensorFlow's depthwise_conv2d for every channel multiplier.", "quantifier": "all tensors, channel counts, multipliers, strides, dilations, paddings", "why_tests_cant": "all attribute combinations x all values", "anchors": ["tf2onnx/onnx_opset/nn.py:DepthwiseConv2d"]}
{"id": "C49", "title": "Converted pooling computes TensorFlow's pooling", "statement": "The exported MaxPool/AveragePool nodes aggregate, for every output element, exactly the input elements TensorFlow's max/avg pooling aggregates.", "quantifier": "all tensors, windows, strides, paddings, layouts, spatial ranks", "why_tests_cant": "all attribute combinations", "anchors": ["tf2onnx/onnx_opset/nn.py:PoolOp"]}
{"id": "C50", "title": "Transposed convolution keeps TensorFlow's alignment", "statement": "The pads set on ConvTranspose are valid (non-negative), give the requested output size and align input and output positions as TensorFlow's conv2d_transpose.", "quantifier": "all sizes, kernels, strides, dilations, paddings", "why_tests_cant": "unbounded integers", "anchors": ["tf2onnx/onnx_opset/nn.py:ConvTranspose"]}
{"id": "C51", "title": "Building a graph keeps names and values", "statement": "When a graph is built from a list of nodes with requested outputs, inputs and outputs keep their names and order, every tensor of the given graph keeps its name and its value, outputs are produced by an Identity that nothing else in the graph reads, and the results of the model do not change.", "quantifier": "all valid graphs (with bodies at any depth), all operator meanings, all runs", "why_tests_cant": "a test fixes one graph; the rewiring has to be right for every reader in every nested body and every operator", "anchors": ["tf2onnx/graph.py: Graph.__init__ (503-537)", "tf2onnx/graph.py: replace_all_inputs"]}
{"id": "C52", "title": "Cutting a model at intermediate tensors", "statement": "If the user names an intermediate tensor as input, it becomes a model input (in the requested order); fed with the value the original model computes there, every other tensor has the same value as in the original model; a name that nothing produces is an error.", "quantifier": "all valid graphs, all lists of cut points, all operator meanings, all runs", "why_tests_cant": "tests cut a few graphs at one point; the claim ranges over all graphs and sets of cut points", "anchors": ["tf2onnx/graph.py: Graph.__init__ (480-499)"]}
{"id": "C53", "title": "Converting a TensorFlow While to an ONNX Loop preserves the result", "statement": "For a TensorFlow While node made by tf.while_loop (a counter from 0 compared with maximum_iterations, a user condition, state, tensor lists read or written at the counter) the ONNX Loop that the converter makes, with the condition inlined before the loop and at the end of the body, runs exactly when the While does and gives the same final loop variables; for every written tensor list it gives the stacked items. Conversions of loops that write at other indices, test the counter differently or start it elsewhere do not.", "quantifier": "all conditions, bodies, kinds of loop state, operator semantics, inputs and numbers of iterations, constant or computed maximum", "why_tests_cant": "the number of iterations is unbounded, and the function bodies and operators are arbitrary", "anchors": ["tf2onnx/onnx_opset/controlflow.py:While.version_7", "tf2onnx/onnx_opset/controlflow.py:wire_while_body", "tf2onnx/onnx_opset/controlflow.py:parameter_binding", "tf2onnx/onnx_opset/controlflow.py:inline_subgraph"]}
{"id": "C54", "title": "The written ONNX model computes what the graph computes", "statement": "Writing a graph (with body graphs, constants, inputs with and without defaults) as an ONNX GraphProto gives a model that, for every choice of given inputs, has exactly the results of the graph: constants become initializers, an input with a default becomes an optional input, inputs, outputs and nodes keep their order, the inputs that must be given are those without default, every name that is read is defined, and writing raises no exception when the defaults are constants. A constant used as a default and elsewhere is lost.", "quantifier": "all graphs with nested body graphs, operator semantics, opsets, sets of given inputs and values", "why_tests_cant": "graphs, nesting depth and operator semantics are unbounded", "anchors": ["tf2onnx/graph.py:Graph.make_graph", "tf2onnx/graph.py:Node.update_proto", "tf2onnx/graph.py:Node.is_graph_input", "tf2onnx/graph.py:Node.get_value_attr"]}
{"id": "C55", "title": "Comparisons are converted to nodes that compare the same way", "statement": "Equal, NotEqual, Greater, Less, GreaterEqual and LessEqual of two tensors that broadcast are converted to ONNX nodes that are allowed in the chosen opset and give, element by element, TensorFlow's result, for every dtype, including NaN, infinities and signed zeros.", "quantifier": "all opsets, dtypes, shapes that broadcast and element values", "why_tests_cant": "element values, shapes and opsets are unbounded; the wrong ones are rare values", "anchors": ["tf2onnx/onnx_opset/logical.py:Equal", "tf2onnx/onnx_opset/logical.py:GreaterLess", "tf2onnx/onnx_opset/logical.py:GreaterLessEqual", "tf2onnx/onnx_opset/logical.py:_add_cast_to_inputs"]}
{"id": "C56", "title": "Select is converted to nodes that select", "statement": "Select and SelectV2 are converted to nodes that give, element by element, the element of the first branch where the condition holds and the element of the second where not, for every dtype and value (an infinity or NaN in the branch that is not selected must not matter); a condition with one dimension selects rows.", "quantifier": "all opsets, dtypes, shapes and element values, all kinds of nodes that compute the condition and the branches", "why_tests_cant": "element values and shapes are unbounded", "anchors": ["tf2onnx/onnx_opset/controlflow.py:Select"]}
{"id": "C57", "title": "Elementwise arithmetic is converted to nodes that compute the same numbers", "statement": "Minimum, Maximum, ClipByValue, Square, SquaredDifference, Sign, DivNoNan, FloorDiv, FloorMod, Round, Rint, LeftShift, RightShift and IsFinite are converted to nodes that are allowed in the chosen opset and give, element by element, TensorFlow's result, for every dtype and value.", "quantifier": "all opsets, dtypes, shapes that broadcast and element values", "why_tests_cant": "element values, shapes and opsets are unbounded; the wrong ones are rare values", "anchors": ["tf2onnx/onnx_opset/math.py:make_min_or_max_op", "tf2onnx/onnx_opset/math.py:ClipByValueOp", "tf2onnx/onnx_opset/math.py:Square", "tf2onnx/onnx_opset/math.py:SquaredDifference", "tf2onnx/onnx_opset/math.py:Sign", "tf2onnx/onnx_opset/math.py:DivNoNan", "tf2onnx/onnx_opset/math.py:FloorDiv", "tf2onnx/onnx_opset/math.py:FloorMod", "tf2onnx/onnx_opset/math.py:Round", "tf2onnx/onnx_opset/math.py:BitShift", "tf2onnx/onnx_opset/math.py:IsFinite"]}
{"id": "C58", "title": "Fusing activations into LeakyRelu and ThresholdedRelu keeps the model's results", "statement": "The rewriters that turn max(alpha * x, x) with a constant alpha < 1 into LeakyRelu(alpha), and cast(x > theta) * x into ThresholdedRelu(theta), succeed on every TensorFlow graph, leave a valid graph, and the graph computes what it computed before, also when there are several such groups, when the intermediate tensors are used elsewhere, and whatever the order of the inputs of the commutative operators.", "quantifier": "all graphs (any number of nodes and groups, any wiring), all opsets, all values of the constants and of the inputs over the real numbers", "why_tests_cant": "Tests convert a handful of small graphs with one activation and a fixed alpha; they cannot settle every wiring, the interaction of several matches that were found before any of them was rewritten, or every value of the inputs.", "anchors": ["tf2onnx/rewriter/leakyrelu_rewriter.py:rewrite_leakyrelu", "tf2onnx/rewriter/thresholded_relu_rewriter.py:rewrite_thresholded_relu", "tf2onnx/graph.py:replace_all_inputs", "tf2onnx/graph.py:safe_remove_nodes", "tf2onnx/graph_matcher.py:GraphMatcher"]}
{"id": "C59", "title": "Fusing a matrix product and a sum into Gemm keeps the model's results", "statement": "The rewriter that turns alpha * MatMul(A, B) + beta * C (alpha, beta constants or absent; Add, AddV2 or BiasAdd; inputs of commutative operators in any order) into Gemm succeeds on every TensorFlow graph, leaves a valid graph, and the new graph computes what the old one computed: the transposition flags, the factors and the broadcast of C are right, also when groups feed each other and when the product is used elsewhere.", "quantifier": "all graphs (any number of nodes and groups, any wiring), all known, partly known or unknown shapes and types, all opsets, all factors and inputs over the real numbers", "why_tests_cant": "Tests convert a few layers of fixed shape; they cannot settle every combination of shapes, flags and factors, or the interaction of five patterns whose matches are found before any of them is rewritten.", "anchors": ["tf2onnx/rewriter/gemm_rewriter.py:rewrite_gemm", "tf2onnx/rewriter/gemm_rewriter.py:get_gemm_attr", "tf2onnx/graph.py:replace_all_inputs", "tf2onnx/graph.py:safe_remove_nodes", "tf2onnx/graph_matcher.py:GraphMatcher"]}
{"id": "C60", "title": "SpaceToBatchND and BatchToSpaceND keep their value", "statement": "For every BatchToSpaceND / SpaceToBatchND node TensorFlow accepts (any number of spatial axes, any block shape, constant or computed crops/paddings), if the converter accepts the node then the ONNX subgraph it emits, evaluated with the ONNX operator semantics of the chosen opset, yields exactly TensorFlow's result tensor; from opset 11 on every such node is accepted.", "quantifier": "all element types, tensors, ranks, block shapes, crops/paddings (constant or run-time) and opsets", "why_tests_cant": "The emitted reshape/transpose/gather/slice chain depends on rank, block length and run-time paddings; tests fix a few literal shapes while the correctness of the permutations and interleavings is an all-ranks statement.", "anchors": ["tf2onnx/onnx_opset/tensor.py:BatchToSpace.version_1", "tf2onnx/onnx_opset/tensor.py:SpaceToBatch.version_1", "tf2onnx/graph_builder.py:GraphBuilder.make_slice"]}
{"id": "C61", "title": "Roll keeps its value", "statement": "For every tf.roll (scalar or vector shifts, repeated and negative axes, shifts of any sign and size), if the converter accepts the node, the emitted Slice/Concat chain evaluates to TensorFlow's result.", "quantifier": "all tensors, ranks, shift/axis lists, opsets", "why_tests_cant": "One Slice/Concat round is emitted per axis with run-time shifts; correctness of the composition for any list of axes (including repetitions) is an induction, not a test case.", "anchors": ["tf2onnx/onnx_opset/tensor.py:Roll.any_version"]}
{"id": "C62", "title": "ReverseV2 keeps its value", "statement": "For every tf.reverse with distinct axes on a tensor of any rank and shape (including empty dimensions), the converter accepts the node from opset 10 on and the emitted chain of Transpose and ReverseSequence nodes evaluates to the tensor with exactly those axes reversed, in the original layout.", "quantifier": "all tensors, ranks, sets of axes in any order (negative or not), opsets >= 10", "why_tests_cant": "The chain composes one axis swap per reversed axis and restores the layout with a permutation computed at the end; whether that permutation inverts the composition for every set of axes cannot be settled by examples.", "anchors": ["tf2onnx/onnx_opset/tensor.py:ReverseV2.version_10"]}
{"id": "C63", "title": "tf.stack, tf.unstack and tf.split convert to expressions with the same value", "statement": "The ONNX graph that replaces a Pack, Unpack, Split or SplitV node computes, for every output of the node, exactly the tensor TensorFlow computes: the stacked tensor, each slice along the axis, each of the equal parts, each of the parts with given sizes (including a size -1 for 'the rest', and sizes only known at run time).", "quantifier": "every element type, opset, number and shape of inputs, axis (also negative), number of parts, sizes, and every known or unknown part of the static shape", "why_tests_cant": "tests fix a rank, an axis and a few sizes; unknown static dimensions, negative axes in old opsets, and run-time sizes containing -1 are combinations that no finite test list covers", "anchors": ["tf2onnx/onnx_opset/tensor.py: Pack, Unpack, Split, SplitV"]}
{"id": "C64", "title": "tf.slice converts to an expression with the same value", "statement": "The ONNX graph that replaces a Slice node computes exactly the sub tensor tf.slice(x, begin, size) denotes, including size -1 (everything that is left), whether begin and size are constants or computed at run time.", "quantifier": "every element type, tensor of any rank, begin and size accepted by TensorFlow, integer width and opset", "why_tests_cant": "tests fix a few begin/size values; the run-time path adds begin to a huge constant whose overflow depends on the values", "anchors": ["tf2onnx/onnx_opset/tensor.py: Slice", "tf2onnx/graph_builder.py: make_slice"]}
{"id": "C65", "title": "tf.gather converts to an expression with the same value", "statement": "The ONNX graph that replaces a Gather or GatherV2 node computes result[b,a,i,c] = x[b,a,idx[b,i],c] for the given axis and batch_dims, for data and indices of any rank, or the conversion is refused.", "quantifier": "every element type, data, indices, axis (also negative), batch_dims (also negative), opset, known and unknown ranks", "why_tests_cant": "the permutations around GatherND depend on four numbers (two ranks, axis, batch_dims); tests cover a handful of combinations", "anchors": ["tf2onnx/onnx_opset/tensor.py: Gather, GatherV2"]}
{"id": "C66", "title": "tf.pad converts to an expression with the same value", "statement": "The ONNX graph that replaces a Pad, PadV2 or MirrorPad node computes the tensor that tf.pad computes (constant, reflect or symmetric mode), with constant and with computed paddings, or the conversion is refused; the border value has the element type of the padded data.", "quantifier": "every element type, tensor of any rank, paddings allowed by TensorFlow, mode, border value, opset, known and unknown rank", "why_tests_cant": "symmetric padding is emulated axis by axis with a dummy row, a mask and Compress; whether that is right depends on each axis' paddings and on all axes together", "anchors": ["tf2onnx/onnx_opset/nn.py: Pad, PadV2, MirrorPad (version_1, version_11, convert_symmetric_pad)"]}
{"id": "C67", "title": "tf.one_hot converts to an expression with the same value", "statement": "The ONNX graph that replaces a OneHot node computes tf.one_hot (off_value everywhere for an index that is out of range), or the conversion is refused.", "quantifier": "every element type, indices of any rank and value, depth, axis, on and off value, opset", "why_tests_cant": "the table for Gather is built by two in-place masked assignments whose order matters for special on/off pairs; indices are run-time values", "anchors": ["tf2onnx/onnx_opset/tensor.py: OneHot (version_1, any_version_after9)"]}
{"id": "C68", "title": "space_to_depth and depth_to_space convert to expressions with the same value", "statement": "The ONNX graph that replaces a SpaceToDepth or DepthToSpace node computes the TensorFlow result for both data formats, whether the input is computed or a constant that is transposed in place.", "quantifier": "every element type, tensor, block size, data format, opset", "why_tests_cant": "the order of the channels inside a block interacts with the transposes; tests use a few small shapes", "anchors": ["tf2onnx/onnx_opset/nn.py: SpaceToDepth, DepthToSpace, conv_convert_inputs"]}
{"id": "C69", "title": "tf.reverse_sequence converts to a graph with the same value", "statement": "The ONNX graph that replaces a ReverseSequence node reverses the first lengths[i] entries of the sequence axis for every batch entry and keeps the others, or the conversion is refused.", "quantifier": "every element type, tensor, lengths, seq_dim, batch_dim, opset; for opset 8 every result that the Scan documentation allows", "why_tests_cant": "values beyond the sequence are undefined in Scan 8, a runtime may well give the right ones in a test; axes beyond the first two are rarely tested", "anchors": ["tf2onnx/onnx_opset/tensor.py: ReverseSequence"]}
{"id": "C70", "title": "tf.range", "statement": "The graph made for tf.range has as its output the same sequence of numbers: for constants, for computed start, limit and delta with a loop (before opset 11), and with the operator Range (opset 11 and later).", "quantifier": "every start, limit and delta of the integer types (for the loop and the constants: as far as the counting in floating point is exact), every float start, limit, delta for the loop, every opset", "why_tests_cant": "the number of elements is a rounded quotient and every boundary (equal ends, negative steps, overflow, rounding of the quotient) depends on the three numbers", "anchors": ["tf2onnx/onnx_opset/controlflow.py: make_range_const, make_range_non_const, make_range, Range"]}
{"id": "C71", "title": "top_k and invert_permutation", "statement": "The graph made for tf.math.top_k has the k largest elements of every row in descending order with their int32 indices (equal elements by index), and leaves what other nodes read unchanged; the graph made for tf.math.invert_permutation has the inverse permutation.", "quantifier": "every tensor (rank, shape, dtype, values that float32 represents exactly, no NaN), every k constant or computed, every permutation, every opset", "why_tests_cant": "which elements are selected and in which order depends on all values, ties and the rounding of the casts", "anchors": ["tf2onnx/onnx_opset/tensor.py: TopKV2.version_1, any_version_after10", "tf2onnx/onnx_opset/math.py: InvertPermutationOp.version_11", "tf2onnx/graph.py: insert_new_node_on_output, insert_new_node_on_input"]}
{"id": "C72", "title": "Reductions, ArgMax/ArgMin, All and Any keep their values", "statement": "Converting a TensorFlow Sum, Mean, Max, Min, Prod, ArgMax, ArgMin, All or Any yields ONNX nodes that, run by the ONNX standard at the target opset, accept the tensor and return exactly the tensors TensorFlow may return: same shape (with or without keep_dims), same reduced elements, whatever the rank, the number, sign and type of the axes (constant or not, scalar or vector), and whether or not the rank is known to the converter; All and Any, computed in float32, are right in every order of summation.", "quantifier": "all tensors of all shapes, all reductions that act on the multiset (or list) of elements, all lists of axes TensorFlow accepts, all opsets from 7 on, known and unknown ranks, all orders of the float additions", "why_tests_cant": "the shapes, axes, opsets and summation orders are unbounded; tests try a few shapes per opset", "anchors": ["tf2onnx/onnx_opset/reduction.py: ReduceOpBase, ArgMax, AllAny", "tf2onnx/graph_builder.py: make_reduce_sum, make_unsqueeze"]}
{"id": "C73", "title": "Segment reductions compute TensorFlow's segments", "statement": "A converted SegmentSum/Prod/Max/Min/Mean, SparseSegmentSum/Mean/SqrtN (with or without num_segments) or UnsortedSegmentSum/Prod/Max/Min yields, for data of any row shape and any ids TensorFlow accepts, the same number of segments, each reduced over exactly the rows with that id (sums and products in some order, mean and sqrtn divided by the number of rows resp. its square root), and TensorFlow's default for segments without rows; float and signed integer data with rank-1 ids are accepted.", "quantifier": "all 15 operators, all data, ids, indices and num_segments, constant or not, all row widths, all float32 values including NaN, infinities and signed zeros", "why_tests_cant": "the graph sorts ids, counts them, scatters row numbers into a grid and pads it with identity rows: whether no row is lost or counted twice depends on the order, multiplicities and gaps of the ids, an unbounded space", "anchors": ["tf2onnx/onnx_opset/reduction.py: SegmentSum.any_version", "tf2onnx/graph_builder.py: GraphBuilder._make_reduce_op, make_reduce_sum, make_unsqueeze"]}
{"id": "C74", "title": "Ragged operators keep their rows", "statement": "tf.ragged.range, a gather of rows of a ragged tensor and the conversion of a ragged tensor to a sparse one are converted to graphs whose outputs are, for every ragged tensor and every argument, the row splits, values, index tuples and dense shape that TensorFlow computes: the same rows with the same elements in the same order, empty rows included. A gather with more than one ragged dimension or with values of another rank is refused.", "quantifier": "all ragged tensors with any number of rows of any length (for the sparse conversion: any number of ragged dimensions), all index vectors, all integer starts, limits and deltas (scalars or vectors), all recorded ranks", "why_tests_cant": "Rows are encoded in cumulative sums, scattered deltas and flattened grids; the encoding has to be right for every pattern of row lengths, empty rows next to each other, first and last included.", "anchors": ["tf2onnx/onnx_opset/tensor.py:ragged_lengths_to_sparse_indices", "tf2onnx/onnx_opset/tensor.py:ragged_nested_splits_to_sparse_indices", "tf2onnx/onnx_opset/tensor.py:RaggedTensorToSparse", "tf2onnx/onnx_opset/tensor.py:RaggedRange", "tf2onnx/onnx_opset/tensor.py:RaggedGather"]}
{"id": "C75", "title": "Partition, stitch, bincount and unique give TensorFlow's result", "statement": "Converted DynamicPartition puts exactly the rows with partition i, in their order, in output i; DynamicStitch puts every row at its index; Bincount and DenseBincount (with or without binary output) count every value below size and ignore larger ones; Unique and UniqueWithCounts return the distinct elements in the order of their first occurrences with the place of each element and the counts, in TensorFlow's order of outputs. Partitions that are not known to be a vector and non-empty weights are refused.", "quantifier": "all data, partitions, indices, sizes and element types, all recorded ranks and shapes", "why_tests_cant": "Each output depends on how often and in which order values occur in the whole input: duplicates, gaps, values out of range and empty inputs make an unbounded space.", "anchors": ["tf2onnx/onnx_opset/tensor.py:DynamicPartition.any_version", "tf2onnx/onnx_opset/tensor.py:DynamicStitch.any_version", "tf2onnx/onnx_opset/tensor.py:Bincount.any_version", "tf2onnx/onnx_opset/tensor.py:Unique.version_11"]}
{"id": "C76", "title": "Sparse and ragged tensors keep every value at its position", "statement": "A converted SparseReshape gives every element the index tuple with the same row-major position and computes a dimension -1; SparseFillEmptyRows marks exactly the rows without entries and adds one default entry to each; SparseToDense and RaggedTensorToTensor put every value at its index and the default everywhere else, with the rows cut or padded to the shape that was asked for. Combinations that are not supported are refused at conversion.", "quantifier": "all shapes, ranks, index lists, row lengths, nesting depths, recorded shapes and both row-partition layouts", "why_tests_cant": "The expressions depend on strides, counts and offsets of run-time data; tests fix a few tensors, while empty rows, empty tensors, dimension 0 and unordered entries decide.", "anchors": ["tf2onnx/onnx_opset/tensor.py:SparseToDense.version_11", "tf2onnx/onnx_opset/tensor.py:RaggedTensorToTensor.version_11", "tf2onnx/onnx_opset/tensor.py:ragged_nested_row_ids_to_sparse_indices", "tf2onnx/onnx_opset/tensor.py:SparseReshape.any_version", "tf2onnx/onnx_opset/tensor.py:SparseFillEmptyRows.any_version"]}
{"id": "C77", "title": "Atan2 yields the angle of the point, in every quadrant and on the axes", "statement": "For every pair of real coordinates (y, x) of tensors of the same shape or of broadcastable ranks, a converted Atan2 yields the one angle in (-pi, pi] whose cosine and sine are the direction of the point (x, y), and 0 for the origin; the rank of the result is the rank that TensorFlow gives. Operand types outside float16/32/64 are refused.", "quantifier": "all real y and x, all ranks of the operands, all recorded types", "why_tests_cant": "The graph combines Atan of a quotient with sign corrections computed by masks; a test fixes a few points, while the property must hold in each quadrant, on each half axis and at the origin.", "anchors": ["tf2onnx/onnx_opset/math.py:Atan2Op.version_9"]}
{"id": "C78", "title": "Products of matrices and Einsum compute what TensorFlow computes", "statement": "A converted MatMul or BatchMatMul of any rank, with any combination of transpose and adjoint flags, yields the products of the matrices read as the flags say, the leading dimensions broadcast; a converted Einsum yields the sum that its equation denotes, also where it is replaced by a MatMul. Sparse operands, and adjoint flags for types that are not real floating point, are refused.", "quantifier": "all shapes, ranks, recorded ranks and types, flags, equations and ways of adding up the products", "why_tests_cant": "Ranks, flags and equations are unbounded combinations; tests fix a few of them, and an equation is recognised as a product by the positions of its letters.", "anchors": ["tf2onnx/onnx_opset/math.py:MatMul.version_1", "tf2onnx/onnx_opset/math.py:MatMul.version_10", "tf2onnx/onnx_opset/math.py:Einsum.version_12"]}
{"id": "C79", "title": "Cumprod multiplies exactly the entries up to its position", "statement": "A converted Cumprod of a tensor of any rank yields at every position the product of the entries before it along the axis (with or without the entry itself, from the front or from the back), 1 where there is none, for an axis that is constant or an input and any axis length; a constant axis that does not count from the front is refused.", "quantifier": "all shapes, axes, flags, axis lengths, opsets and commutative associative multiplications", "why_tests_cant": "The result comes from a loop whose trip count is the axis length, with shifted copies; tests fix a few lengths, while the length 0, opset 10 and negative axes given at run time decide.", "anchors": ["tf2onnx/onnx_opset/math.py:CumProd.version_10", "tf2onnx/onnx_opset/math.py:CumProd.make_loop_graph", "tf2onnx/onnx_opset/math.py:CumProd.get_pads_node"]}
{"id": "C80", "title": "Hue and saturation changes give TensorFlow's colours", "statement": "For every pixel of non-negative channels, whatever their order and including ties and grey, a converted AdjustHue yields the colour TensorFlow reaches through hue, saturation and value, and so does a converted AdjustSaturation.", "quantifier": "all pixels, hue deltas of at least -1 and saturation factors of at least 0, over the real numbers", "why_tests_cant": "The graph treats the sorted channels and puts them back; which of six orders a pixel has decides, and a test image holds few of them.", "anchors": ["tf2onnx/onnx_opset/nn.py:AdjustSaturation.version_11", "tf2onnx/onnx_opset/nn.py:AdjustHue.version_11"]}
{"id": "C81", "title": "MatrixBandPart keeps exactly the band", "statement": "A converted MatrixBandPart of a tensor of any rank keeps every entry whose distance to the diagonal is within the bounds (a negative bound keeps a whole triangle) and replaces all others by zero, for bounds that are constant or computed; before opset 11 the two triangles of a matrix come out right and anything else is refused.", "quantifier": "all shapes, ranks known or not, bounds (constant or at run time) and values", "why_tests_cant": "The mask is made from a running count reshaped to the matrix, or line by line in a loop; empty matrices, bounds known only at run time and infinite values decide, and tests have none.", "anchors": ["tf2onnx/onnx_opset/nn.py:MatrixBandPart.version_7", "tf2onnx/onnx_opset/nn.py:MatrixBandPart.version_11", "tf2onnx/onnx_opset/nn.py:MatrixBandPart._apply_mask_and_transform"]}
{"id": "C82", "title": "Batch normalisation normalises each channel", "statement": "A converted FusedBatchNorm of any 4- or 5-dimensional input, channels first or last, gives every entry minus the mean of its channel, divided by the square root of variance plus epsilon, times scale plus offset: with the statistics of the input in training mode, with the given ones otherwise.", "quantifier": "all pictures, channels, sizes, layouts, modes, epsilons, statistics and values", "why_tests_cant": "In training mode the statistics are rebuilt from a mean, a subtraction, a sum of squares and a product of dimensions read at run time, around transposes; which axes are reduced and the count matter for every shape.", "anchors": ["tf2onnx/onnx_opset/nn.py:BatchNorm.version_6"]}
{"id": "C83", "title": "Scattering combines every update", "statement": "A converted ScatterNd, TensorScatterAdd, TensorScatterSub, TensorScatterMax, TensorScatterMin or TensorScatterUpdate gives, at every entry, the old value (zero for ScatterNd) combined with exactly the updates whose index names that entry, slices and repeated indices included.", "quantifier": "all shapes, index depths, indices (repeated or not), updates and opsets", "why_tests_cant": "Repeated indices are where adding and overwriting differ, and which reductions the target operator has depends on the opset; tests use few index patterns.", "anchors": ["tf2onnx/onnx_opset/tensor.py:ScatterND.version_11", "tf2onnx/onnx_opset/tensor.py:TensorScatterAdd.version_16", "tf2onnx/onnx_opset/tensor.py:TensorScatterMax.version_16", "tf2onnx/onnx_opset/tensor.py:TensorScatterMin.version_16", "tf2onnx/onnx_opset/tensor.py:TensorScatterSub.version_16", "tf2onnx/onnx_opset/tensor.py:TensorScatterUpdate.version_11"]}
{"id": "C84", "title": "Local response normalisation uses the right window and constants", "statement": "A converted LRN divides every value by (bias + alpha times the sum of squares over the channels within depth_radius) to the power beta, for every picture size, number of channels and radius, with TensorFlow's value for each attribute that is left out.", "quantifier": "all shapes, radii, attributes given or left out, and values", "why_tests_cant": "The operator's window is described by a size with rounding on both sides, cut off at the first and last channel, and its alpha is divided by the size; its defaults differ from TensorFlow's. Tests have few channels and write all attributes.", "anchors": ["tf2onnx/onnx_opset/math.py:LRN.version_1"]}
{"id": "C85", "title": "Softmax and the softmax cross entropies compute TensorFlow's values", "statement": "A converted Softmax or LogSoftmax normalises along the last axis for every rank and opset; converted (sparse) softmax cross entropies give minus the log probability of the label, for every batch, number of classes known or unknown, broadcasting and opset.", "quantifier": "all shapes, batches, numbers of classes, labels, values and opsets", "why_tests_cant": "The operators' default axis changes with the opset; sparse labels are turned into masks in three different ways; the maximum that is subtracted must cancel for all reals. Tests use few classes at the newest opsets.", "anchors": ["tf2onnx/onnx_opset/math.py:Softmax", "tf2onnx/onnx_opset/nn.py:SparseSoftmaxCrossEntropyWithLogits", "tf2onnx/onnx_opset/nn.py:_make_softmax_cross_entropy_with_logits"]}
{"id": "C86", "title": "Greedy CTC decoding yields TensorFlow's sequences", "statement": "A converted CTCGreedyDecoder outputs for every batch, scores and sequence lengths the same sparse indices, classes, dense shape and log probabilities as TensorFlow: blanks and (if merged) repetitions are dropped, times after the end of a sequence are ignored, ties go to the lowest class.", "quantifier": "all numbers of times, pictures and classes, all lengths and scores, merge_repeated on or off", "why_tests_cant": "The loop over time with its memory of the previous class is replaced by shifted comparisons, masks, running counts and compressions over the whole batch at once. Tests use one or two fixed batches.", "anchors": ["tf2onnx/onnx_opset/nn.py:CTCGreedyDecoder.version_11"]}
{"id": "C87", "title": "Set operations on rows yield TensorFlow's sparse sets", "statement": "A converted DenseToDenseSetOperation (a-b, b-a, intersection, union) outputs for every pair of tensors with the same leading dimensions TensorFlow's sparse tensor: for each row the members of the resulting set, once each and in increasing order, with their positions, and a dense shape ending in the size of the largest set.", "quantifier": "all ranks and sizes, all integer elements with any repetitions, the four operations", "why_tests_cant": "The sets are formed by sorting rows of coordinates, counting how often a row occurs in concatenations, and positions within a set by scattering one minus the previous counts and a running sum. Tests use a few fixed tensors in which every operation leaves something.", "anchors": ["tf2onnx/onnx_opset/tensor.py:DenseToDenseSetOperation.version_11"]}
{"id": "C88", "title": "Positions of pooled maxima are TensorFlow's", "statement": "The second output of a converted MaxPoolWithArgmax says for every window where its maximum is in TensorFlow's numbering of (N, H, W, C), or of one picture without include_batch_in_index, whenever MaxPool says where it is in ONNX's numbering of (N, C, H, W); where the opset is too old for that, conversion is refused.", "quantifier": "all sizes, any choice of maxima, all opsets, everything that may be known of the input's shape", "why_tests_cant": "The renumbering is arithmetic on remainders and broadcast ranges whose form depends on opset and known dimensions; it must be right for every position of every window. Tests use one or two fixed pictures with known channels.", "anchors": ["tf2onnx/onnx_opset/nn.py:MaxPoolWithArgmaxOp.version_8"]}
{"id": "C89", "title": "Bands of diagonals are extracted like TensorFlow's", "statement": "A converted MatrixDiagPartV2 or V3 outputs, for every matrix, every diagonal or band of diagonals, padding value and alignment, the same diagonals in the same order with padding on the same side as TensorFlow.", "quantifier": "all matrix sizes, all bands within the matrix, all four alignments, any entries and padding", "why_tests_cant": "The handler computes one flat index for every output entry, with strides, clamping to padded cells, ranges that are empty on one side of the main diagonal and casts to float for minima. A wrong bound shows only for certain shapes, bands and alignments, and the casts only for matrices above 2^24 elements.", "anchors": ["tf2onnx/onnx_opset/tensor.py:MatrixDiagPartV2V3.any_version_after12"]}
{"id": "C90", "title": "The main diagonals of matrices are extracted", "statement": "For every tensor of matrices the converted MatrixDiagPart yields, for every leading index p and every n < min(rows, columns), the element at p, n, n, in the shape lead ++ [min(rows, columns)]. Proved for three dimensions and for more where the constant slice axes [2, 1] do no harm; refuted for a single matrix (always rejected) and for four dimensions with a second dimension larger than the diagonal (matrices are lost).", "quantifier": "every element type, rank, shape and value with rows, columns <= 2^24", "why_tests_cant": "The slice axes are a constant that is right for the rank the test uses; every other rank and every proportion of dimensions behaves differently.", "anchors": ["tf2onnx/onnx_opset/tensor.py: MatrixDiagPart.any_version"]}
{"id": "C91", "title": "Contrast changes give TensorFlow's pixels", "statement": "For every tensor of images in three or more dimensions and every factor, every pixel of the converted AdjustContrastv2 is (x - mean) * factor + mean, the mean taken over the pixels of the same image and channel. Over the real numbers; images whose type is not that of the factor fail to convert (the Cast is made from the type number instead of the factor).", "quantifier": "every rank from 3 on, shape, value and factor", "why_tests_cant": "Which axes are reduced depends on the rank; a test sees one rank and shape, and cannot tell a mean per channel from another mean on symmetric data.", "anchors": ["tf2onnx/onnx_opset/nn.py: AdjustContrastv2.version_1"]}
{"id": "C92", "title": "Concatenation keeps every tensor", "statement": "For every list of tensors that agree but for one axis, and every axis, the output of the converted ConcatV2 holds every input at its offset along the axis, even though constant inputs without elements are dropped. Proved if those are empty along the axis; refuted for a constant that is empty along another axis (the output is too short) and for a node all of whose inputs are empty constants (an invalid Concat, the check for it is never reached).", "quantifier": "every number of inputs, shape, value, axis, every choice of constant inputs and of known ranks", "why_tests_cant": "A test has one list of shapes; that dropping an empty input is harmless depends on which of its dimensions is zero.", "anchors": ["tf2onnx/onnx_opset/tensor.py: ConcatV2.version_1"]}
