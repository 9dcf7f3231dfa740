import json
P=[]
def p(title, statement, quantifier, why, anchors):
    P.append(dict(id="C%02d"%(len(P)+1), title=title, statement=statement, quantifier=quantifier, why_tests_cant=why, anchors=anchors))
F="src/fastforward/"
# --- tiling / granularity
p("Tiling round trip","tiles_to_rows followed by rows_to_tiles with the same tile size returns the original tensor (same shape, same element at every index), and rows_to_tiles followed by tiles_to_rows returns the original rows.",
  "every tensor of every rank and shape, every element type, every tile size that divides the shape","The space of shapes, ranks and tile sizes is unbounded; a test fixes a handful of shapes.",
  [F+"quantization/tiled_tensor.py:tiles_to_rows",F+"quantization/tiled_tensor.py:rows_to_tiles"])
p("Rows are tiles","Row r of tiles_to_rows(x, tile) holds exactly the elements of the r-th tile (tiles numbered row-major over the tile grid, elements row-major inside the tile); every element of x lands in exactly one row/column.",
  "every shape, compatible tile size and element index","Index arithmetic must be right for every rank and divisor combination.",
  [F+"quantization/tiled_tensor.py:tiles_to_rows",F+"quantization/tiled_tensor.py:check_tile_compatibility"])
p("Granularity parameter count","For every granularity, the number of quantization parameters it announces for a data shape equals the number of tiles its tile size induces on that shape, so one scale/offset exists for each tile.",
  "every data shape and every PerTensor/PerChannel/PerBlock/PerTile granularity compatible with it","Must hold for every shape/granularity pair.",
  [F+"quantization/granularity.py:Granularity.parameter_dimensionality",F+"quantization/granularity.py:PerBlock.tile_size"])
p("Granularity recovery from sizes","granularity_from_sizes(shape, tile) returns a granularity whose tile size on that shape is again tile, so that export reconstructs the tiling actually used.",
  "every data shape and every tile size dividing it","Case analysis over unboundedly many shape/tile combinations.",
  [F+"quantization/granularity.py:granularity_from_sizes"])
# --- affine
p("Codes are in-range integers","Affine quantization of any tensor yields only integers q with -2^(b-1) <= q <= 2^(b-1)-1.",
  "every input value, every non-zero scale, every offset (or none), every bit width b >= 1","Unbounded input values, scales, offsets and bit widths.",
  [F+"quantization/_quantizer_impl.py:quantize_by_tile_impl",F+"quantization/affine/range.py:integer_minimum"])
p("Rounding error bound and saturation","For an input inside the representable range the dequantized value differs from it by at most scale/2; an input below (above) the range dequantizes to the lower (upper) end of quantization_range.",
  "every real input, positive scale, integral offset, bit width","A statement about every real number.",
  [F+"quantization/_quantizer_impl.py:quantize_by_tile_impl",F+"quantization/_quantizer_impl.py:dequantize_by_tile_impl",F+"quantization/affine/range.py:quantization_range"])
p("Grid fixpoint and idempotence","Quantizing a dequantized code gives that code back, hence quantize-dequantize is idempotent: applying it a second time changes nothing.",
  "every code in range / every input, every positive scale, offset and bit width","Universally quantified over inputs and parameters.",
  [F+"quantization/_quantizer_impl.py:quantize_by_tile_impl",F+"quantization/_quantizer_impl.py:dequantize_by_tile_impl"])
p("Monotone quantization","Quantize-dequantize with fixed parameters is monotone: x <= y implies qdq(x) <= qdq(y).",
  "every pair of inputs, positive scale, offset, bit width","Ranges over all pairs of reals.",
  [F+"quantization/_quantizer_impl.py:quantize_by_tile_impl"])
p("Range to parameters covers the range","The scale/offset returned by parameters_for_range(min,max,...) make quantization_range cover [min,max]: exactly when asymmetric or one-sided, as a superset when symmetric; the returned scale is positive.",
  "every min < max, every bit width, symmetric or not, one-sided allowed or not","Real-valued quantification with four branches; corner cases (1 bit, all-zero data) are easy to miss.",
  [F+"quantization/affine/range.py:parameters_for_range",F+"quantization/affine/range.py:quantization_range"])
p("Setting then reading a quantization range","Assigning quantizer.quantization_range = (min,max) on an asymmetric linear quantizer and reading it back gives (min,max) again; reading and re-assigning leaves scale and offset unchanged.",
  "every range min < max, every bit width > 0","Universally quantified real identity.",
  [F+"nn/linear_quantizer.py:LinearQuantizer.quantization_range",F+"quantization/affine/range.py:parameters_for_range"])
p("Dynamic quantization never saturates visibly","Dynamic affine quantization of any tile reproduces each element of this tile within one quantization step.",
  "every non-empty tile of reals, every bit width >= 2","Parameters depend on the data itself.",
  [F+"quantization/_quantizer_impl.py:quantize_dynamic_by_tile_impl"])
p("Tile-wise quantization is element-wise with the tile's own parameters","Quantizing a tensor by tile equals quantizing each element with the scale and offset of the tile that contains it; elements of other tiles and their parameters have no influence.",
  "every tensor, tile size, parameter vector and index","Needs the tiling bijection for every shape.",
  [F+"quantization/_quantizer_impl.py:quantize_by_tile_impl",F+"quantization/tiled_tensor.py:tiles_to_rows"])
p("Straight-through gradients","The gradient of quantize-dequantize w.r.t. the input is the incoming gradient exactly where the unrounded code is inside the integer range and zero elsewhere; the gradients w.r.t. scale and offset are the tile sums of the straight-through derivative.",
  "every input, incoming gradient, scale, offset, bit width, tile","Pointwise statement over all reals, including the clamp boundaries.",
  [F+"quantization/_quantizer_impl.py:quant_dequant_by_tile_grad_impl"])
# --- quantized tensor ops
p("Structural operations commute with dequantization","Reshape/view/transpose/contiguous and indexing on a quantized tensor followed by dequantization give the same tensor as dequantizing first and then applying the operation.",
  "every quantized tensor and every index/shape the operation accepts","Ranges over all tensors, granularities and indices.",
  [F+"quantization/_linear_quantized_ops.py:reshape",F+"quantization/_linear_quantized_ops.py:getitem_per_channel",F+"quantization/_linear_quantized_ops.py:unsqueeze",F+"quantization/_linear_quantized_ops.py:cat",F+"quantization/_linear_quantized_ops.py:scalar_multiply"])
p("Strict quantization forbids implicit dequantization","With strict quantization on, calling a torch function without a quantized kernel on a quantized tensor raises; it is never silently dequantized. With strict quantization off the fallback dequantizes every quantized argument first.",
  "every function, argument tree, dispatch table and flag state","Ranges over all argument structures and dispatcher states.",
  [F+"quantized_tensor.py:QuantizedTensor.__torch_function__",F+"quantized_tensor.py:_dequantization_fallback",F+"flags.py:strict_quantization"])
p("Dispatcher selects the newest best-priority match","dispatch(op, ...) returns a kernel whose predicate accepts the arguments, of the best priority among all accepting kernels, and the most recently registered one of that priority; it returns None only if no registered predicate accepts.",
  "every sequence of registrations, every predicate and every call","Histories of registrations are unbounded.",
  [F+"dispatcher.py:dispatch",F+"dispatcher.py:_register_functional"])
p("Temporary kernel registration is undone","Registering a kernel through its context manager and leaving the block restores the dispatch behaviour that held on entry, for any nesting of such blocks.",
  "every initial table and every well-nested sequence of enter/exit","All nestings and all tables.",
  [F+"dispatcher.py:_DispatcherRegisterHook",F+"dispatcher.py:register"])
p("Flag contexts restore on every exit","After a with-block on a library flag (strict quantization, export mode, compiled quantization) ends, normally or by exception, the flag has the value it had before the block; inside it has the requested value.",
  "every program of nested flag blocks with exceptions at any point","All nestings and exception points.",
  [F+"flags.py:_context_flag",F+"flags.py:context"])
p("Forward overrides stack and detach independently","Overrides registered on a quantizer run newest-outermost, each seeing the next one as the function it wraps, with the quantizer's own implementation innermost; removing any handle removes exactly this override and preserves the order of the others.",
  "every sequence of register/remove operations and every call","Unbounded histories.",
  [F+"forward_override.py:apply_overrides",F+"forward_override.py:OverrideHandle",F+"nn/quantizer.py:Quantizer.register_quantizer_override"])
p("disable_quantization / enable_quantization restore","Inside disable_quantization(model) each quantizer passes its input through unchanged; after the block all quantizers behave as before, for every nesting of disable/enable blocks, also under exceptions.",
  "every model, nesting and exception point","All nestings and exception points.",
  [F+"overrides.py:disable_quantization",F+"overrides.py:enable_quantization",F+"overrides.py:DisableQuantizationOverride"])
p("freeze_parameters ends with its block","Leaving `with freeze_parameters(model)` removes the frozen-parameter behaviour: afterwards each quantizer runs as before the block.",
  "every model and set of quantizers","Must hold for every set of quantizers and every prior override state.",
  [F+"quantization/freeze.py:freeze_parameters"])
p("Module-level strict quantization is scoped to the module's forward","With strict_quantization_for_module attached to a module, the global flag has the requested value during its forward call and the caller's value after the call, whatever the nesting of attached modules and whether or not the call raises.",
  "every call tree over modules with any number of attached handles, with exceptions","All call trees.",
  [F+"quantization/strict_quantization.py:strict_quantization_for_module",F+"quantization/strict_quantization.py:ModuleStrictQuantHandle"])
# --- range setting
p("Running min-max equals global min-max","After running min-max estimation over any sequence of batches the range equals the min and max of all data seen, independent of batch order and of how the data are split into batches.",
  "every sequence of batches","All data and all splits.",
  [F+"range_setting/minmax.py:RunningMinMaxEstimator"])
p("Smoothed min-max is a convex combination","Smoothed min-max estimation yields the exponentially weighted average of per-batch extremes with initial weight from the first batch; the estimate always stays between the smallest and largest per-batch extreme.",
  "every sequence of batches, every gamma in [0,1]","Induction over arbitrary histories.",
  [F+"range_setting/minmax.py:SmoothedMinMaxEstimator"])
p("Grid search picks the best candidate","The error-minimizing estimator leaves the quantizer at a candidate range whose error accumulated over all batches seen so far is minimal among all candidates of the search grid.",
  "every sequence of batches, error function, number of candidates, symmetric or asymmetric","All histories, all grid sizes; perfect-square sizes used in tests hide the other sizes.",
  [F+"range_setting/min_error.py:_MinErrorEstimatorStep",F+"range_setting/min_error.py:_UniformSearchGrid"])
p("Range estimation leaves no trace on the forward path","After an estimate_ranges block ends, normally or by exception in the body, the set of overrides of each quantizer is what it was before the block.",
  "every model, every set of overrides and exception points","All histories and exception points.",
  [F+"range_setting/common.py:estimate_ranges",F+"range_setting/common.py:SimpleEstimatorStep"])
# --- model conversion
p("quantize_model converts exactly the convertible modules","quantize_model replaces the class of each reachable module that has an entry in the conversion map by its quantized class, leaves parameters and names in place, and if an unsupported module exists raises before changing anything.",
  "every module tree and conversion map","All module trees.",
  [F+"nn/quantized_module.py:quantize_model",F+"nn/quantized_module.py:_check_quantizable",F+"nn/quantized_module.py:_quantize_module"])
p("Conversion map: last registration wins and filters are undone","quantized_module_map maps each float module class to the last registered allowed quantized class; extending registrations never removes an entry.",
  "every history of registrations and filters","Unbounded histories.",
  [F+"nn/quantized_module.py:quantized_module_map",F+"nn/quantized_module.py:filter_quantized_module_map"])
p("Quantizer listing is complete and duplicate free","named_quantizers yields every quantizer reachable in the model exactly once (per module identity) under a path that leads to it, skipping stubs if asked.",
  "every module graph including shared modules","All module graphs.",
  [F+"nn/quantized_module.py:named_quantizers"])
# --- quant init
p("QuantizationConfig precedence","With a QuantizationConfig each quantizer matched by at least one rule is initialized exactly once by the matching rule of highest precedence, later rules winning ties; unmatched quantizers are untouched.",
  "every list of rules and every model","All rule lists and models.",
  [F+"quantization/quant_init.py:QuantizationConfig.initialize"])
p("Overwrite policy","Initializing a quantizer collection: `error` raises if a target is already a concrete quantizer, `skip` leaves those unchanged and initializes the rest, `overwrite` replaces all.",
  "every collection and every mix of stubs and quantizers","All models and policies.",
  [F+"quantization/quant_init.py:QuantizerCollection.initialize",F+"quantization/quant_init.py:_initialize_quantizer"])
# --- save/load
p("Shared tensors survive the checkpoint","De-duplicating shared tensors before saving and expanding them after loading yields the original state dictionary: every key maps to the tensor it had, and keys that shared storage share it again.",
  "every state dictionary with every sharing pattern","All sharing patterns.",
  [F+"quantization/save_load.py:_deduplicate_shared_tensors",F+"quantization/save_load.py:_expand_shared_tensors"])
p("Quantization state round trip","Saving the quantization state of a model and loading it in a model of the same structure attaches to every quantizer path a quantizer with the saved class, configuration and parameters; quantizers that were one object are one object again.",
  "every model, every set of quantizers and sharing","All models and sharing patterns; metadata corner cases.",
  [F+"quantization/save_load.py:save_quantization_state",F+"quantization/save_load.py:load_quantization_state",F+"quantization/save_load.py:_collect_quantizer_state",F+"quantization/save_load.py:_load_quantizer_state_from_files"])
p("Load overwrite policy","Loading with overwrite_policy `error` onto a model that already has a concrete quantizer raises; `skip` keeps it; `overwrite` replaces it.",
  "every model and saved state","All models/states.",
  [F+"quantization/save_load.py:_load_quantizer_state_from_files"])
# --- fuse / gptq
p("Fusing QDQ weights preserves the quantized model","After fuse_qdq_weights each fused weight is on its quantizer's grid, so quantizing it again returns the same weight: the quantized forward result is unchanged and fusing twice equals fusing once.",
  "every weight, tile size, scale and offset","All weights and parameters.",
  [F+"quantization/fuse.py:fuse_qdq_weights",F+"quantization/fuse.py:_fuse_target"])
p("Tied weights are fused only if unambiguous","If fuse_qdq_weights succeeds for a weight tied to several quantizers, all those quantizers map it to the same values, so the fused weight is the QDQ value under each of them whatever the visiting order.",
  "every set of tied targets and order","All orders and tying patterns.",
  [F+"quantization/fuse.py:_check_tied_weight_targets"])
p("GPTQ running Hessian","After any sequence of calibration batches the accumulated Hessian equals 2/N times the sum of x x^T over all N samples, independent of batch splits and order.",
  "every sequence of batches","All histories.",
  [F+"quantization/gptq.py:calculate_hessian"])
p("GPTQ writes on-grid weights","After GPTQ each column of the weight is a fixed point of the quantizer that was used for it, whatever the Hessian, block size and error feedback.",
  "every weight matrix, inverse Hessian, block size","All real matrices.",
  [F+"quantization/gptq.py:gptq",F+"quantization/gptq.py:column_quantizer"])
# --- mpath
p("Path queries: exactly the matching modules","query(root, q) returns exactly the modules that are reachable through a path of child names matching q, where a plain fragment matches one step, `*` any one step and `**` any number of steps (also zero); each module once.",
  "every module tree and every query made of names, patterns, `*` and `**`","All trees and queries.",
  [F+"mpath/_search.py:search",F+"mpath/selector.py:Selector.matches_and_continuations"])
p("Path queries with alternatives","A query with a brace group {q1,...,qn} returns the union of the results of the queries obtained by picking one alternative.",
  "every tree and query with brace groups","All trees and queries.",
  [F+"mpath/selector.py:MultiSelector",F+"mpath/_search.py:search"])
p("Query text round trip","Printing a selector and parsing the text gives a selector that matches the same paths.",
  "every selector over identifier names, wildcards, inversions and brace groups","All selectors of any size.",
  [F+"mpath/_parser.py:Parser",F+"mpath/_parser.py:Tokenizer"])
p("Module collections behave like sets","Union, intersection, difference and symmetric difference of MPathCollections contain exactly the modules the set operation prescribes, each once.",
  "every pair of collections","All collections.",
  [F+"mpath/_search.py:MPathCollection"])
# --- orchestration
p("Execution order of a traced graph","topological_sort returns every leaf node exactly once, each after all nodes it takes input from; it raises exactly if leaf nodes depend on each other in a cycle or a leaf takes input from something that is no leaf of the graph.",
  "every graph","All graphs.",
  [F+"_orchestration/graph_module.py:topological_sort"])
p("Ancestor computation","ancestors(graph, node) is exactly the set of nodes from which the node is reachable through input edges; with stop the walk does not go past it, and with strict the result is exactly the nodes on paths from stop to node.",
  "every graph and node","All graphs.",
  [F+"_orchestration/graph_module.py:ancestors"])
p("Cycle detection","find_cycle returns a closed walk of actual edges if the graph has a cycle, None if it has none.",
  "every directed graph","All graphs.",
  [F+"_orchestration/graph_module.py:find_cycle"])
p("Scheduled programs compute the graph","Running the instruction program scheduled for a graph returns, batch by batch, the values obtained by evaluating each node on the values of its inputs; it never reads an activation that has not been produced in the required context.",
  "every acyclic graph, every interpretation of its modules, every batch list","All graphs and all module functions.",
  [F+"_orchestration/instruction_engine.py:InstructionScheduler.schedule",F+"_orchestration/instruction_engine.py:InstructionEngine.run",F+"_orchestration/instruction_engine.py:_propagate_contexts"])
p("Freeing activations is unobservable","lifetime_management_pass never changes what a program returns nor any call's arguments, and after the run no activation other than outputs is kept once it was mentioned.",
  "every instruction sequence and every module semantics","All programs.",
  [F+"_orchestration/instruction_engine.py:lifetime_management_pass"])
p("Dropping non-optimization work is unobservable to the optimizer","optimization_only_pass keeps each optimization call, in order and with the same activation bundles, for every program.",
  "every instruction sequence","All programs.",
  [F+"_orchestration/instruction_engine.py:optimization_only_pass"])
p("Offloading restores placement","After a program with OffloadEverything has run, every weight is back on its original device and the results are the same as without offloading.",
  "every graph, program, initial placement and device pair","All programs and placements.",
  [F+"_orchestration/instruction_engine.py:_weight_offloading_pass",F+"_orchestration/instruction_engine.py:_offloading_pass"])
p("Offloading runs modules on the compute device","With OffloadEverything each module call happens with the module's weights and all input activations on the compute device.",
  "every program and initial placement","All programs and placements.",
  [F+"_orchestration/instruction_engine.py:_cancel_module_round_trips",F+"_orchestration/instruction_engine.py:_cancel_redundant_activation_moves"])
p("Graph inputs bind like a Python call","Calling a graph binds positional arguments to inputs in order and keywords by name, and raises if an argument is missing, unknown, duplicated or excess.",
  "every input list and call","All calls.",
  [F+"_orchestration/instruction_engine.py:InstructionEngine.prepare_input_register"])
p("Batch broadcasting","Combining activation streams of lengths 1 and N repeats the singletons and keeps every other stream; any other length mismatch raises; batch i of a bundle consists of element i of each stream.",
  "every list of streams","All streams.",
  [F+"_orchestration/instruction_engine.py:ActivationDataset.broadcast",F+"_orchestration/instruction_engine.py:ActivationBundle"])
p("Algorithm registry override is scoped","registry.override(algorithm, targets) changes the targets only inside its block; afterwards resolve gives what it gave before, under nesting and exceptions.",
  "every registry history and nesting","All histories.",
  [F+"_orchestration/registry.py:override",F+"_orchestration/registry.py:_AlgorithmRegistry"])
p("Flow contexts are the ones given","An activation flow declared with a context manager runs under this very context manager.",
  "every sequence of flow declarations","All histories of declarations.",
  [F+"_orchestration/data_flow.py:_to_generator",F+"_orchestration/data_flow.py:register_generator"])
p("Graph coarsening preserves the computation","reduce_resolution returns a graph that computes the same outputs as the original graph for every input.",
  "every graph and set of target regions","All graphs and regions.",
  [F+"_orchestration/graph_module.py:reduce_resolution",F+"_orchestration/graph_module.py:create_subgraph",F+"_orchestration/graph_module.py:remap_subgraph_reference"])
# --- export
p("Export pipeline order","Running an export pipeline executes every registered stage exactly once, after all its dependencies, passing it their results; it raises exactly if dependencies are cyclic or unregistered.",
  "every set of stages and dependency relation","All graphs.",
  [F+"export/pipeline/core.py:Pipeline._build_pipeline",F+"export/pipeline/core.py:Pipeline._execute_pipeline"])
p("Pipeline edits keep wiring","insert_stage_before/after and replace_stage rewire the graph as documented: downstream stages receive the new stage's result in place of the old one and all their other inputs unchanged (in the same position).",
  "every pipeline and edit","All pipelines.",
  [F+"export/pipeline/core.py:Pipeline.replace_stage",F+"export/pipeline/core.py:Pipeline.insert_stage_after",F+"export/pipeline/core.py:Pipeline.insert_stage_before"])
p("add_dependency keeps a pipeline acyclic","add_dependency raises exactly if the edge would close a cycle, so pipelines edited with it stay executable.",
  "every acyclic pipeline and edge","All pipelines.",
  [F+"export/pipeline/core.py:Pipeline.add_dependency",F+"export/pipeline/core.py:Pipeline._reaches"])
p("GGUF packing is lossless","Dequantizing packed Q4_0/Q8_0 bytes with llama.cpp's formula yields scale*code for each code FastForward stored.",
  "every block of in-range codes","16^32 blocks.",
  [F+"export/stages/gguf/_packing.py:pack_q4_0_blocks",F+"export/stages/gguf/_packing.py:pack_q8_0_blocks"])
p("RoPE row permutation keeps rows and scales paired","The RoPE export transform is a permutation of rows (no row lost or duplicated), moves row h*2k'+... as documented and moves the block scales with their codes.",
  "every number of rows, heads and blocks per row","All sizes.",
  [F+"export/stages/gguf/_arch.py:_rope_permute_row_index",F+"export/stages/gguf/_arch.py:_apply_row_permute"])
p("LPBQ scale compression","Each block's integer scale is in [1, 2^b] and integer scale times channel scale approximates the block scale within half a step of the channel scale (one step for tiny scales); the largest block scale of a channel is exact.",
  "every grid of positive scales and bit width","All reals.",
  [F+"export/_lpbq.py:LPBQProcessor.grouped_dynamic_quantize"])
p("Exported encodings describe the quantizer","Decoding an exported integer with the exported scale/offset gives FastForward's dequantized value, and the encoding is flagged symmetric exactly when all offsets are zero.",
  "every scale/offset vector and bit width","All parameter vectors.",
  [F+"export/_export_schemas.py:_preprocess_quantization_params",F+"export/_export_schemas.py:V2SchemaHandler.add_encoding",F+"export/_export_schemas.py:V1SchemaHandler.add_encoding"])
p("Encoding names are first-wins unique","A schema handler never has two encodings with one name and category; the first added is the one exported.",
  "every sequence of add_encoding/clear","All histories.",
  [F+"export/_export_schemas.py:V1SchemaHandler",F+"export/_export_schemas.py:LegacySchemaHandler",F+"export/_export_schemas.py:V2SchemaHandler"])
p("Quantization spec propagation through views","The propagation pass never overwrites a quantization spec, only copies specs between a view and its input, and reaches every node connected to an annotated node by a chain of views.",
  "every graph and annotation","All graphs.",
  [F+"export/stages/passes.py:PropagateFFQuantSpecs"])
# --- misc
p("Relative import resolution","The module name computed for a relative import in generated code is the one Python resolves it to.",
  "every module name, number of dots and target","All names.",
  [F+"_autoquant/pysource/scope.py:_resolve_relative_module_name"])
p("Quantizer tag hierarchy","A quantizer tagged with a tag also carries all its parent tags, and a tag query matches exactly the quantizers carrying the tag or one of its descendants.",
  "every tag hierarchy and set of tags","All hierarchies.",
  [F+"nn/quantizer.py:Tag",F+"nn/quantizer.py:QuantizerMetadata",F+"quantization/quant_init.py:QuantizerTagSelectorFragment"])
# --- appended while modelling
p("Equal granularities induce equal tilings","Two granularity objects that compare equal (==) induce the same tile size on every data shape.",
  "every pair of granularity instances and every shape","All instances.",
  [F+"quantization/granularity.py:Granularity.__eq__",F+"quantization/granularity.py:PerBlock"])
p("Accepted output dtypes store all codes","If quantization accepts an output dtype for a bit width, every code of that bit width is stored in this dtype without change.",
  "every dtype, bit width and code","All codes of all widths.",
  [F+"quantization/_quantizer_impl.py:can_support_bitwidth",F+"quantization/_quantizer_impl.py:quantize_by_tile_impl"])
p("Flag blocks under overlapping executions","Flag blocks opened and closed by several threads or suspended generators leave the process-wide flag as it was once all of them have ended.",
  "every interleaving of block entries and exits","All interleavings.",
  [F+"flags.py:_context_flag"])
p("Default search grid contains a covering candidate","With the default relative margin, the uniform search grid built from a batch contains, among the candidates that are evaluated, one whose range covers every entry of that batch (perfect-square numbers of candidates >= 4 in the asymmetric case).",
  "every batch, absolute margin, symmetry and number of candidates","All batches.",
  [F+"range_setting/min_error.py:_UniformSearchGrid"])
p("Estimated ranges do not clip the calibration data","Setting a quantizer to the range found by running min-max estimation gives scale and offset whose representable range contains every entry seen, in every tile that holds at least two different values.",
  "every sequence of batches, granularity, bit width and symmetry","All data.",
  [F+"range_setting/minmax.py:RunningMinMaxEstimator",F+"quantization/affine/dynamic.py:parameters_for_range"])
p("Metadata extension check","is_extension answers True exactly when the other metadata has all tags of this one and no attribute of this one is missing there or different, and never raises.",
  "every pair of quantizer metadata","All tag sets and attribute dictionaries.",
  [F+"nn/quantizer.py:QuantizerMetadata.is_extension"])
p("GGUF export is complete and keeps tensors apart","The exported GGUF file holds exactly one tensor for every initialized, untied parameter that has a GGUF name, no other tensor, and no two parameters end up under the same name; unquantized parameters keep their values.",
  "every model (list of named parameters), shipped architecture adapter and quantization format","All parameter lists and names.",
  [F+"export/stages/gguf/_naming.py:_build_name_map",F+"export/stages/gguf/_extract.py:extract_module_tensors",F+"export/stages/gguf/gguf_export_stages.py:stage_pack_gguf_blocks"])
p("Llama projections are exported in llama.cpp's row order","In a Llama export every q_proj and k_proj weight, quantized or not, is written in the row order llama.cpp expects.",
  "every Llama model, head counts and choice of quantized layers","All models.",
  [F+"export/stages/gguf/_arch.py:llama_rope_permute"])
p("Quantizer parameters survive the ONNX metadata","Writing a quantizer's parameters to ONNX metadata and reading them back gives the same bit width, scales, offsets, tile size and data shape, so that the exported encoding decodes to the original quantizer's values.",
  "every scale and offset vector, bit width, data shape and tile size","All parameter vectors.",
  [F+"export/stages/annotations.py:_ff_quantizer_spec",F+"export/stages/onnx/onnx_export_stages.py"])
p("Annotation removes exactly the quantization operations","Converting a captured graph removes every quantize and dequantize operation and nothing else; the remaining graph computes what the captured graph computes with quantization switched off, and a tensor carries the parameters of the last quantizer that read it.",
  "every graph, operator semantics, input and parameter assignment","All graphs and inputs.",
  [F+"export/stages/passes.py:AnnotateFFQuantSpecs",F+"export/stages/annotations.py:_ff_quantizer_spec"])
p("The annotated graph determines the quantized model","Reading each annotated tensor of the converted graph through the fake quantizer of its spec gives the results of the captured quantized graph.",
  "every graph, operator semantics and input","All graphs and inputs.",
  [F+"export/stages/passes.py:AnnotateFFQuantSpecs"])
p("Specs copied to views fit the view","A quantization spec copied from a tensor to a view of it quantizes every element of the view as it quantizes that element in the tensor.",
  "every tensor, view, granularity and parameter values","All tensors and views.",
  [F+"export/stages/passes.py:PropagateFFQuantSpecs"])
p("The QDQ export computes the quantizer","The QuantizeLinear and DequantizeLinear nodes written for a quantizer produce the codes and values the quantizer produces, or the export is refused.",
  "every tensor, granularity, bit width, scale and offset, and every behaviour of the ONNX cast outside the range of the type","All tensors and parameters, including ties and unrepresentable zero points.",
  [F+"export/stages/onnx/onnx_qdq_export_stages.py:_make_ff_quantize_by_tile_onnx",F+"export/stages/onnx/onnx_qdq_export_stages.py:_ff_axis_from_tile_size",F+"export/stages/onnx/onnx_qdq_export_stages.py:_ff_quant_dtype_for_bitwidth"])
p("The QDQ export keeps the caller's options","Options and operator lowerings given by the caller are used unchanged, missing ones are filled in, and options that cannot work (wrong type, opset below 21 or not available) are refused with TypeError or ExportError.",
  "every options dictionary and set of available opsets","All dictionaries.",
  [F+"export/stages/onnx/onnx_qdq_export_stages.py:_with_ff_qdq_lowerings"])
p("Saved states do not overwrite each other","The quantization state loaded for a model name and tag is the one saved last under exactly that name and tag, whatever was saved under other names and tags.",
  "every history of saves, every pair of names and tags","All histories and names, including names with characters that file systems reject.",
  [F+"cache.py:get_assets_path",F+"quantization/save_load.py:save_quantization_state",F+"quantization/save_load.py:load_quantization_state"])
p("Model artifact weights round trip","Loading a saved model artifact gives every weight of the target the saved value, ties included, and raises RuntimeError unless the target has exactly the saved weights; quantizer parameters are never taken from the weight file.",
  "every state dict, sharing pattern, set of quantizers and target","All models.",
  [F+"quantization/save_load.py:save_quantized_model",F+"quantization/save_load.py:load_quantized_model"])
p("GPTQ's block size does not change the result","The block size of GPTQ only groups the work: for every positive block size the same weight and quantizer parameters are written.",
  "every weight, quantizer, calibration set and pair of block sizes","All matrices and block sizes.",
  [F+"quantization/gptq.py:gptq"])
p("GPTQ group scales fit the corrected weights","With one scale per group of columns, GPTQ computes the scale of a group from the weights of the group after all corrections by the columns before it.",
  "every weight, group size, block size and Hessian","All matrices.",
  [F+"quantization/gptq.py:gptq",F+"quantization/gptq.py:update_partial_range"])
p("layerwise_optimize runs the algorithm it is given","The function that layerwise_optimize runs at every region is the algorithm passed to it, with the arguments bound to it, and it runs at exactly the regions of its targets.",
  "every registry, model, algorithm (functions and partials), target and list of specs","All registries and targets.",
  [F+"orchestration.py:layerwise_optimize",F+"_orchestration/registry.py:_AlgorithmRegistry.resolve",F+"_orchestration/registry.py:_algorithm_key"])
p("Targets select exactly the matching modules","A target (module type, query, module, selector or any nested collection of these) resolves to exactly the modules it stands for, each once; types in model order; a named module that is not in the model, no match, and targets of another kind are errors.",
  "every target, model and set iteration order","All targets and models.",
  [F+"_orchestration/registry.py:normalize",F+"_orchestration/registry.py:Selector",F+"_orchestration/registry.py:register",F+"_orchestration/registry.py:resolve"])
p("A graph called on batches computes each batch","A graph module called on one iterable of batches (dictionaries, tuples, lists or objects with a value for every input) returns for every batch what the graph computes for the values of that batch; one tensor, several arguments and keyword arguments are passed on as they are.",
  "every graph, iterable of batches and batch kind","All graphs and iterables.",
  [F+"_orchestration/graph_module.py:GraphModule._sanitize_inputs",F+"_orchestration/graph_module.py:GraphModule.forward"])
p("Inlining a subgraph keeps its meaning","The references returned by add_subgraph have the values the subgraph computes for the given arguments, nothing else in the graph changes its value, and calls that cannot be inlined are refused with the graph unchanged.",
  "every graph, subgraph, argument list and history of graph building calls","All graphs and arguments.",
  [F+"_orchestration/graph_module.py:GraphModule.add_subgraph",F+"_orchestration/graph_module.py:GraphModule.add_node",F+"_orchestration/graph_module.py:GraphModule.add_input"])
p("A call runs the graph as it is now","A call of a graph module computes the outputs of the graph as built so far, whatever calls and additions came before, and leaves the graph unchanged.",
  "every history of additions and calls","All interleavings of building and calling.",
  [F+"_orchestration/graph_module.py:GraphModule.forward",F+"_orchestration/graph_module.py:GraphModule._reset_graph"])
p("Preparing source code keeps its meaning","The code autoquant continues with, after lines are split, augmented assignments expanded and calls and operators moved to lines of their own, returns the same values with the same effects as the source code, and raises exactly when it does.",
  "every function body, meaning of calls, operators, attributes and so on, and starting state","All programs and semantics.",
  [F+"_autoquant/cst/passes.py:IsolateReplacementCandidates",F+"_autoquant/cst/passes.py:ConvertSemicolonJoinedStatements",F+"_autoquant/autoquant.py:default_preprocessing_passes"])
p("Expanded augmented assignments do the same","Rewriting x += y to x = x + y (and so on for all operators and for attributes and items) leaves no augmented assignment behind and does not change what the code does.",
  "every function body, meaning of operators and starting state","All programs and semantics.",
  [F+"_autoquant/cst/passes.py:ExpandAugAssign"])
p("Prepared code has one operation per line","In prepared code every line holds one statement, every call or operator of a line that may be replaced is the whole value of its statement unless it is part of a conditional expression or comprehension, and every temporary is assigned in one place.",
  "every function body","All programs.",
  [F+"_autoquant/cst/passes.py:IsolateReplacementCandidates",F+"_autoquant/cst/passes.py:ConvertSemicolonJoinedStatements"])
p("Exactly the calls and operators may be replaced","Marked for replacement are exactly the calls, except of super and the bypassed functions, and the unary and binary operations with an operand that is not built from literals; removing the marks gives back the source code.",
  "every expression","All expressions.",
  [F+"_autoquant/cst/passes.py:MarkReplacementCandidates",F+"_autoquant/bypass.py"])
p("Generated code imports what it uses",
  "Every name that code generated from a function reads and that its source module binds is imported in the generated module and stands there for what it stands for in the source module; nothing is imported under another meaning, and no local name or builtin is hidden.",
  "every source module (imports, from-imports, relative imports, aliases, definitions), every function body, every set of local names",
  "The names and import forms that can occur in source modules cannot be enumerated.",
  [F+"_autoquant/pysource/scope.py:find_required_imports", F+"_autoquant/pysource/scope.py:_RequiredSymbolsVisitor", F+"_autoquant/pysource/scope.py:ImportSymbol"])
p("Every quantized call gets its quantizers",
  "In the code autoquant generates, every call of a quantized helper function passes exactly the quantizer parameters the helper declares, in their order; along every path of calls from a method of a module, every quantizer of a helper is one of the quantizers of the instance, and different paths use different quantizers.",
  "every call graph of methods and helper functions, every number of quantizers in each, every path of calls",
  "Call graphs and paths of calls cannot be enumerated.",
  [F+"_autoquant/autoquant.py:_discover_quantized_functions", F+"_autoquant/autoquant.py:_propagate_quantizers", F+"_autoquant/autoquant.py:_generate_signatures", F+"_autoquant/autoquant.py:_resolve_calls"])
p("Passing quantizers on comes to an end",
  "Autoquant returns for every model: working out which quantizers helper functions have to pass on ends, whatever the functions call.",
  "every call graph of methods and helper functions, with and without recursion",
  "Non-termination cannot be observed by a test, and call graphs cannot be enumerated.",
  [F+"_autoquant/autoquant.py:_propagate_quantizers"])
p("Quantizers have names of their own",
  "In generated code, different quantizers of one object, and different quantizer parameters of one function, have different names, which do not change while code is written and are no names of other parameters; a class declares exactly the quantizers its methods use.",
  "every history of created references (any names, any methods and functions) and of questions for their names",
  "Names come from source code and cannot be enumerated; clashes depend on combinations of names.",
  [F+"_autoquant/pybuilder/quantizer_collection.py:QuantizerReferenceCollection.disambiguate_all_names", F+"_autoquant/pybuilder/quantizer_collection.py:QuantizerReferenceCollection.disambiguate_reference", F+"_autoquant/pybuilder/builder.py:InitQuantizationMethod", F+"_autoquant/pybuilder/builder.py:_add_quantizer_args"])
p("Generated classes and functions have names of their own",
  "In a generated module, no two classes, base classes or helper functions have the same name, whatever the types and functions are called, and names are found for all of them; types and functions whose names do not clash are called QuantizedName and quantized_name.",
  "every list of module types and helper functions with any names, in any order of requests",
  "Names cannot be enumerated, and the search for a free name has no bound.",
  [F+"_autoquant/autoquant.py:QuantizedClassNameAllocator", F+"_autoquant/autoquant.py:_resolve_all_quantized_calls"])
p("Renaming helpers changes nothing else",
  "When helper functions get new names in generated code, expressions that refer to a helper refer to its new name, and all other expressions keep their meaning.",
  "every set of renamed helpers, every expression, every meaning of names, attributes and calls",
  "Expressions and name meanings cannot be enumerated.",
  [F+"_autoquant/autoquant.py:_RenameHelperRefsTransformer", F+"_autoquant/autoquant.py:_resolve_all_quantized_calls"])
p("Everything a model uses is converted, once",
  "Autoquant starts from the module types of the model that have no quantized version, each once, and ends; every function and method that a converted function uses is converted exactly once, unless its conversion fails, and nothing else is converted.",
  "every model, every graph of uses among methods and functions (with recursion), every set of failing conversions",
  "Call graphs cannot be enumerated, and neither termination nor completeness of a work queue can be observed on examples.",
  [F+"_autoquant/autoquant.py:autoquant", F+"_autoquant/autoquant.py:_find_unquantized_submodules"])
p("Calls in converted code are resolved",
  "In every function and method that autoquant converts, calls of other converted functions become calls of their quantized versions with their quantizers.",
  "every model and graph of uses, with inherited and aliased methods",
  "Class hierarchies and call graphs cannot be enumerated.",
  [F+"_autoquant/autoquant.py:_discover_quantized_functions", F+"_autoquant/autoquant.py:_resolve_all_quantized_calls"])
p("Renaming keeps the meaning of the ONNX model",
  "The stages between the exporter and the saved file that change names keep what the model computes: altering names gives every initializer and every result of a node the name made from the prefix and its old name and nothing else a new name; names asked for inputs and outputs are given exactly to them and are refused exactly if there are too many or too few; afterwards different values still have different names, so that the file, in which values are known by name only, computes the same outputs from the same inputs.",
  "all graphs with shared values, optional inputs and any operators, all prefixes, all names asked for",
  "tests export a few models with the names of torch's exporter; clashes of names need other models",
  [F+"export/_onnx_helpers.py:_fix_onnx_names", F+"export/stages/onnx/onnx_export_stages.py:_rename_onnx_input_output_names", F+"export/pipeline/qnn_onnx_pipeline.py"])
p("Quantization annotations reach the right tensors of the ONNX file",
  "The quantization of an FX node is written into the ONNX file for the tensor that holds its value, under the final name of that tensor and as a parameter if it is one, and nothing else is written; in particular annotations that are copied by name end up at the objects they come from.",
  "all graphs, all quantization specs of FX nodes, all records of where ONNX objects come from, all final names",
  "tests look at single models in which names are unique and nodes have one result",
  [F+"export/stages/onnx/onnx_export_stages.py:OnnxQuantMetadataAnnotator,OnnxIrToProtoMetadataCopier", F+"export/pipeline/qnn_onnx_pipeline.py"])
p("Quantized operators guard their arguments and then compute the torch function",
  "A quantized operator called in strict mode without an output quantizer, or with a plain tensor where its specification asks for quantized ones (also inside lists and optional arguments), raises QuantizationError before torch is called; otherwise it is the torch function on the dequantized arguments followed by the output quantizer, and strict mode defaults to the global flag. The functions generated for the operators of the project have the parameters and defaults of their specifications.",
  "all operator specifications with supported types, all 53 operators of the project, all arguments, all torch functions and quantizers, both modes",
  "tests call some operators with a few tensors; specifications of users are not among them, and defaults are compared by reading",
  [F+"_quantops/generate.py", F+"_quantops/operator.py:Operator.from_spec", F+"_quantops/symtypes.py", F+"_quantops/quantized_operators.yaml", F+"_gen/fallback.py", F+"_gen/operators.py"])
p("Calls are matched with operators as Python binds arguments",
  "autoquant takes the newest registered overload that Python would accept the arguments of the call for, each parameter gets the argument that Python would give it, and a call is left alone exactly if no overload accepts it.",
  "all operators, all overload sets, all positional and keyword arguments, unpacked ones too",
  "tests bind a few calls; the rules of binding concern all combinations of positional and keyword arguments and defaults",
  [F+"_quantops/operator.py:Operator.bind_partial,validate_arguments", F+"_autoquant/cst/node_creation.py:get_quantized_function_counterpart"])
p("The operator table returns what was registered, newest first",
  "After an operator has been added, it comes first for its torch function, all aliases and every function that had the same operators, followed by what was there before; lookups of everything else, by function or name, are unchanged; nothing is lost or listed twice, an unknown key is a KeyError and nothing else, and a refused operator leaves the table as it was. The file of the project loads and every operator is found under each of its names.",
  "all histories of additions and aliases, including refused ones, all ways names resolve to functions, all files",
  "tests add a few operators to fresh tables; sharing through aliases and refused additions need histories",
  [F+"_quantops/optable.py:OperatorTable", F+"_quantops/quantized_operators.yaml", F+"_import.py:QualifiedNameReference"])
p("Attention without quantizers is attention",
  "Without quantizers and dropout the quantized version of scaled dot product attention returns, for each row of the query, the mean of the values of the keys that the mask allows, weighted by the softmax of the scaled scores plus the mask, and 0 for a row without allowed keys; masked keys and their values have no influence, a causal row depends on the keys up to it, results lie between the smallest and largest allowed value and are never NaN; with grouped queries neighbouring heads share keys and values.",
  "all sizes, queries, keys, values, masks (boolean, additive, causal, broadcast), scales, masking numbers, and positive functions in place of exp",
  "tests compare random tensors with torch; fully masked rows, small scores and the choice of the masking number decide the outcome for inputs that tests do not draw",
  [F+"nn/functional/custom/sdpa.py:scaled_dot_product_attention_math,_quantized_safe_softmax,_get_quantized_attn_bias"])
p("Strict attention is quantized throughout; torch's attention is used only where allowed",
  "In strict mode attention succeeds only if query, key and value are quantized, every intermediate result has a quantizer and heads are not shared; torch's own function is used exactly if strict mode is off, the fallback is allowed and no quantizer is active.",
  "all inputs, quantizers, kernels and settings of strict mode and fallback, and all behaviours of torch's function",
  "tests cannot observe which of two functions gave a result when both agree; strict mode has a check per intermediate result",
  [F+"nn/functional/custom/sdpa.py:scaled_dot_product_attention,scaled_dot_product_attention_math,_is_quantizer_active,_torch_sdpa_fallback"])
p("The attention dtype is scoped",
  "Inside a with statement attention uses the dtype asked for, after it the one before is back, also after an exception, however such statements are nested.",
  "all programs of nested with statements, exceptions and reads, including managers that are made before they are entered",
  "tests enter a few managers; restoring concerns all nestings and exception points",
  [F+"nn/functional/custom/sdpa.py:_SDPAUpcast"])
p("Module export records what the modules saw",
  "When modules of a model are exported, the stored reference of each module is its last call, once with quantization disabled and once quantized: arguments keep their structure, exactly the quantized tensors are replaced by their values, and their parameters are recorded in the same places. Afterwards no hooks are left on the modules, whatever happened.",
  "all models (any sequence of calls, any exception), all nested arguments, keyword arguments and outputs, all modules chosen",
  "tests export small models with flat arguments; structures nest without bound and exceptions may occur at any call",
  [F+"export/module_export.py:export_modules", F+"export/_io_capture.py:ModuleIORecorder,_deep_dequantize,_dequantize_leaves,_dequant_and_get_quantparams"])
p("Inputs and outputs of exported modules get the encodings of the tensors they were called with",
  "The encodings file of an exported module holds the encodings of its graph and, for every input and output of the graph that was a quantized tensor when the module was called, the parameters of that tensor under its name; nothing else.",
  "all models, modules, arguments by position and keyword, graphs, and handlers with any history",
  "tests use modules with one or two tensors; which argument belongs to which graph input depends on all arguments before it",
  [F+"export/module_export.py:maybe_extend_encodings_file", F+"export/module_export.py:export_modules"])
p("Surrogates cover what has no quantized counterpart",
  "surrogate_quantized_modules gives a new class to exactly the classes of the model without an entry in the conversion maps, and conversion with these surrogates always succeeds, changing the class of those modules and nothing else.",
  "all models, conversion maps and flags",
  "tests convert a few small models; the property ranges over all module graphs and maps",
  [F+"nn/quantized_module.py:surrogate_quantized_modules,_missing_modules,quantize_model"])
p("Quantizers take over the metadata of the attribute they are assigned to",
  "A quantized module remembers the metadata of each quantizer attribute. A quantizer assigned to the attribute carries the tags remembered for it, however often it is replaced, removed or deleted in between; module and quantizer share the metadata; inconsistent metadata is reported and an assignment that raises leaves things as they were.",
  "all histories of modules, quantizers, assignments, registrations, removals and tags",
  "queries by tag rely on the metadata after every history of replacements; tests replace a stub once",
  [F+"nn/quantized_module.py:QuantizedModule.register_quantizer,QuantizedModule.__setattr__", F+"nn/quantizer.py:QuantizerMetadata"])
p("Summaries count every quantizer once",
  "The summary of the quantizers of a model has one entry per description, listing exactly the quantizers so described, most frequent first; names that differ only in numbers share a line with their count, different lines show different texts and the counts add up.",
  "all lists of named quantizers and all descriptions",
  "tests check one model; grouping, order and distinctness must hold for all names",
  [F+"nn/quantized_module.py:summarize_quantizers,QuantizerSummary,_deduplicate_quantizer_names"])
p("A traced graph computes what the exported program computes",
  "The graph that tracing makes of an exported program has one output; for all inputs its value is what the program returns for them, with modules within modules inlined, containers put together and attributes read. Calling the graph on tensors returns that value or fails with an error of user code.",
  "all exported programs (any nesting of modules, any arguments), all user code and all inputs",
  "tests trace a few small models; the property ranges over all programs, argument structures and nestings",
  [F+"_orchestration/trace.py:_GraphBuilder,_make_tuple,_make_list,_make_slice,_make_dict,_make_method_caller,_make_get_attr,_prepare_output,_contains_fx_node,_is_non_leaf_graph_module,_can_call_original"])
p("Traced graphs can be scheduled and have the inputs the caller knows",
  "Whatever program is traced, the graph has different nodes and inputs, no cycles and no missing references, so it can always be scheduled. Its inputs have the names of the placeholders, with the exporter's mangling of keyword and positional names undone and other names kept.",
  "all exported programs and all names of parameters",
  "a malformed graph fails only when scheduled or run with particular inputs; names range over all strings",
  [F+"_orchestration/trace.py:_GraphBuilder,_unmangle_placeholder"])
p("Data declared by an optimization is produced by exactly the nodes it depends on",
  "Binding the flows an algorithm declares for a node of a graph gives one plan per flow, in order. For activations arriving at the node the plan runs exactly the nodes it depends on and reads its arguments; for activations leaving it the plan runs the node too and reads its result. Nodes are listed once, each after everything it takes input from. Unknown nodes, other kinds of flows and graphs that cannot be scheduled are refused.",
  "all graphs, all nodes and all lists of flows, whatever order sets are iterated in",
  "plans depend on the whole upstream of a node and on set iteration order; tests bind flows on chains of a few layers",
  [F+"_orchestration/scheduler.py:bind_flows,FlowPlan,_ancestors_of", F+"_orchestration/data_flow.py:DataFlow"])
p("Tracing leaves the module as it was",
  "Tracing replaces uninitialised parameters and buffers by placeholders while the module is exported. Whether tracing succeeds or fails, afterwards every parameter and buffer of every module has the tensor, the place and the persistence it had, and the strict flag is as it was; while the module is exported there is no uninitialised tensor.",
  "all modules with any parameters and buffers, and all behaviours of the exporter, including failures",
  "restoration must hold at every point of failure and for every arrangement of initialised and uninitialised tensors",
  [F+"_orchestration/trace.py:_placeholder_uninitialized_params,trace"])
p("A module is traced once",
  "After any history of tracing, tracing a module that was traced successfully before returns the graph of the first success and has no other effect; a module without success so far is captured anew, whatever was traced or failed before, and a module that is destroyed leaves no graph behind.",
  "all histories of successful and failing traces of any modules, and of modules being destroyed",
  "the property is about histories of any length and any interleaving of modules",
  [F+"_orchestration/trace.py:trace,_graph_cache"])
p("The entry points of static quantization agree",
  "Every way to ask for static affine quantization of a tensor gives the same outcome: quantize_per_granularity, quantize_per_tensor, quantize_per_channel, quantize_by_tile, quantize_per_block and the quantization function of a context with the same scale, offset, bit width and granularity raise the same error, or give the same codes and the same dequantized tensor. The codes are those closest to x / scale - offset with the scale and offset of the tile of the element, one number standing for all tiles, and the dequantized tensor has the dtype of the data and the values (code + offset) * scale.",
  "all tensors, scales and offsets (numbers or tensors), granularities, bit widths and dtypes, in and out of export mode",
  "The entry points build their parameters separately and some convert a granularity to a tile first; a test compares a few of them on one tensor.",
  [F+"quantization/affine/static.py", F+"quantization/affine/function.py:AffineQuantizationFunction", F+"quantization/affine/_autograd.py"])
p("Dynamic quantization is static quantization with the parameters it reports",
  "A quantized tensor always carries static parameters, and quantizing the same data again with these parameters gives the same codes. With an inference function these are the scale and offset it returned. Otherwise there is one positive scale and one offset for every tile, and every dequantized element lies within half a scale of the element. All dynamic entry points agree with the granularity they stand for.",
  "all tensors, granularities, bit widths, symmetric and one-sided settings, inference functions and dtypes",
  "The claim ranges over every tensor and granularity and over arbitrary inference functions.",
  [F+"quantization/affine/dynamic.py", F+"quantization/affine/function.py:AffineQuantizationFunction._dynamic_quantize", F+"quantization/_quantizer_impl.py:quantize_dynamic_by_tile_impl"])
p("Export mode computes what eager mode computes",
  "In export mode quantizing gives an ordinary tensor, and it is the tensor that eager quantization followed by dequantization gives, for all static parameters. Dynamic quantization is refused with an ExportError, and codes attached to a context become the tensor they stand for.",
  "all tensors and all quantization parameters, including the dtypes of codes and of dequantized data",
  "Tests export models with default dtypes only; the claim is about all parameters.",
  [F+"quantization/affine/function.py:AffineQuantizationFunction._export_quantize", F+"quantization/function.py:QuantizationContext.attach"])
p("Operator annotations name exactly the operators around each quantizer",
  "After annotate_operator_metadata(model, x), a quantizer carries (besides the tags it had) the tag before/f exactly for the operators f that were applied to a result of the quantizer in the forward pass, and after/f exactly for the operators f that made a value the quantizer was applied to.",
  "every forward pass (any sequence of operator applications, in place or not, and quantizer calls), every set of quantizers, stubs or initialized, with any earlier tags and overrides",
  "Which quantizer a tensor remembers depends on object identity along the whole history of the forward pass; tests annotate one small network of stubs without shared values.",
  [F+"quantization/quantizer_annotations.py:annotate_operator_metadata", F+"quantization/quantizer_annotations.py:TraceTensor", F+"quantization/quantizer_annotations.py:quantizer_override", F+"overrides.py:disable_quantization"])
p("Annotating a model leaves it as it was apart from new tags",
  "annotate_operator_metadata leaves the overrides of every quantizer and the strict quantization flag as they were, also when the forward pass raises; no initialized quantizer of the model quantizes during it; tags are only added, so annotating with several inputs accumulates.",
  "every forward pass, returning or raising at any step, every history of overrides registered and removed before, every behaviour of the quantizers",
  "The clean-up must hold for every point at which the forward pass can raise and every combination of earlier overrides.",
  [F+"quantization/quantizer_annotations.py:annotate_operator_metadata", F+"overrides.py:disable_quantization", F+"forward_override.py:apply_overrides"])
p("Pattern rules rewrite exactly the instances of their pattern",
  "PatternRule.apply returns the replacement with the captured nodes in it exactly for the nodes that are an instance of the pattern (some nodes for its captures), and the node itself for all others; a replacement capture that the pattern lacks raises KeyError. The result can stand where the node stood: a statement for a statement, an expression for an expression.",
  "every syntax tree, every pattern and replacement",
  "Patterns are arbitrary code matched against arbitrary code; tests try a few pairs.",
  [F+"_autoquant/cst/pattern.py:PatternRule.apply", F+"_autoquant/cst/pattern.py:_convert_to_matcher", F+"_autoquant/cst/pattern.py:_CaptureTransformer", F+"_autoquant/cst/pattern.py:_parse_pattern"])
p("The text of rewritten code means the rewritten tree",
  "After a pattern rule has been applied to an expression, the generated source, read by Python's grammar, is the tree the rule made: the captured expressions and the replacement keep their grouping in any code around them.",
  "every expression of names, calls, sums, products and parentheses, every rule, every code around",
  "Precedence mistakes show only for particular combinations of operators in pattern, captured code and context.",
  [F+"_autoquant/cst/pattern.py:PatternRule.apply", F+"_autoquant/cst/pattern.py:_CaptureTransformer"])
p("Applying pattern rules comes to an end, at code no rule rewrites",
  "PatternRuleTransformer terminates on every module; the code it puts in place of a node was reached by rewrites of the rules that apply there, and no rule rewrites it further (or only back to a text already passed).",
  "every list of rules, every module",
  "Termination and confluence of a rewriting loop over all programs cannot be sampled.",
  [F+"_autoquant/cst/pattern.py:PatternRuleTransformer", F+"_autoquant/cst/pattern.py:PatternRuleTransformer._apply_rules"])
p("A rule restricted to a scope acts there and nowhere else",
  "A PatternRule with on=scope behaves inside that scope (and the scopes nested in it) as the rule without on, and has no effect anywhere else, whatever the other rules are; skipping rules by the module's name alone changes no result.",
  "every module, module name, list of rules and nesting of classes and functions",
  "The claim compares runs with and without the restriction over all programs and rule lists.",
  [F+"_autoquant/cst/pattern.py:PatternRuleTransformer", F+"_autoquant/cst/pattern.py:_applicable_in_module"])
p("A quantization function made from two functions calls exactly those functions",
  "With (Params, Function, f) = create_quantization_function(name, quantize, dequantize): f(data, **kw) holds quantize(data, **those of kw that quantize takes) as raw data, and its dequantize() is dequantize(raw, **those of kw that dequantize takes), each with its own defaults; a keyword neither function takes, or a required one not given, raises TypeError.",
  "every pair of functions with any signatures and bodies that is accepted, every keyword arguments",
  "Signatures are merged by name; tests try one pair with disjoint parameters.",
  [F+"quantization/function.py:create_quantization_function", F+"quantization/function.py:_make_quantization_parameters_type", F+"quantization/function.py:_ImplicitQuantizationFunction"])
p("Which pairs of functions can be made into a quantization function",
  "create_quantization_function accepts a pair exactly when both take data, every other parameter can be given by keyword, shared parameters have equal annotations and defaults, no default is mutable, and the merged parameters have required ones first; otherwise it raises.",
  "every pair of signatures",
  "The condition concerns all pairs of signatures.",
  [F+"quantization/function.py:create_quantization_function", F+"quantization/function.py:_parameters_from_function", F+"quantization/function.py:_make_quantization_parameters_type"])
p("Changing a quantization context changes only what was asked",
  "with_changes gives a new context with exactly the named parameters changed and raises TypeError for a name that is no parameter; clone_parameters, detach_parameters and to apply to the tensors only; contiguous_parameters returns the same context exactly when all its tensors are contiguous.",
  "every context, every parameters, every changes",
  "Parameter classes are user-defined, so the claim ranges over all of them.",
  [F+"quantization/function.py:QuantizationContext", F+"quantization/function.py:QuantizationParameters", F+"common.py:maybe_tensor_apply"])
p("Every local variable an operator wants quantized is quantized on every path",
  "After automatic quantization of a function, whichever branches are taken and however often loops run, whenever an operator that wants a quantized argument is called with a local variable, the value of that variable is quantized: either the operator that computed it returns quantized values, or the rewritten function quantizes it right after the statement that bound it.",
  "all functions, all execution paths",
  "Paths through loops and branches are unboundedly many; the analysis merges scopes and its mistakes only show on particular paths.",
  [F + "_autoquant/cst/quantizer_analysis/annotator.py:_QuantizationAnnotator", F + "_autoquant/cst/quantizer_analysis/scope.py:QuantizationScope", F + "_autoquant/cst/quantizer_analysis/transformer.py:QuantizerFunctionTransformer"])
p("The quantizer analysis accepts every function",
  "The analysis that decides where quantizers are added ends without an error on every function whose syntax is supported.",
  "all functions made of supported statements",
  "The errors depend on combinations of nested loops, branches and jumps that no finite set of examples covers.",
  [F + "_autoquant/cst/quantizer_analysis/scope.py:QuantizationScope", F + "_autoquant/cst/quantizer_analysis/annotator.py:_QuantizationAnnotator"])
p("Quantizers are added only where they are wanted, and once",
  "Automatic quantization adds a quantizer only behind a statement, parameter or loop head that binds a variable to a value that is not quantized already, only for variables that some operator of the function wants quantized, and at most once per statement and variable.",
  "all functions",
  "Loop bodies are visited twice and scopes are merged, so a duplicate or unneeded quantizer may appear for some nesting only.",
  [F + "_autoquant/cst/quantizer_analysis/annotator.py:_QuantizationAnnotator", F + "_autoquant/cst/quantizer_analysis/scope.py:QuantizationScope"])
p("Every use of a non-local expression gets a quantizer in an enclosing block",
  "When automatic quantization rewrites a function, every occurrence of an expression such as self.weight in a place that wants a quantized value is served by exactly the quantizer of its expression, created in a block that contains the occurrence; occurrences of the same expression share one quantizer, different expressions never do, and an expression that all branches use is quantized once for all of them.",
  "all functions, any nesting of conditionals and loops",
  "Expressions move up and down a tree of branches whose shape is unbounded; a lost or misplaced occurrence shows only for particular nestings.",
  [F + "_autoquant/cst/quantizer_analysis/annotator.py:_NonLocalBranchScope", F + "_autoquant/cst/quantizer_analysis/annotator.py:_NLBResolveContext"])
p("Inserted statements come right before their first use and change no order",
  "The statements that automatic quantization inserts into a block come directly before the first statement that mentions the variable they assign, behind a docstring, or at the end of the block if nothing mentions it; each is inserted once, and neither the statements of the block nor those inserted at one place change their order.",
  "all blocks, all lists of inserted statements",
  "The number of statements, insertions and ties is unbounded.",
  [F + "_autoquant/cst/quantizer_analysis/transformer.py:_insert_dependency_aware_quantize_statements", F + "_autoquant/cst/quantizer_analysis/transformer.py:_first_use_index_in_block"])
p("A function rewritten for quantization computes the same with quantized attributes",
  "Running the function that automatic quantization produces gives the same variables, or an exception in the same cases, as running the original with each wanted attribute replaced by its quantized value at the place where it is read.",
  "all functions, all initial variables, all quantizers, operators and objects",
  "Equivalence of two programs on all inputs, branches taken and loop counts.",
  [F + "_autoquant/cst/quantizer_analysis/transformer.py:QuantizerFunctionTransformer", F + "_autoquant/cst/quantizer_analysis/annotator.py:_NonLocalBranchScope"])
p("Sharing repeated quantizer calls keeps the meaning of a function",
  "When automatic quantization finds the same quantizer call more than once in a block it computes it once and uses the result in all places; the function still gives the same variables, or raises in the same cases, for all inputs.",
  "all functions with nested conditionals and loops, all initial variables, all operators and quantizers without side effects",
  "Equivalence of two programs on all inputs; what breaks it is an assignment, condition or name at one particular distance from the calls.",
  [F + "_autoquant/cst/quantizer_analysis/transformer.py:_QuantizerCallDedup", F + "_autoquant/cst/quantizer_analysis/transformer.py:_dedup_repeated_quantizer_calls"])
p("After sharing, every quantizer call is made once per block",
  "After automatic quantization has shared repeated quantizer calls, no block makes the same call twice and every block makes the calls it made before; a function without repeated calls is not changed, and sharing again changes nothing.",
  "all functions, any number of calls and any nesting of blocks",
  "The number of statements, calls and levels is unbounded, and inner blocks are visited once for every block around them.",
  [F + "_autoquant/cst/quantizer_analysis/transformer.py:_QuantizerCallDedup"])
p("Splitting an assignment into parts loses no variable",
  "When automatic quantization takes an assignment apart, with nested and starred targets and several target lists, every variable that Python binds is a target of exactly one part, in the order of the source.",
  "all targets, any nesting and length, all values",
  "The shapes of targets and values are unbounded, and cases multiply with every level of nesting.",
  [F + "_autoquant/cst/node_processing.py:normalize_assignments", F + "_autoquant/cst/node_processing.py:unpack_sequence_expression"])
p("The parts of an assignment get the values that Python assigns",
  "When automatic quantization takes an assignment apart, the value of a part with a single target is the value that Python binds to that target, for all values the expressions may have.",
  "all targets and values, all contents of variables",
  "It relates the syntax of targets and values to the run time behaviour of unpacking for all values.",
  [F + "_autoquant/cst/node_processing.py:normalize_assignments", F + "_autoquant/cst/node_processing.py:NormalizedAssignment"])
p("Cleaning a captured graph keeps its results",
  "Removing quantizer artifacts from a captured graph keeps its outputs and its side effects for all inputs, whatever the functions, modules and parameters of the graph compute.",
  "all captured graphs and module trees, all inputs, all meanings of functions, modules and parameters",
  "Removed code and removed submodules may matter for some input only, and graphs are unbounded.",
  [F + "export/stages/base_pipeline_stages.py:stage_cleanup_ff_quantizer_artifacts", F + "export/stages/base_pipeline_stages.py:PruneUnusedGetAttrsPass"])
p("No quantizer is left after cleaning",
  "After cleaning, the graph reads and calls nothing that belongs to a quantizer of the source model and no quantizer is left in the module. If an output or a side effect depends on a quantizer, cleaning fails with RuntimeError, and it fails in no other case.",
  "all captured graphs and module trees, all source models",
  "Whether something depends on a quantizer is a question about all paths through the graph.",
  [F + "export/stages/base_pipeline_stages.py:stage_cleanup_ff_quantizer_artifacts", F + "export/stages/base_pipeline_stages.py:_collect_graph_referenced_module_paths"])
p("Cleaning keeps exactly what is needed",
  "The cleaned graph consists of exactly the nodes on which outputs and side effects depend, in the same order, and its module of exactly the submodules these nodes use. Everything the graph reads or calls still exists.",
  "all captured graphs and module trees, all source models",
  "It is a claim about every node of every graph, in both directions.",
  [F + "export/stages/base_pipeline_stages.py:PruneUnusedGetAttrsPass", F + "export/stages/base_pipeline_stages.py:FinalizeGraphModulePass"])
p("Converting modules to quantized modules keeps their results",
  "Code that calls linear, convolution, normalization, embedding, activation and sequential modules and torch functions computes the same values after the modules were converted to quantized modules, as long as their quantizers are stubs and strict quantization is off.",
  "all modules, nested to any depth, all programs over them, all parameters and inputs, whatever the torch functions compute",
  "Modules, programs and contents of tensors are unbounded, and in-place changes show only in some programs.",
  [F + "nn/linear.py:QuantizedLinear", F + "nn/conv.py:QuantizedConv2d", F + "nn/normalization.py:QuantizedLayerNorm", F + "nn/embedding.py:QuantizedEmbedding", F + "nn/activations.py:QuantizedRelu"])
p("Quantizers of a module are applied where they belong",
  "A quantized module computes the torch function of the quantized input, weight and bias, followed by the output quantizer. Each quantizer is called exactly once per call, with the tensor it is named after. Input and parameters are not changed, unless torch itself renormalizes the weight of an embedding that has no weight quantizer.",
  "all quantized modules, nested to any depth, all quantizers, parameters and inputs",
  "Quantizers are arbitrary functions, and modules nest to any depth.",
  [F + "nn/linear.py:QuantizedLinear", F + "nn/conv.py:QuantizedConv1d", F + "nn/normalization.py:QuantizedLayerNorm", F + "nn/embedding.py:QuantizedEmbedding", F + "nn/activations.py:QuantizedActivation"])
p("Strict mode refuses exactly the unquantized inputs and weights of modules",
  "In strict mode a quantized module does exactly what it does otherwise, or raises QuantizationError. It raises exactly if the input or a weight of one of its parts is neither a quantized tensor nor passed through a quantizer other than a stub.",
  "all quantized modules, nested to any depth, all quantizers, parameters and inputs",
  "The claim is about all combinations of stubs, quantizers and quantized tensors along a chain of modules.",
  [F + "nn/linear.py:QuantizedLinear", F + "nn/container.py:QuantizedSequential", F + "_quantops/generate.py"])
p("Names made from expressions are identifiers",
  "For every expression that autoquant names a quantizer after, a name is made. It is a valid identifier and no reserved word, has no two underscores in a row and none at the end. Its letters and digits are those of the expression with arithmetic symbols written out, and a plain variable name is kept.",
  "the code of all expressions",
  "The code of an expression is an unbounded string; the cleaning steps interact only in particular strings.",
  [F + "_autoquant/cst/node_processing.py:expr_to_ident"])
p("Expressions share a quantizer exactly if they are written the same",
  "When expressions used in branches are quantized, uses get the same quantizer number exactly if their code is the same. Every expression is numbered, and different expressions get different names.",
  "all sequences of expressions",
  "Sequences of expressions and their code are unbounded.",
  [F + "_autoquant/cst/quantizer_analysis/annotator.py:_NLBResolveContext", F + "_autoquant/cst/node_processing.py:expr_to_ident"])
p("Passes are applied one after the other, and a failure names the pass",
  "Running a sequence of passes over a statement gives what the passes make of it one after the other. Each must leave exactly one statement of the same class in its place; otherwise, or if it raises, an error is raised that gives the number of the first such pass and its exception as cause.",
  "all sequences of passes, all visitors, all statements and class hierarchies",
  "Visitors are arbitrary code, and sequences are unbounded.",
  [F + "_autoquant/pass_manager.py:PassManager"])
p("The registry of export pipelines finds what was registered",
  "After any history of registrations, a lookup by target and format finds the factory registered last for them, where later registrations count only if they ask for replacement; upper and lower case and white space around the names do not matter. Without a registration KeyError is raised. Registering raises ValueError exactly if the names are taken and no replacement is asked for, and then changes nothing.",
  "all histories of registrations, all names",
  "Histories and names are unbounded.",
  [F + "export/pipeline/registry.py:PipelineRegistry"])
p("An export request is run by its pipeline, for its directory and model name",
  "Exporting runs the pipeline given in the request, or else the one registered for target and format, once, with output directory, model name and options of the request as context. A request that is refused leaves no trace.",
  "all requests, registries, pipelines and file systems",
  "Pipelines are arbitrary code, and options are unbounded.",
  [F + "export/pipeline/orchestrator.py:ExportOrchestrator"])
p("A dotted name refers to the object in the longest module it begins with",
  "Importing a qualified name imports the longest beginning that is a module and follows the other parts as attributes. It raises ImportError exactly if no beginning is a module or an attribute is missing; other exceptions of a module are passed on.",
  "all names, all import systems and objects",
  "Names have any number of parts, and what can be imported is not fixed.",
  [F + "_import.py:QualifiedNameReference"])
p("The qualified name of an object leads back to it",
  "Importing the fully qualified name of an object gives this object.",
  "all objects, modules and import systems",
  "The claim is about everything that can be named.",
  [F + "_import.py:fully_qualified_name", F + "_import.py:QualifiedNameReference"])
p("Generated methods call the parent methods that the original calls",
  "super() in a generated method means what it means in the method it was generated from, although the method is moved to a class below it.",
  "all method bodies, classes, objects and parent classes",
  "Class hierarchies and bodies are arbitrary.",
  [F + "_autoquant/convert.py:_AnchorBareSuperCalls", F + "_autoquant/convert.py:_rewrite_super_calls"])
p("Searching a syntax tree finds every node of a type once, top levels first",
  "The search yields exactly the nodes of the tree that have the type, each once also if parts are shared; in trees without shared parts in breadth first order.",
  "all trees and types",
  "Trees have any shape, and nodes may be shared.",
  [F + "_autoquant/cst/filter.py:filter_nodes_by_type"])
p("Tokens are cut in sequences without gaps",
  "The texts are joined with empty lines and every column of their tokens is cut in consecutive sequences of the given length; only a rest that is too short is dropped, and the labels are the ids.",
  "all texts, tokenizers and lengths",
  "Texts, tokens and lengths are unbounded.",
  [F + "testing/data.py:tokenize_dataset"])
p("A limited progress bar counts to the number of items it shows",
  "The bar goes over the first items up to the limit, and its total is their number.",
  "all collections and limits",
  "Sizes and limits are unbounded.",
  [F + "testing/data.py:sliced_tqdm"])
p("The context of a method tells how Python calls it",
  "The kind of a method in its context is the kind that attribute lookup along the parent classes finds, and the variable of the object or class is the parameter that receives it.",
  "all classes, hierarchies, names and signatures",
  "Hierarchies have any depth, and a class can store anything under a name.",
  [F + "_autoquant/function_context.py:FunctionContext", F + "type_common.py:method_type"])
p("Writing generated code changes one file, and no existing one unless told to",
  "The code goes to the file of the given path, or to __init__.py below it; all other files stay, and an existing file is changed only if overwriting is asked for.",
  "all paths, file systems and codes",
  "File systems and paths are unbounded.",
  [F + "_autoquant/pybuilder/writer.py:FileWriter"])
p("A process that ends while it writes code leaves the old or the new code",
  "At every time while code is written, the file has the old content or the whole new code.",
  "all points at which a process can end, all file systems and ways to split a write",
  "Tests do not end at every point of a write.",
  [F + "_autoquant/pybuilder/writer.py:FileWriter"])
p("Every token of the tokenizer is in the exported vocabulary, at its id",
  "The list of tokens has the size of the model; each token is at its id, once, with the type that the tokenizer gives it, and ids without token are filled with unused ones.",
  "all tokenizers and sizes",
  "Vocabularies are unbounded, with gaps and any text as a token.",
  [F + "export/stages/gguf/_vocab.py:write_vocab"])
p("No warning about code that is not implemented is lost",
  "Every warning given while a tree is transformed is a comment before the innermost node around it that can have comments.",
  "all trees, transformers and warnings",
  "Trees and transformers are arbitrary.",
  [F + "_autoquant/cst/quantizer_analysis/unimplemented.py:NotImplementedMixin"])
p("The source that is found for a name is the source of what the name refers to",
  "For a dotted name of a function or class of a module, the syntax tree that is found is the definition that the name refers to when the module is executed.",
  "all modules and names",
  "Modules have any definitions, nested to any depth.",
  [F + "_autoquant/pysource/source_context.py:SourceContext", F + "_autoquant/pysource/source_context.py:PySource"])
p("Resolving a name ends at the name under which its object is defined",
  "A name of an object is resolved to a name of the same object that resolves to itself, and the resolution ends.",
  "all import systems, names and aliases",
  "Aliases and wrappers form any graph.",
  [F + "_autoquant/pysource/source_context.py:SourceContext"])
p("The signal-to-noise ratio orders tensors by their distance to the original",
  "A tensor that is nearer to the original in each entry of the batch never has a smaller ratio, the original has the highest, the ratio of an exact copy does not depend on the original, and tensors of different shapes are rejected.",
  "all pairs of tensors and positive eps",
  "Tensors have any shape and content.",
  [F + "testing/metrics.py:sqnr"])
# --- end
with open("/verif/properties.jsonl","w") as f:
    for x in P: f.write(json.dumps(x)+"\n")
print(len(P))
