{"id": "C01", "title": "Tiling round trip", "statement": "tiles_to_rows followed by rows_to_tiles with the same tile size returns the original tensor (same shape, same element at every index), and rows_to_tiles followed by tiles_to_rows returns the original rows.", "quantifier": "every tensor of every rank and shape, every element type, every tile size that divides the shape", "why_tests_cant": "The space of shapes, ranks and tile sizes is unbounded; a test fixes a handful of shapes.", "anchors": ["src/fastforward/quantization/tiled_tensor.py:tiles_to_rows", "src/fastforward/quantization/tiled_tensor.py:rows_to_tiles"]}
{"id": "C02", "title": "Rows are tiles", "statement": "Row r of tiles_to_rows(x, tile) holds exactly the elements of the r-th tile (tiles numbered row-major over the tile grid, elements row-major inside the tile); every element of x lands in exactly one row/column.", "quantifier": "every shape, compatible tile size and element index", "why_tests_cant": "Index arithmetic must be right for every rank and divisor combination.", "anchors": ["src/fastforward/quantization/tiled_tensor.py:tiles_to_rows", "src/fastforward/quantization/tiled_tensor.py:check_tile_compatibility"]}
{"id": "C03", "title": "Granularity parameter count", "statement": "For every granularity, the number of quantization parameters it announces for a data shape equals the number of tiles its tile size induces on that shape, so one scale/offset exists for each tile.", "quantifier": "every data shape and every PerTensor/PerChannel/PerBlock/PerTile granularity compatible with it", "why_tests_cant": "Must hold for every shape/granularity pair.", "anchors": ["src/fastforward/quantization/granularity.py:Granularity.parameter_dimensionality", "src/fastforward/quantization/granularity.py:PerBlock.tile_size"]}
{"id": "C04", "title": "Granularity recovery from sizes", "statement": "granularity_from_sizes(shape, tile) returns a granularity whose tile size on that shape is again tile, so that export reconstructs the tiling actually used.", "quantifier": "every data shape and every tile size dividing it", "why_tests_cant": "Case analysis over unboundedly many shape/tile combinations.", "anchors": ["src/fastforward/quantization/granularity.py:granularity_from_sizes"]}
{"id": "C05", "title": "Codes are in-range integers", "statement": "Affine quantization of any tensor yields only integers q with -2^(b-1) <= q <= 2^(b-1)-1.", "quantifier": "every input value, every non-zero scale, every offset (or none), every bit width b >= 1", "why_tests_cant": "Unbounded input values, scales, offsets and bit widths.", "anchors": ["src/fastforward/quantization/_quantizer_impl.py:quantize_by_tile_impl", "src/fastforward/quantization/affine/range.py:integer_minimum"]}
{"id": "C06", "title": "Rounding error bound and saturation", "statement": "For an input inside the representable range the dequantized value differs from it by at most scale/2; an input below (above) the range dequantizes to the lower (upper) end of quantization_range.", "quantifier": "every real input, positive scale, integral offset, bit width", "why_tests_cant": "A statement about every real number.", "anchors": ["src/fastforward/quantization/_quantizer_impl.py:quantize_by_tile_impl", "src/fastforward/quantization/_quantizer_impl.py:dequantize_by_tile_impl", "src/fastforward/quantization/affine/range.py:quantization_range"]}
{"id": "C07", "title": "Grid fixpoint and idempotence", "statement": "Quantizing a dequantized code gives that code back, hence quantize-dequantize is idempotent: applying it a second time changes nothing.", "quantifier": "every code in range / every input, every positive scale, offset and bit width", "why_tests_cant": "Universally quantified over inputs and parameters.", "anchors": ["src/fastforward/quantization/_quantizer_impl.py:quantize_by_tile_impl", "src/fastforward/quantization/_quantizer_impl.py:dequantize_by_tile_impl"]}
{"id": "C08", "title": "Monotone quantization", "statement": "Quantize-dequantize with fixed parameters is monotone: x <= y implies qdq(x) <= qdq(y).", "quantifier": "every pair of inputs, positive scale, offset, bit width", "why_tests_cant": "Ranges over all pairs of reals.", "anchors": ["src/fastforward/quantization/_quantizer_impl.py:quantize_by_tile_impl"]}
{"id": "C09", "title": "Range to parameters covers the range", "statement": "The scale/offset returned by parameters_for_range(min,max,...) make quantization_range cover [min,max]: exactly when asymmetric or one-sided, as a superset when symmetric; the returned scale is positive.", "quantifier": "every min < max, every bit width, symmetric or not, one-sided allowed or not", "why_tests_cant": "Real-valued quantification with four branches; corner cases (1 bit, all-zero data) are easy to miss.", "anchors": ["src/fastforward/quantization/affine/range.py:parameters_for_range", "src/fastforward/quantization/affine/range.py:quantization_range"]}
{"id": "C10", "title": "Setting then reading a quantization range", "statement": "Assigning quantizer.quantization_range = (min,max) on an asymmetric linear quantizer and reading it back gives (min,max) again; reading and re-assigning leaves scale and offset unchanged.", "quantifier": "every range min < max, every bit width > 0", "why_tests_cant": "Universally quantified real identity.", "anchors": ["src/fastforward/nn/linear_quantizer.py:LinearQuantizer.quantization_range", "src/fastforward/quantization/affine/range.py:parameters_for_range"]}
{"id": "C11", "title": "Dynamic quantization never saturates visibly", "statement": "Dynamic affine quantization of any tile reproduces each element of this tile within one quantization step.", "quantifier": "every non-empty tile of reals, every bit width >= 2", "why_tests_cant": "Parameters depend on the data itself.", "anchors": ["src/fastforward/quantization/_quantizer_impl.py:quantize_dynamic_by_tile_impl"]}
{"id": "C12", "title": "Tile-wise quantization is element-wise with the tile's own parameters", "statement": "Quantizing a tensor by tile equals quantizing each element with the scale and offset of the tile that contains it; elements of other tiles and their parameters have no influence.", "quantifier": "every tensor, tile size, parameter vector and index", "why_tests_cant": "Needs the tiling bijection for every shape.", "anchors": ["src/fastforward/quantization/_quantizer_impl.py:quantize_by_tile_impl", "src/fastforward/quantization/tiled_tensor.py:tiles_to_rows"]}
{"id": "C13", "title": "Straight-through gradients", "statement": "The gradient of quantize-dequantize w.r.t. the input is the incoming gradient exactly where the unrounded code is inside the integer range and zero elsewhere; the gradients w.r.t. scale and offset are the tile sums of the straight-through derivative.", "quantifier": "every input, incoming gradient, scale, offset, bit width, tile", "why_tests_cant": "Pointwise statement over all reals, including the clamp boundaries.", "anchors": ["src/fastforward/quantization/_quantizer_impl.py:quant_dequant_by_tile_grad_impl"]}
{"id": "C14", "title": "Structural operations commute with dequantization", "statement": "Reshape/view/transpose/contiguous and indexing on a quantized tensor followed by dequantization give the same tensor as dequantizing first and then applying the operation.", "quantifier": "every quantized tensor and every index/shape the operation accepts", "why_tests_cant": "Ranges over all tensors, granularities and indices.", "anchors": ["src/fastforward/quantization/_linear_quantized_ops.py:reshape", "src/fastforward/quantization/_linear_quantized_ops.py:getitem_per_channel", "src/fastforward/quantization/_linear_quantized_ops.py:unsqueeze", "src/fastforward/quantization/_linear_quantized_ops.py:cat", "src/fastforward/quantization/_linear_quantized_ops.py:scalar_multiply"]}
{"id": "C15", "title": "Strict quantization forbids implicit dequantization", "statement": "With strict quantization on, calling a torch function without a quantized kernel on a quantized tensor raises; it is never silently dequantized. With strict quantization off the fallback dequantizes every quantized argument first.", "quantifier": "every function, argument tree, dispatch table and flag state", "why_tests_cant": "Ranges over all argument structures and dispatcher states.", "anchors": ["src/fastforward/quantized_tensor.py:QuantizedTensor.__torch_function__", "src/fastforward/quantized_tensor.py:_dequantization_fallback", "src/fastforward/flags.py:strict_quantization"]}
{"id": "C16", "title": "Dispatcher selects the newest best-priority match", "statement": "dispatch(op, ...) returns a kernel whose predicate accepts the arguments, of the best priority among all accepting kernels, and the most recently registered one of that priority; it returns None only if no registered predicate accepts.", "quantifier": "every sequence of registrations, every predicate and every call", "why_tests_cant": "Histories of registrations are unbounded.", "anchors": ["src/fastforward/dispatcher.py:dispatch", "src/fastforward/dispatcher.py:_register_functional"]}
{"id": "C17", "title": "Temporary kernel registration is undone", "statement": "Registering a kernel through its context manager and leaving the block restores the dispatch behaviour that held on entry, for any nesting of such blocks.", "quantifier": "every initial table and every well-nested sequence of enter/exit", "why_tests_cant": "All nestings and all tables.", "anchors": ["src/fastforward/dispatcher.py:_DispatcherRegisterHook", "src/fastforward/dispatcher.py:register"]}
{"id": "C18", "title": "Flag contexts restore on every exit", "statement": "After a with-block on a library flag (strict quantization, export mode, compiled quantization) ends, normally or by exception, the flag has the value it had before the block; inside it has the requested value.", "quantifier": "every program of nested flag blocks with exceptions at any point", "why_tests_cant": "All nestings and exception points.", "anchors": ["src/fastforward/flags.py:_context_flag", "src/fastforward/flags.py:context"]}
{"id": "C19", "title": "Forward overrides stack and detach independently", "statement": "Overrides registered on a quantizer run newest-outermost, each seeing the next one as the function it wraps, with the quantizer's own implementation innermost; removing any handle removes exactly this override and preserves the order of the others.", "quantifier": "every sequence of register/remove operations and every call", "why_tests_cant": "Unbounded histories.", "anchors": ["src/fastforward/forward_override.py:apply_overrides", "src/fastforward/forward_override.py:OverrideHandle", "src/fastforward/nn/quantizer.py:Quantizer.register_quantizer_override"]}
{"id": "C20", "title": "disable_quantization / enable_quantization restore", "statement": "Inside disable_quantization(model) each quantizer passes its input through unchanged; after the block all quantizers behave as before, for every nesting of disable/enable blocks, also under exceptions.", "quantifier": "every model, nesting and exception point", "why_tests_cant": "All nestings and exception points.", "anchors": ["src/fastforward/overrides.py:disable_quantization", "src/fastforward/overrides.py:enable_quantization", "src/fastforward/overrides.py:DisableQuantizationOverride"]}
{"id": "C21", "title": "freeze_parameters ends with its block", "statement": "Leaving `with freeze_parameters(model)` removes the frozen-parameter behaviour: afterwards each quantizer runs as before the block.", "quantifier": "every model and set of quantizers", "why_tests_cant": "Must hold for every set of quantizers and every prior override state.", "anchors": ["src/fastforward/quantization/freeze.py:freeze_parameters"]}
{"id": "C22", "title": "Module-level strict quantization is scoped to the module's forward", "statement": "With strict_quantization_for_module attached to a module, the global flag has the requested value during its forward call and the caller's value after the call, whatever the nesting of attached modules and whether or not the call raises.", "quantifier": "every call tree over modules with any number of attached handles, with exceptions", "why_tests_cant": "All call trees.", "anchors": ["src/fastforward/quantization/strict_quantization.py:strict_quantization_for_module", "src/fastforward/quantization/strict_quantization.py:ModuleStrictQuantHandle"]}
{"id": "C23", "title": "Running min-max equals global min-max", "statement": "After running min-max estimation over any sequence of batches the range equals the min and max of all data seen, independent of batch order and of how the data are split into batches.", "quantifier": "every sequence of batches", "why_tests_cant": "All data and all splits.", "anchors": ["src/fastforward/range_setting/minmax.py:RunningMinMaxEstimator"]}
{"id": "C24", "title": "Smoothed min-max is a convex combination", "statement": "Smoothed min-max estimation yields the exponentially weighted average of per-batch extremes with initial weight from the first batch; the estimate always stays between the smallest and largest per-batch extreme.", "quantifier": "every sequence of batches, every gamma in [0,1]", "why_tests_cant": "Induction over arbitrary histories.", "anchors": ["src/fastforward/range_setting/minmax.py:SmoothedMinMaxEstimator"]}
{"id": "C25", "title": "Grid search picks the best candidate", "statement": "The error-minimizing estimator leaves the quantizer at a candidate range whose error accumulated over all batches seen so far is minimal among all candidates of the search grid.", "quantifier": "every sequence of batches, error function, number of candidates, symmetric or asymmetric", "why_tests_cant": "All histories, all grid sizes; perfect-square sizes used in tests hide the other sizes.", "anchors": ["src/fastforward/range_setting/min_error.py:_MinErrorEstimatorStep", "src/fastforward/range_setting/min_error.py:_UniformSearchGrid"]}
{"id": "C26", "title": "Range estimation leaves no trace on the forward path", "statement": "After an estimate_ranges block ends, normally or by exception in the body, the set of overrides of each quantizer is what it was before the block.", "quantifier": "every model, every set of overrides and exception points", "why_tests_cant": "All histories and exception points.", "anchors": ["src/fastforward/range_setting/common.py:estimate_ranges", "src/fastforward/range_setting/common.py:SimpleEstimatorStep"]}
{"id": "C27", "title": "quantize_model converts exactly the convertible modules", "statement": "quantize_model replaces the class of each reachable module that has an entry in the conversion map by its quantized class, leaves parameters and names in place, and if an unsupported module exists raises before changing anything.", "quantifier": "every module tree and conversion map", "why_tests_cant": "All module trees.", "anchors": ["src/fastforward/nn/quantized_module.py:quantize_model", "src/fastforward/nn/quantized_module.py:_check_quantizable", "src/fastforward/nn/quantized_module.py:_quantize_module"]}
{"id": "C28", "title": "Conversion map: last registration wins and filters are undone", "statement": "quantized_module_map maps each float module class to the last registered allowed quantized class; extending registrations never removes an entry.", "quantifier": "every history of registrations and filters", "why_tests_cant": "Unbounded histories.", "anchors": ["src/fastforward/nn/quantized_module.py:quantized_module_map", "src/fastforward/nn/quantized_module.py:filter_quantized_module_map"]}
{"id": "C29", "title": "Quantizer listing is complete and duplicate free", "statement": "named_quantizers yields every quantizer reachable in the model exactly once (per module identity) under a path that leads to it, skipping stubs if asked.", "quantifier": "every module graph including shared modules", "why_tests_cant": "All module graphs.", "anchors": ["src/fastforward/nn/quantized_module.py:named_quantizers"]}
{"id": "C30", "title": "QuantizationConfig precedence", "statement": "With a QuantizationConfig each quantizer matched by at least one rule is initialized exactly once by the matching rule of highest precedence, later rules winning ties; unmatched quantizers are untouched.", "quantifier": "every list of rules and every model", "why_tests_cant": "All rule lists and models.", "anchors": ["src/fastforward/quantization/quant_init.py:QuantizationConfig.initialize"]}
{"id": "C31", "title": "Overwrite policy", "statement": "Initializing a quantizer collection: `error` raises if a target is already a concrete quantizer, `skip` leaves those unchanged and initializes the rest, `overwrite` replaces all.", "quantifier": "every collection and every mix of stubs and quantizers", "why_tests_cant": "All models and policies.", "anchors": ["src/fastforward/quantization/quant_init.py:QuantizerCollection.initialize", "src/fastforward/quantization/quant_init.py:_initialize_quantizer"]}
{"id": "C32", "title": "Shared tensors survive the checkpoint", "statement": "De-duplicating shared tensors before saving and expanding them after loading yields the original state dictionary: every key maps to the tensor it had, and keys that shared storage share it again.", "quantifier": "every state dictionary with every sharing pattern", "why_tests_cant": "All sharing patterns.", "anchors": ["src/fastforward/quantization/save_load.py:_deduplicate_shared_tensors", "src/fastforward/quantization/save_load.py:_expand_shared_tensors"]}
{"id": "C33", "title": "Quantization state round trip", "statement": "Saving the quantization state of a model and loading it in a model of the same structure attaches to every quantizer path a quantizer with the saved class, configuration and parameters; quantizers that were one object are one object again.", "quantifier": "every model, every set of quantizers and sharing", "why_tests_cant": "All models and sharing patterns; metadata corner cases.", "anchors": ["src/fastforward/quantization/save_load.py:save_quantization_state", "src/fastforward/quantization/save_load.py:load_quantization_state", "src/fastforward/quantization/save_load.py:_collect_quantizer_state", "src/fastforward/quantization/save_load.py:_load_quantizer_state_from_files"]}
{"id": "C34", "title": "Load overwrite policy", "statement": "Loading with overwrite_policy `error` onto a model that already has a concrete quantizer raises; `skip` keeps it; `overwrite` replaces it.", "quantifier": "every model and saved state", "why_tests_cant": "All models/states.", "anchors": ["src/fastforward/quantization/save_load.py:_load_quantizer_state_from_files"]}
{"id": "C35", "title": "Fusing QDQ weights preserves the quantized model", "statement": "After fuse_qdq_weights each fused weight is on its quantizer's grid, so quantizing it again returns the same weight: the quantized forward result is unchanged and fusing twice equals fusing once.", "quantifier": "every weight, tile size, scale and offset", "why_tests_cant": "All weights and parameters.", "anchors": ["src/fastforward/quantization/fuse.py:fuse_qdq_weights", "src/fastforward/quantization/fuse.py:_fuse_target"]}
{"id": "C36", "title": "Tied weights are fused only if unambiguous", "statement": "If fuse_qdq_weights succeeds for a weight tied to several quantizers, all those quantizers map it to the same values, so the fused weight is the QDQ value under each of them whatever the visiting order.", "quantifier": "every set of tied targets and order", "why_tests_cant": "All orders and tying patterns.", "anchors": ["src/fastforward/quantization/fuse.py:_check_tied_weight_targets"]}
{"id": "C37", "title": "GPTQ running Hessian", "statement": "After any sequence of calibration batches the accumulated Hessian equals 2/N times the sum of x x^T over all N samples, independent of batch splits and order.", "quantifier": "every sequence of batches", "why_tests_cant": "All histories.", "anchors": ["src/fastforward/quantization/gptq.py:calculate_hessian"]}
{"id": "C38", "title": "GPTQ writes on-grid weights", "statement": "After GPTQ each column of the weight is a fixed point of the quantizer that was used for it, whatever the Hessian, block size and error feedback.", "quantifier": "every weight matrix, inverse Hessian, block size", "why_tests_cant": "All real matrices.", "anchors": ["src/fastforward/quantization/gptq.py:gptq", "src/fastforward/quantization/gptq.py:column_quantizer"]}
{"id": "C39", "title": "Path queries: exactly the matching modules", "statement": "query(root, q) returns exactly the modules that are reachable through a path of child names matching q, where a plain fragment matches one step, `*` any one step and `**` any number of steps (also zero); each module once.", "quantifier": "every module tree and every query made of names, patterns, `*` and `**`", "why_tests_cant": "All trees and queries.", "anchors": ["src/fastforward/mpath/_search.py:search", "src/fastforward/mpath/selector.py:Selector.matches_and_continuations"]}
{"id": "C40", "title": "Path queries with alternatives", "statement": "A query with a brace group {q1,...,qn} returns the union of the results of the queries obtained by picking one alternative.", "quantifier": "every tree and query with brace groups", "why_tests_cant": "All trees and queries.", "anchors": ["src/fastforward/mpath/selector.py:MultiSelector", "src/fastforward/mpath/_search.py:search"]}
{"id": "C41", "title": "Query text round trip", "statement": "Printing a selector and parsing the text gives a selector that matches the same paths.", "quantifier": "every selector over identifier names, wildcards, inversions and brace groups", "why_tests_cant": "All selectors of any size.", "anchors": ["src/fastforward/mpath/_parser.py:Parser", "src/fastforward/mpath/_parser.py:Tokenizer"]}
{"id": "C42", "title": "Module collections behave like sets", "statement": "Union, intersection, difference and symmetric difference of MPathCollections contain exactly the modules the set operation prescribes, each once.", "quantifier": "every pair of collections", "why_tests_cant": "All collections.", "anchors": ["src/fastforward/mpath/_search.py:MPathCollection"]}
{"id": "C43", "title": "Execution order of a traced graph", "statement": "topological_sort returns every leaf node exactly once, each after all nodes it takes input from; it raises exactly if leaf nodes depend on each other in a cycle or a leaf takes input from something that is no leaf of the graph.", "quantifier": "every graph", "why_tests_cant": "All graphs.", "anchors": ["src/fastforward/_orchestration/graph_module.py:topological_sort"]}
{"id": "C44", "title": "Ancestor computation", "statement": "ancestors(graph, node) is exactly the set of nodes from which the node is reachable through input edges; with stop the walk does not go past it, and with strict the result is exactly the nodes on paths from stop to node.", "quantifier": "every graph and node", "why_tests_cant": "All graphs.", "anchors": ["src/fastforward/_orchestration/graph_module.py:ancestors"]}
{"id": "C45", "title": "Cycle detection", "statement": "find_cycle returns a closed walk of actual edges if the graph has a cycle, None if it has none.", "quantifier": "every directed graph", "why_tests_cant": "All graphs.", "anchors": ["src/fastforward/_orchestration/graph_module.py:find_cycle"]}
{"id": "C46", "title": "Scheduled programs compute the graph", "statement": "Running the instruction program scheduled for a graph returns, batch by batch, the values obtained by evaluating each node on the values of its inputs; it never reads an activation that has not been produced in the required context.", "quantifier": "every acyclic graph, every interpretation of its modules, every batch list", "why_tests_cant": "All graphs and all module functions.", "anchors": ["src/fastforward/_orchestration/instruction_engine.py:InstructionScheduler.schedule", "src/fastforward/_orchestration/instruction_engine.py:InstructionEngine.run", "src/fastforward/_orchestration/instruction_engine.py:_propagate_contexts"]}
{"id": "C47", "title": "Freeing activations is unobservable", "statement": "lifetime_management_pass never changes what a program returns nor any call's arguments, and after the run no activation other than outputs is kept once it was mentioned.", "quantifier": "every instruction sequence and every module semantics", "why_tests_cant": "All programs.", "anchors": ["src/fastforward/_orchestration/instruction_engine.py:lifetime_management_pass"]}
{"id": "C48", "title": "Dropping non-optimization work is unobservable to the optimizer", "statement": "optimization_only_pass keeps each optimization call, in order and with the same activation bundles, for every program.", "quantifier": "every instruction sequence", "why_tests_cant": "All programs.", "anchors": ["src/fastforward/_orchestration/instruction_engine.py:optimization_only_pass"]}
{"id": "C49", "title": "Offloading restores placement", "statement": "After a program with OffloadEverything has run, every weight is back on its original device and the results are the same as without offloading.", "quantifier": "every graph, program, initial placement and device pair", "why_tests_cant": "All programs and placements.", "anchors": ["src/fastforward/_orchestration/instruction_engine.py:_weight_offloading_pass", "src/fastforward/_orchestration/instruction_engine.py:_offloading_pass"]}
{"id": "C50", "title": "Offloading runs modules on the compute device", "statement": "With OffloadEverything each module call happens with the module's weights and all input activations on the compute device.", "quantifier": "every program and initial placement", "why_tests_cant": "All programs and placements.", "anchors": ["src/fastforward/_orchestration/instruction_engine.py:_cancel_module_round_trips", "src/fastforward/_orchestration/instruction_engine.py:_cancel_redundant_activation_moves"]}
{"id": "C51", "title": "Graph inputs bind like a Python call", "statement": "Calling a graph binds positional arguments to inputs in order and keywords by name, and raises if an argument is missing, unknown, duplicated or excess.", "quantifier": "every input list and call", "why_tests_cant": "All calls.", "anchors": ["src/fastforward/_orchestration/instruction_engine.py:InstructionEngine.prepare_input_register"]}
{"id": "C52", "title": "Batch broadcasting", "statement": "Combining activation streams of lengths 1 and N repeats the singletons and keeps every other stream; any other length mismatch raises; batch i of a bundle consists of element i of each stream.", "quantifier": "every list of streams", "why_tests_cant": "All streams.", "anchors": ["src/fastforward/_orchestration/instruction_engine.py:ActivationDataset.broadcast", "src/fastforward/_orchestration/instruction_engine.py:ActivationBundle"]}
{"id": "C53", "title": "Algorithm registry override is scoped", "statement": "registry.override(algorithm, targets) changes the targets only inside its block; afterwards resolve gives what it gave before, under nesting and exceptions.", "quantifier": "every registry history and nesting", "why_tests_cant": "All histories.", "anchors": ["src/fastforward/_orchestration/registry.py:override", "src/fastforward/_orchestration/registry.py:_AlgorithmRegistry"]}
{"id": "C54", "title": "Flow contexts are the ones given", "statement": "An activation flow declared with a context manager runs under this very context manager.", "quantifier": "every sequence of flow declarations", "why_tests_cant": "All histories of declarations.", "anchors": ["src/fastforward/_orchestration/data_flow.py:_to_generator", "src/fastforward/_orchestration/data_flow.py:register_generator"]}
{"id": "C55", "title": "Graph coarsening preserves the computation", "statement": "reduce_resolution returns a graph that computes the same outputs as the original graph for every input.", "quantifier": "every graph and set of target regions", "why_tests_cant": "All graphs and regions.", "anchors": ["src/fastforward/_orchestration/graph_module.py:reduce_resolution", "src/fastforward/_orchestration/graph_module.py:create_subgraph", "src/fastforward/_orchestration/graph_module.py:remap_subgraph_reference"]}
{"id": "C56", "title": "Export pipeline order", "statement": "Running an export pipeline executes every registered stage exactly once, after all its dependencies, passing it their results; it raises exactly if dependencies are cyclic or unregistered.", "quantifier": "every set of stages and dependency relation", "why_tests_cant": "All graphs.", "anchors": ["src/fastforward/export/pipeline/core.py:Pipeline._build_pipeline", "src/fastforward/export/pipeline/core.py:Pipeline._execute_pipeline"]}
{"id": "C57", "title": "Pipeline edits keep wiring", "statement": "insert_stage_before/after and replace_stage rewire the graph as documented: downstream stages receive the new stage's result in place of the old one and all their other inputs unchanged (in the same position).", "quantifier": "every pipeline and edit", "why_tests_cant": "All pipelines.", "anchors": ["src/fastforward/export/pipeline/core.py:Pipeline.replace_stage", "src/fastforward/export/pipeline/core.py:Pipeline.insert_stage_after", "src/fastforward/export/pipeline/core.py:Pipeline.insert_stage_before"]}
{"id": "C58", "title": "add_dependency keeps a pipeline acyclic", "statement": "add_dependency raises exactly if the edge would close a cycle, so pipelines edited with it stay executable.", "quantifier": "every acyclic pipeline and edge", "why_tests_cant": "All pipelines.", "anchors": ["src/fastforward/export/pipeline/core.py:Pipeline.add_dependency", "src/fastforward/export/pipeline/core.py:Pipeline._reaches"]}
{"id": "C59", "title": "GGUF packing is lossless", "statement": "Dequantizing packed Q4_0/Q8_0 bytes with llama.cpp's formula yields scale*code for each code FastForward stored.", "quantifier": "every block of in-range codes", "why_tests_cant": "16^32 blocks.", "anchors": ["src/fastforward/export/stages/gguf/_packing.py:pack_q4_0_blocks", "src/fastforward/export/stages/gguf/_packing.py:pack_q8_0_blocks"]}
{"id": "C60", "title": "RoPE row permutation keeps rows and scales paired", "statement": "The RoPE export transform is a permutation of rows (no row lost or duplicated), moves row h*2k'+... as documented and moves the block scales with their codes.", "quantifier": "every number of rows, heads and blocks per row", "why_tests_cant": "All sizes.", "anchors": ["src/fastforward/export/stages/gguf/_arch.py:_rope_permute_row_index", "src/fastforward/export/stages/gguf/_arch.py:_apply_row_permute"]}
{"id": "C61", "title": "LPBQ scale compression", "statement": "Each block's integer scale is in [1, 2^b] and integer scale times channel scale approximates the block scale within half a step of the channel scale (one step for tiny scales); the largest block scale of a channel is exact.", "quantifier": "every grid of positive scales and bit width", "why_tests_cant": "All reals.", "anchors": ["src/fastforward/export/_lpbq.py:LPBQProcessor.grouped_dynamic_quantize"]}
{"id": "C62", "title": "Exported encodings describe the quantizer", "statement": "Decoding an exported integer with the exported scale/offset gives FastForward's dequantized value, and the encoding is flagged symmetric exactly when all offsets are zero.", "quantifier": "every scale/offset vector and bit width", "why_tests_cant": "All parameter vectors.", "anchors": ["src/fastforward/export/_export_schemas.py:_preprocess_quantization_params", "src/fastforward/export/_export_schemas.py:V2SchemaHandler.add_encoding", "src/fastforward/export/_export_schemas.py:V1SchemaHandler.add_encoding"]}
{"id": "C63", "title": "Encoding names are first-wins unique", "statement": "A schema handler never has two encodings with one name and category; the first added is the one exported.", "quantifier": "every sequence of add_encoding/clear", "why_tests_cant": "All histories.", "anchors": ["src/fastforward/export/_export_schemas.py:V1SchemaHandler", "src/fastforward/export/_export_schemas.py:LegacySchemaHandler", "src/fastforward/export/_export_schemas.py:V2SchemaHandler"]}
{"id": "C64", "title": "Quantization spec propagation through views", "statement": "The propagation pass never overwrites a quantization spec, only copies specs between a view and its input, and reaches every node connected to an annotated node by a chain of views.", "quantifier": "every graph and annotation", "why_tests_cant": "All graphs.", "anchors": ["src/fastforward/export/stages/passes.py:PropagateFFQuantSpecs"]}
{"id": "C65", "title": "Relative import resolution", "statement": "The module name computed for a relative import in generated code is the one Python resolves it to.", "quantifier": "every module name, number of dots and target", "why_tests_cant": "All names.", "anchors": ["src/fastforward/_autoquant/pysource/scope.py:_resolve_relative_module_name"]}
{"id": "C66", "title": "Quantizer tag hierarchy", "statement": "A quantizer tagged with a tag also carries all its parent tags, and a tag query matches exactly the quantizers carrying the tag or one of its descendants.", "quantifier": "every tag hierarchy and set of tags", "why_tests_cant": "All hierarchies.", "anchors": ["src/fastforward/nn/quantizer.py:Tag", "src/fastforward/nn/quantizer.py:QuantizerMetadata", "src/fastforward/quantization/quant_init.py:QuantizerTagSelectorFragment"]}
{"id": "C67", "title": "Equal granularities induce equal tilings", "statement": "Two granularity objects that compare equal (==) induce the same tile size on every data shape.", "quantifier": "every pair of granularity instances and every shape", "why_tests_cant": "All instances.", "anchors": ["src/fastforward/quantization/granularity.py:Granularity.__eq__", "src/fastforward/quantization/granularity.py:PerBlock"]}
{"id": "C68", "title": "Accepted output dtypes store all codes", "statement": "If quantization accepts an output dtype for a bit width, every code of that bit width is stored in this dtype without change.", "quantifier": "every dtype, bit width and code", "why_tests_cant": "All codes of all widths.", "anchors": ["src/fastforward/quantization/_quantizer_impl.py:can_support_bitwidth", "src/fastforward/quantization/_quantizer_impl.py:quantize_by_tile_impl"]}
{"id": "C69", "title": "Flag blocks under overlapping executions", "statement": "Flag blocks opened and closed by several threads or suspended generators leave the process-wide flag as it was once all of them have ended.", "quantifier": "every interleaving of block entries and exits", "why_tests_cant": "All interleavings.", "anchors": ["src/fastforward/flags.py:_context_flag"]}
{"id": "C70", "title": "Default search grid contains a covering candidate", "statement": "With the default relative margin, the uniform search grid built from a batch contains, among the candidates that are evaluated, one whose range covers every entry of that batch (perfect-square numbers of candidates >= 4 in the asymmetric case).", "quantifier": "every batch, absolute margin, symmetry and number of candidates", "why_tests_cant": "All batches.", "anchors": ["src/fastforward/range_setting/min_error.py:_UniformSearchGrid"]}
{"id": "C71", "title": "Estimated ranges do not clip the calibration data", "statement": "Setting a quantizer to the range found by running min-max estimation gives scale and offset whose representable range contains every entry seen, in every tile that holds at least two different values.", "quantifier": "every sequence of batches, granularity, bit width and symmetry", "why_tests_cant": "All data.", "anchors": ["src/fastforward/range_setting/minmax.py:RunningMinMaxEstimator", "src/fastforward/quantization/affine/dynamic.py:parameters_for_range"]}
{"id": "C72", "title": "Metadata extension check", "statement": "is_extension answers True exactly when the other metadata has all tags of this one and no attribute of this one is missing there or different, and never raises.", "quantifier": "every pair of quantizer metadata", "why_tests_cant": "All tag sets and attribute dictionaries.", "anchors": ["src/fastforward/nn/quantizer.py:QuantizerMetadata.is_extension"]}
{"id": "C73", "title": "GGUF export is complete and keeps tensors apart", "statement": "The exported GGUF file holds exactly one tensor for every initialized, untied parameter that has a GGUF name, no other tensor, and no two parameters end up under the same name; unquantized parameters keep their values.", "quantifier": "every model (list of named parameters), shipped architecture adapter and quantization format", "why_tests_cant": "All parameter lists and names.", "anchors": ["src/fastforward/export/stages/gguf/_naming.py:_build_name_map", "src/fastforward/export/stages/gguf/_extract.py:extract_module_tensors", "src/fastforward/export/stages/gguf/gguf_export_stages.py:stage_pack_gguf_blocks"]}
{"id": "C74", "title": "Llama projections are exported in llama.cpp's row order", "statement": "In a Llama export every q_proj and k_proj weight, quantized or not, is written in the row order llama.cpp expects.", "quantifier": "every Llama model, head counts and choice of quantized layers", "why_tests_cant": "All models.", "anchors": ["src/fastforward/export/stages/gguf/_arch.py:llama_rope_permute"]}
{"id": "C75", "title": "Quantizer parameters survive the ONNX metadata", "statement": "Writing a quantizer's parameters to ONNX metadata and reading them back gives the same bit width, scales, offsets, tile size and data shape, so that the exported encoding decodes to the original quantizer's values.", "quantifier": "every scale and offset vector, bit width, data shape and tile size", "why_tests_cant": "All parameter vectors.", "anchors": ["src/fastforward/export/stages/annotations.py:_ff_quantizer_spec", "src/fastforward/export/stages/onnx/onnx_export_stages.py"]}
{"id": "C76", "title": "Annotation removes exactly the quantization operations", "statement": "Converting a captured graph removes every quantize and dequantize operation and nothing else; the remaining graph computes what the captured graph computes with quantization switched off, and a tensor carries the parameters of the last quantizer that read it.", "quantifier": "every graph, operator semantics, input and parameter assignment", "why_tests_cant": "All graphs and inputs.", "anchors": ["src/fastforward/export/stages/passes.py:AnnotateFFQuantSpecs", "src/fastforward/export/stages/annotations.py:_ff_quantizer_spec"]}
{"id": "C77", "title": "The annotated graph determines the quantized model", "statement": "Reading each annotated tensor of the converted graph through the fake quantizer of its spec gives the results of the captured quantized graph.", "quantifier": "every graph, operator semantics and input", "why_tests_cant": "All graphs and inputs.", "anchors": ["src/fastforward/export/stages/passes.py:AnnotateFFQuantSpecs"]}
{"id": "C78", "title": "Specs copied to views fit the view", "statement": "A quantization spec copied from a tensor to a view of it quantizes every element of the view as it quantizes that element in the tensor.", "quantifier": "every tensor, view, granularity and parameter values", "why_tests_cant": "All tensors and views.", "anchors": ["src/fastforward/export/stages/passes.py:PropagateFFQuantSpecs"]}
{"id": "C79", "title": "The QDQ export computes the quantizer", "statement": "The QuantizeLinear and DequantizeLinear nodes written for a quantizer produce the codes and values the quantizer produces, or the export is refused.", "quantifier": "every tensor, granularity, bit width, scale and offset, and every behaviour of the ONNX cast outside the range of the type", "why_tests_cant": "All tensors and parameters, including ties and unrepresentable zero points.", "anchors": ["src/fastforward/export/stages/onnx/onnx_qdq_export_stages.py:_make_ff_quantize_by_tile_onnx", "src/fastforward/export/stages/onnx/onnx_qdq_export_stages.py:_ff_axis_from_tile_size", "src/fastforward/export/stages/onnx/onnx_qdq_export_stages.py:_ff_quant_dtype_for_bitwidth"]}
{"id": "C80", "title": "The QDQ export keeps the caller's options", "statement": "Options and operator lowerings given by the caller are used unchanged, missing ones are filled in, and options that cannot work (wrong type, opset below 21 or not available) are refused with TypeError or ExportError.", "quantifier": "every options dictionary and set of available opsets", "why_tests_cant": "All dictionaries.", "anchors": ["src/fastforward/export/stages/onnx/onnx_qdq_export_stages.py:_with_ff_qdq_lowerings"]}
{"id": "C81", "title": "Saved states do not overwrite each other", "statement": "The quantization state loaded for a model name and tag is the one saved last under exactly that name and tag, whatever was saved under other names and tags.", "quantifier": "every history of saves, every pair of names and tags", "why_tests_cant": "All histories and names, including names with characters that file systems reject.", "anchors": ["src/fastforward/cache.py:get_assets_path", "src/fastforward/quantization/save_load.py:save_quantization_state", "src/fastforward/quantization/save_load.py:load_quantization_state"]}
{"id": "C82", "title": "Model artifact weights round trip", "statement": "Loading a saved model artifact gives every weight of the target the saved value, ties included, and raises RuntimeError unless the target has exactly the saved weights; quantizer parameters are never taken from the weight file.", "quantifier": "every state dict, sharing pattern, set of quantizers and target", "why_tests_cant": "All models.", "anchors": ["src/fastforward/quantization/save_load.py:save_quantized_model", "src/fastforward/quantization/save_load.py:load_quantized_model"]}
{"id": "C83", "title": "GPTQ's block size does not change the result", "statement": "The block size of GPTQ only groups the work: for every positive block size the same weight and quantizer parameters are written.", "quantifier": "every weight, quantizer, calibration set and pair of block sizes", "why_tests_cant": "All matrices and block sizes.", "anchors": ["src/fastforward/quantization/gptq.py:gptq"]}
{"id": "C84", "title": "GPTQ group scales fit the corrected weights", "statement": "With one scale per group of columns, GPTQ computes the scale of a group from the weights of the group after all corrections by the columns before it.", "quantifier": "every weight, group size, block size and Hessian", "why_tests_cant": "All matrices.", "anchors": ["src/fastforward/quantization/gptq.py:gptq", "src/fastforward/quantization/gptq.py:update_partial_range"]}
{"id": "C85", "title": "layerwise_optimize runs the algorithm it is given", "statement": "The function that layerwise_optimize runs at every region is the algorithm passed to it, with the arguments bound to it, and it runs at exactly the regions of its targets.", "quantifier": "every registry, model, algorithm (functions and partials), target and list of specs", "why_tests_cant": "All registries and targets.", "anchors": ["src/fastforward/orchestration.py:layerwise_optimize", "src/fastforward/_orchestration/registry.py:_AlgorithmRegistry.resolve", "src/fastforward/_orchestration/registry.py:_algorithm_key"]}
{"id": "C86", "title": "Targets select exactly the matching modules", "statement": "A target (module type, query, module, selector or any nested collection of these) resolves to exactly the modules it stands for, each once; types in model order; a named module that is not in the model, no match, and targets of another kind are errors.", "quantifier": "every target, model and set iteration order", "why_tests_cant": "All targets and models.", "anchors": ["src/fastforward/_orchestration/registry.py:normalize", "src/fastforward/_orchestration/registry.py:Selector", "src/fastforward/_orchestration/registry.py:register", "src/fastforward/_orchestration/registry.py:resolve"]}
{"id": "C87", "title": "A graph called on batches computes each batch", "statement": "A graph module called on one iterable of batches (dictionaries, tuples, lists or objects with a value for every input) returns for every batch what the graph computes for the values of that batch; one tensor, several arguments and keyword arguments are passed on as they are.", "quantifier": "every graph, iterable of batches and batch kind", "why_tests_cant": "All graphs and iterables.", "anchors": ["src/fastforward/_orchestration/graph_module.py:GraphModule._sanitize_inputs", "src/fastforward/_orchestration/graph_module.py:GraphModule.forward"]}
{"id": "C88", "title": "Inlining a subgraph keeps its meaning", "statement": "The references returned by add_subgraph have the values the subgraph computes for the given arguments, nothing else in the graph changes its value, and calls that cannot be inlined are refused with the graph unchanged.", "quantifier": "every graph, subgraph, argument list and history of graph building calls", "why_tests_cant": "All graphs and arguments.", "anchors": ["src/fastforward/_orchestration/graph_module.py:GraphModule.add_subgraph", "src/fastforward/_orchestration/graph_module.py:GraphModule.add_node", "src/fastforward/_orchestration/graph_module.py:GraphModule.add_input"]}
{"id": "C89", "title": "A call runs the graph as it is now", "statement": "A call of a graph module computes the outputs of the graph as built so far, whatever calls and additions came before, and leaves the graph unchanged.", "quantifier": "every history of additions and calls", "why_tests_cant": "All interleavings of building and calling.", "anchors": ["src/fastforward/_orchestration/graph_module.py:GraphModule.forward", "src/fastforward/_orchestration/graph_module.py:GraphModule._reset_graph"]}
{"id": "C90", "title": "Preparing source code keeps its meaning", "statement": "The code autoquant continues with, after lines are split, augmented assignments expanded and calls and operators moved to lines of their own, returns the same values with the same effects as the source code, and raises exactly when it does.", "quantifier": "every function body, meaning of calls, operators, attributes and so on, and starting state", "why_tests_cant": "All programs and semantics.", "anchors": ["src/fastforward/_autoquant/cst/passes.py:IsolateReplacementCandidates", "src/fastforward/_autoquant/cst/passes.py:ConvertSemicolonJoinedStatements", "src/fastforward/_autoquant/autoquant.py:default_preprocessing_passes"]}
{"id": "C91", "title": "Expanded augmented assignments do the same", "statement": "Rewriting x += y to x = x + y (and so on for all operators and for attributes and items) leaves no augmented assignment behind and does not change what the code does.", "quantifier": "every function body, meaning of operators and starting state", "why_tests_cant": "All programs and semantics.", "anchors": ["src/fastforward/_autoquant/cst/passes.py:ExpandAugAssign"]}
{"id": "C92", "title": "Prepared code has one operation per line", "statement": "In prepared code every line holds one statement, every call or operator of a line that may be replaced is the whole value of its statement unless it is part of a conditional expression or comprehension, and every temporary is assigned in one place.", "quantifier": "every function body", "why_tests_cant": "All programs.", "anchors": ["src/fastforward/_autoquant/cst/passes.py:IsolateReplacementCandidates", "src/fastforward/_autoquant/cst/passes.py:ConvertSemicolonJoinedStatements"]}
{"id": "C93", "title": "Exactly the calls and operators may be replaced", "statement": "Marked for replacement are exactly the calls, except of super and the bypassed functions, and the unary and binary operations with an operand that is not built from literals; removing the marks gives back the source code.", "quantifier": "every expression", "why_tests_cant": "All expressions.", "anchors": ["src/fastforward/_autoquant/cst/passes.py:MarkReplacementCandidates", "src/fastforward/_autoquant/bypass.py"]}
{"id": "C94", "title": "Generated code imports what it uses", "statement": "Every name that code generated from a function reads and that its source module binds is imported in the generated module and stands there for what it stands for in the source module; nothing is imported under another meaning, and no local name or builtin is hidden.", "quantifier": "every source module (imports, from-imports, relative imports, aliases, definitions), every function body, every set of local names", "why_tests_cant": "The names and import forms that can occur in source modules cannot be enumerated.", "anchors": ["src/fastforward/_autoquant/pysource/scope.py:find_required_imports", "src/fastforward/_autoquant/pysource/scope.py:_RequiredSymbolsVisitor", "src/fastforward/_autoquant/pysource/scope.py:ImportSymbol"]}
{"id": "C95", "title": "Every quantized call gets its quantizers", "statement": "In the code autoquant generates, every call of a quantized helper function passes exactly the quantizer parameters the helper declares, in their order; along every path of calls from a method of a module, every quantizer of a helper is one of the quantizers of the instance, and different paths use different quantizers.", "quantifier": "every call graph of methods and helper functions, every number of quantizers in each, every path of calls", "why_tests_cant": "Call graphs and paths of calls cannot be enumerated.", "anchors": ["src/fastforward/_autoquant/autoquant.py:_discover_quantized_functions", "src/fastforward/_autoquant/autoquant.py:_propagate_quantizers", "src/fastforward/_autoquant/autoquant.py:_generate_signatures", "src/fastforward/_autoquant/autoquant.py:_resolve_calls"]}
{"id": "C96", "title": "Passing quantizers on comes to an end", "statement": "Autoquant returns for every model: working out which quantizers helper functions have to pass on ends, whatever the functions call.", "quantifier": "every call graph of methods and helper functions, with and without recursion", "why_tests_cant": "Non-termination cannot be observed by a test, and call graphs cannot be enumerated.", "anchors": ["src/fastforward/_autoquant/autoquant.py:_propagate_quantizers"]}
{"id": "C97", "title": "Quantizers have names of their own", "statement": "In generated code, different quantizers of one object, and different quantizer parameters of one function, have different names, which do not change while code is written and are no names of other parameters; a class declares exactly the quantizers its methods use.", "quantifier": "every history of created references (any names, any methods and functions) and of questions for their names", "why_tests_cant": "Names come from source code and cannot be enumerated; clashes depend on combinations of names.", "anchors": ["src/fastforward/_autoquant/pybuilder/quantizer_collection.py:QuantizerReferenceCollection.disambiguate_all_names", "src/fastforward/_autoquant/pybuilder/quantizer_collection.py:QuantizerReferenceCollection.disambiguate_reference", "src/fastforward/_autoquant/pybuilder/builder.py:InitQuantizationMethod", "src/fastforward/_autoquant/pybuilder/builder.py:_add_quantizer_args"]}
{"id": "C98", "title": "Generated classes and functions have names of their own", "statement": "In a generated module, no two classes, base classes or helper functions have the same name, whatever the types and functions are called, and names are found for all of them; types and functions whose names do not clash are called QuantizedName and quantized_name.", "quantifier": "every list of module types and helper functions with any names, in any order of requests", "why_tests_cant": "Names cannot be enumerated, and the search for a free name has no bound.", "anchors": ["src/fastforward/_autoquant/autoquant.py:QuantizedClassNameAllocator", "src/fastforward/_autoquant/autoquant.py:_resolve_all_quantized_calls"]}
{"id": "C99", "title": "Renaming helpers changes nothing else", "statement": "When helper functions get new names in generated code, expressions that refer to a helper refer to its new name, and all other expressions keep their meaning.", "quantifier": "every set of renamed helpers, every expression, every meaning of names, attributes and calls", "why_tests_cant": "Expressions and name meanings cannot be enumerated.", "anchors": ["src/fastforward/_autoquant/autoquant.py:_RenameHelperRefsTransformer", "src/fastforward/_autoquant/autoquant.py:_resolve_all_quantized_calls"]}
{"id": "C100", "title": "Everything a model uses is converted, once", "statement": "Autoquant starts from the module types of the model that have no quantized version, each once, and ends; every function and method that a converted function uses is converted exactly once, unless its conversion fails, and nothing else is converted.", "quantifier": "every model, every graph of uses among methods and functions (with recursion), every set of failing conversions", "why_tests_cant": "Call graphs cannot be enumerated, and neither termination nor completeness of a work queue can be observed on examples.", "anchors": ["src/fastforward/_autoquant/autoquant.py:autoquant", "src/fastforward/_autoquant/autoquant.py:_find_unquantized_submodules"]}
{"id": "C101", "title": "Calls in converted code are resolved", "statement": "In every function and method that autoquant converts, calls of other converted functions become calls of their quantized versions with their quantizers.", "quantifier": "every model and graph of uses, with inherited and aliased methods", "why_tests_cant": "Class hierarchies and call graphs cannot be enumerated.", "anchors": ["src/fastforward/_autoquant/autoquant.py:_discover_quantized_functions", "src/fastforward/_autoquant/autoquant.py:_resolve_all_quantized_calls"]}
{"id": "C102", "title": "Renaming keeps the meaning of the ONNX model", "statement": "The stages between the exporter and the saved file that change names keep what the model computes: altering names gives every initializer and every result of a node the name made from the prefix and its old name and nothing else a new name; names asked for inputs and outputs are given exactly to them and are refused exactly if there are too many or too few; afterwards different values still have different names, so that the file, in which values are known by name only, computes the same outputs from the same inputs.", "quantifier": "all graphs with shared values, optional inputs and any operators, all prefixes, all names asked for", "why_tests_cant": "tests export a few models with the names of torch's exporter; clashes of names need other models", "anchors": ["src/fastforward/export/_onnx_helpers.py:_fix_onnx_names", "src/fastforward/export/stages/onnx/onnx_export_stages.py:_rename_onnx_input_output_names", "src/fastforward/export/pipeline/qnn_onnx_pipeline.py"]}
{"id": "C103", "title": "Quantization annotations reach the right tensors of the ONNX file", "statement": "The quantization of an FX node is written into the ONNX file for the tensor that holds its value, under the final name of that tensor and as a parameter if it is one, and nothing else is written; in particular annotations that are copied by name end up at the objects they come from.", "quantifier": "all graphs, all quantization specs of FX nodes, all records of where ONNX objects come from, all final names", "why_tests_cant": "tests look at single models in which names are unique and nodes have one result", "anchors": ["src/fastforward/export/stages/onnx/onnx_export_stages.py:OnnxQuantMetadataAnnotator,OnnxIrToProtoMetadataCopier", "src/fastforward/export/pipeline/qnn_onnx_pipeline.py"]}
{"id": "C104", "title": "Quantized operators guard their arguments and then compute the torch function", "statement": "A quantized operator called in strict mode without an output quantizer, or with a plain tensor where its specification asks for quantized ones (also inside lists and optional arguments), raises QuantizationError before torch is called; otherwise it is the torch function on the dequantized arguments followed by the output quantizer, and strict mode defaults to the global flag. The functions generated for the operators of the project have the parameters and defaults of their specifications.", "quantifier": "all operator specifications with supported types, all 53 operators of the project, all arguments, all torch functions and quantizers, both modes", "why_tests_cant": "tests call some operators with a few tensors; specifications of users are not among them, and defaults are compared by reading", "anchors": ["src/fastforward/_quantops/generate.py", "src/fastforward/_quantops/operator.py:Operator.from_spec", "src/fastforward/_quantops/symtypes.py", "src/fastforward/_quantops/quantized_operators.yaml", "src/fastforward/_gen/fallback.py", "src/fastforward/_gen/operators.py"]}
{"id": "C105", "title": "Calls are matched with operators as Python binds arguments", "statement": "autoquant takes the newest registered overload that Python would accept the arguments of the call for, each parameter gets the argument that Python would give it, and a call is left alone exactly if no overload accepts it.", "quantifier": "all operators, all overload sets, all positional and keyword arguments, unpacked ones too", "why_tests_cant": "tests bind a few calls; the rules of binding concern all combinations of positional and keyword arguments and defaults", "anchors": ["src/fastforward/_quantops/operator.py:Operator.bind_partial,validate_arguments", "src/fastforward/_autoquant/cst/node_creation.py:get_quantized_function_counterpart"]}
{"id": "C106", "title": "The operator table returns what was registered, newest first", "statement": "After an operator has been added, it comes first for its torch function, all aliases and every function that had the same operators, followed by what was there before; lookups of everything else, by function or name, are unchanged; nothing is lost or listed twice, an unknown key is a KeyError and nothing else, and a refused operator leaves the table as it was. The file of the project loads and every operator is found under each of its names.", "quantifier": "all histories of additions and aliases, including refused ones, all ways names resolve to functions, all files", "why_tests_cant": "tests add a few operators to fresh tables; sharing through aliases and refused additions need histories", "anchors": ["src/fastforward/_quantops/optable.py:OperatorTable", "src/fastforward/_quantops/quantized_operators.yaml", "src/fastforward/_import.py:QualifiedNameReference"]}
{"id": "C107", "title": "Attention without quantizers is attention", "statement": "Without quantizers and dropout the quantized version of scaled dot product attention returns, for each row of the query, the mean of the values of the keys that the mask allows, weighted by the softmax of the scaled scores plus the mask, and 0 for a row without allowed keys; masked keys and their values have no influence, a causal row depends on the keys up to it, results lie between the smallest and largest allowed value and are never NaN; with grouped queries neighbouring heads share keys and values.", "quantifier": "all sizes, queries, keys, values, masks (boolean, additive, causal, broadcast), scales, masking numbers, and positive functions in place of exp", "why_tests_cant": "tests compare random tensors with torch; fully masked rows, small scores and the choice of the masking number decide the outcome for inputs that tests do not draw", "anchors": ["src/fastforward/nn/functional/custom/sdpa.py:scaled_dot_product_attention_math,_quantized_safe_softmax,_get_quantized_attn_bias"]}
{"id": "C108", "title": "Strict attention is quantized throughout; torch's attention is used only where allowed", "statement": "In strict mode attention succeeds only if query, key and value are quantized, every intermediate result has a quantizer and heads are not shared; torch's own function is used exactly if strict mode is off, the fallback is allowed and no quantizer is active.", "quantifier": "all inputs, quantizers, kernels and settings of strict mode and fallback, and all behaviours of torch's function", "why_tests_cant": "tests cannot observe which of two functions gave a result when both agree; strict mode has a check per intermediate result", "anchors": ["src/fastforward/nn/functional/custom/sdpa.py:scaled_dot_product_attention,scaled_dot_product_attention_math,_is_quantizer_active,_torch_sdpa_fallback"]}
{"id": "C109", "title": "The attention dtype is scoped", "statement": "Inside a with statement attention uses the dtype asked for, after it the one before is back, also after an exception, however such statements are nested.", "quantifier": "all programs of nested with statements, exceptions and reads, including managers that are made before they are entered", "why_tests_cant": "tests enter a few managers; restoring concerns all nestings and exception points", "anchors": ["src/fastforward/nn/functional/custom/sdpa.py:_SDPAUpcast"]}
{"id": "C110", "title": "Module export records what the modules saw", "statement": "When modules of a model are exported, the stored reference of each module is its last call, once with quantization disabled and once quantized: arguments keep their structure, exactly the quantized tensors are replaced by their values, and their parameters are recorded in the same places. Afterwards no hooks are left on the modules, whatever happened.", "quantifier": "all models (any sequence of calls, any exception), all nested arguments, keyword arguments and outputs, all modules chosen", "why_tests_cant": "tests export small models with flat arguments; structures nest without bound and exceptions may occur at any call", "anchors": ["src/fastforward/export/module_export.py:export_modules", "src/fastforward/export/_io_capture.py:ModuleIORecorder,_deep_dequantize,_dequantize_leaves,_dequant_and_get_quantparams"]}
{"id": "C111", "title": "Inputs and outputs of exported modules get the encodings of the tensors they were called with", "statement": "The encodings file of an exported module holds the encodings of its graph and, for every input and output of the graph that was a quantized tensor when the module was called, the parameters of that tensor under its name; nothing else.", "quantifier": "all models, modules, arguments by position and keyword, graphs, and handlers with any history", "why_tests_cant": "tests use modules with one or two tensors; which argument belongs to which graph input depends on all arguments before it", "anchors": ["src/fastforward/export/module_export.py:maybe_extend_encodings_file", "src/fastforward/export/module_export.py:export_modules"]}
{"id": "C112", "title": "Surrogates cover what has no quantized counterpart", "statement": "surrogate_quantized_modules gives a new class to exactly the classes of the model without an entry in the conversion maps, and conversion with these surrogates always succeeds, changing the class of those modules and nothing else.", "quantifier": "all models, conversion maps and flags", "why_tests_cant": "tests convert a few small models; the property ranges over all module graphs and maps", "anchors": ["src/fastforward/nn/quantized_module.py:surrogate_quantized_modules,_missing_modules,quantize_model"]}
{"id": "C113", "title": "Quantizers take over the metadata of the attribute they are assigned to", "statement": "A quantized module remembers the metadata of each quantizer attribute. A quantizer assigned to the attribute carries the tags remembered for it, however often it is replaced, removed or deleted in between; module and quantizer share the metadata; inconsistent metadata is reported and an assignment that raises leaves things as they were.", "quantifier": "all histories of modules, quantizers, assignments, registrations, removals and tags", "why_tests_cant": "queries by tag rely on the metadata after every history of replacements; tests replace a stub once", "anchors": ["src/fastforward/nn/quantized_module.py:QuantizedModule.register_quantizer,QuantizedModule.__setattr__", "src/fastforward/nn/quantizer.py:QuantizerMetadata"]}
{"id": "C114", "title": "Summaries count every quantizer once", "statement": "The summary of the quantizers of a model has one entry per description, listing exactly the quantizers so described, most frequent first; names that differ only in numbers share a line with their count, different lines show different texts and the counts add up.", "quantifier": "all lists of named quantizers and all descriptions", "why_tests_cant": "tests check one model; grouping, order and distinctness must hold for all names", "anchors": ["src/fastforward/nn/quantized_module.py:summarize_quantizers,QuantizerSummary,_deduplicate_quantizer_names"]}
{"id": "C115", "title": "A traced graph computes what the exported program computes", "statement": "The graph that tracing makes of an exported program has one output; for all inputs its value is what the program returns for them, with modules within modules inlined, containers put together and attributes read. Calling the graph on tensors returns that value or fails with an error of user code.", "quantifier": "all exported programs (any nesting of modules, any arguments), all user code and all inputs", "why_tests_cant": "tests trace a few small models; the property ranges over all programs, argument structures and nestings", "anchors": ["src/fastforward/_orchestration/trace.py:_GraphBuilder,_make_tuple,_make_list,_make_slice,_make_dict,_make_method_caller,_make_get_attr,_prepare_output,_contains_fx_node,_is_non_leaf_graph_module,_can_call_original"]}
{"id": "C116", "title": "Traced graphs can be scheduled and have the inputs the caller knows", "statement": "Whatever program is traced, the graph has different nodes and inputs, no cycles and no missing references, so it can always be scheduled. Its inputs have the names of the placeholders, with the exporter's mangling of keyword and positional names undone and other names kept.", "quantifier": "all exported programs and all names of parameters", "why_tests_cant": "a malformed graph fails only when scheduled or run with particular inputs; names range over all strings", "anchors": ["src/fastforward/_orchestration/trace.py:_GraphBuilder,_unmangle_placeholder"]}
{"id": "C117", "title": "Data declared by an optimization is produced by exactly the nodes it depends on", "statement": "Binding the flows an algorithm declares for a node of a graph gives one plan per flow, in order. For activations arriving at the node the plan runs exactly the nodes it depends on and reads its arguments; for activations leaving it the plan runs the node too and reads its result. Nodes are listed once, each after everything it takes input from. Unknown nodes, other kinds of flows and graphs that cannot be scheduled are refused.", "quantifier": "all graphs, all nodes and all lists of flows, whatever order sets are iterated in", "why_tests_cant": "plans depend on the whole upstream of a node and on set iteration order; tests bind flows on chains of a few layers", "anchors": ["src/fastforward/_orchestration/scheduler.py:bind_flows,FlowPlan,_ancestors_of", "src/fastforward/_orchestration/data_flow.py:DataFlow"]}
{"id": "C118", "title": "Tracing leaves the module as it was", "statement": "Tracing replaces uninitialised parameters and buffers by placeholders while the module is exported. Whether tracing succeeds or fails, afterwards every parameter and buffer of every module has the tensor, the place and the persistence it had, and the strict flag is as it was; while the module is exported there is no uninitialised tensor.", "quantifier": "all modules with any parameters and buffers, and all behaviours of the exporter, including failures", "why_tests_cant": "restoration must hold at every point of failure and for every arrangement of initialised and uninitialised tensors", "anchors": ["src/fastforward/_orchestration/trace.py:_placeholder_uninitialized_params,trace"]}
{"id": "C119", "title": "A module is traced once", "statement": "After any history of tracing, tracing a module that was traced successfully before returns the graph of the first success and has no other effect; a module without success so far is captured anew, whatever was traced or failed before, and a module that is destroyed leaves no graph behind.", "quantifier": "all histories of successful and failing traces of any modules, and of modules being destroyed", "why_tests_cant": "the property is about histories of any length and any interleaving of modules", "anchors": ["src/fastforward/_orchestration/trace.py:trace,_graph_cache"]}
{"id": "C120", "title": "The entry points of static quantization agree", "statement": "Every way to ask for static affine quantization of a tensor gives the same outcome: quantize_per_granularity, quantize_per_tensor, quantize_per_channel, quantize_by_tile, quantize_per_block and the quantization function of a context with the same scale, offset, bit width and granularity raise the same error, or give the same codes and the same dequantized tensor. The codes are those closest to x / scale - offset with the scale and offset of the tile of the element, one number standing for all tiles, and the dequantized tensor has the dtype of the data and the values (code + offset) * scale.", "quantifier": "all tensors, scales and offsets (numbers or tensors), granularities, bit widths and dtypes, in and out of export mode", "why_tests_cant": "The entry points build their parameters separately and some convert a granularity to a tile first; a test compares a few of them on one tensor.", "anchors": ["src/fastforward/quantization/affine/static.py", "src/fastforward/quantization/affine/function.py:AffineQuantizationFunction", "src/fastforward/quantization/affine/_autograd.py"]}
{"id": "C121", "title": "Dynamic quantization is static quantization with the parameters it reports", "statement": "A quantized tensor always carries static parameters, and quantizing the same data again with these parameters gives the same codes. With an inference function these are the scale and offset it returned. Otherwise there is one positive scale and one offset for every tile, and every dequantized element lies within half a scale of the element. All dynamic entry points agree with the granularity they stand for.", "quantifier": "all tensors, granularities, bit widths, symmetric and one-sided settings, inference functions and dtypes", "why_tests_cant": "The claim ranges over every tensor and granularity and over arbitrary inference functions.", "anchors": ["src/fastforward/quantization/affine/dynamic.py", "src/fastforward/quantization/affine/function.py:AffineQuantizationFunction._dynamic_quantize", "src/fastforward/quantization/_quantizer_impl.py:quantize_dynamic_by_tile_impl"]}
{"id": "C122", "title": "Export mode computes what eager mode computes", "statement": "In export mode quantizing gives an ordinary tensor, and it is the tensor that eager quantization followed by dequantization gives, for all static parameters. Dynamic quantization is refused with an ExportError, and codes attached to a context become the tensor they stand for.", "quantifier": "all tensors and all quantization parameters, including the dtypes of codes and of dequantized data", "why_tests_cant": "Tests export models with default dtypes only; the claim is about all parameters.", "anchors": ["src/fastforward/quantization/affine/function.py:AffineQuantizationFunction._export_quantize", "src/fastforward/quantization/function.py:QuantizationContext.attach"]}
{"id": "C123", "title": "Operator annotations name exactly the operators around each quantizer", "statement": "After annotate_operator_metadata(model, x), a quantizer carries (besides the tags it had) the tag before/f exactly for the operators f that were applied to a result of the quantizer in the forward pass, and after/f exactly for the operators f that made a value the quantizer was applied to.", "quantifier": "every forward pass (any sequence of operator applications, in place or not, and quantizer calls), every set of quantizers, stubs or initialized, with any earlier tags and overrides", "why_tests_cant": "Which quantizer a tensor remembers depends on object identity along the whole history of the forward pass; tests annotate one small network of stubs without shared values.", "anchors": ["src/fastforward/quantization/quantizer_annotations.py:annotate_operator_metadata", "src/fastforward/quantization/quantizer_annotations.py:TraceTensor", "src/fastforward/quantization/quantizer_annotations.py:quantizer_override", "src/fastforward/overrides.py:disable_quantization"]}
{"id": "C124", "title": "Annotating a model leaves it as it was apart from new tags", "statement": "annotate_operator_metadata leaves the overrides of every quantizer and the strict quantization flag as they were, also when the forward pass raises; no initialized quantizer of the model quantizes during it; tags are only added, so annotating with several inputs accumulates.", "quantifier": "every forward pass, returning or raising at any step, every history of overrides registered and removed before, every behaviour of the quantizers", "why_tests_cant": "The clean-up must hold for every point at which the forward pass can raise and every combination of earlier overrides.", "anchors": ["src/fastforward/quantization/quantizer_annotations.py:annotate_operator_metadata", "src/fastforward/overrides.py:disable_quantization", "src/fastforward/forward_override.py:apply_overrides"]}
{"id": "C125", "title": "Pattern rules rewrite exactly the instances of their pattern", "statement": "PatternRule.apply returns the replacement with the captured nodes in it exactly for the nodes that are an instance of the pattern (some nodes for its captures), and the node itself for all others; a replacement capture that the pattern lacks raises KeyError. The result can stand where the node stood: a statement for a statement, an expression for an expression.", "quantifier": "every syntax tree, every pattern and replacement", "why_tests_cant": "Patterns are arbitrary code matched against arbitrary code; tests try a few pairs.", "anchors": ["src/fastforward/_autoquant/cst/pattern.py:PatternRule.apply", "src/fastforward/_autoquant/cst/pattern.py:_convert_to_matcher", "src/fastforward/_autoquant/cst/pattern.py:_CaptureTransformer", "src/fastforward/_autoquant/cst/pattern.py:_parse_pattern"]}
{"id": "C126", "title": "The text of rewritten code means the rewritten tree", "statement": "After a pattern rule has been applied to an expression, the generated source, read by Python's grammar, is the tree the rule made: the captured expressions and the replacement keep their grouping in any code around them.", "quantifier": "every expression of names, calls, sums, products and parentheses, every rule, every code around", "why_tests_cant": "Precedence mistakes show only for particular combinations of operators in pattern, captured code and context.", "anchors": ["src/fastforward/_autoquant/cst/pattern.py:PatternRule.apply", "src/fastforward/_autoquant/cst/pattern.py:_CaptureTransformer"]}
{"id": "C127", "title": "Applying pattern rules comes to an end, at code no rule rewrites", "statement": "PatternRuleTransformer terminates on every module; the code it puts in place of a node was reached by rewrites of the rules that apply there, and no rule rewrites it further (or only back to a text already passed).", "quantifier": "every list of rules, every module", "why_tests_cant": "Termination and confluence of a rewriting loop over all programs cannot be sampled.", "anchors": ["src/fastforward/_autoquant/cst/pattern.py:PatternRuleTransformer", "src/fastforward/_autoquant/cst/pattern.py:PatternRuleTransformer._apply_rules"]}
{"id": "C128", "title": "A rule restricted to a scope acts there and nowhere else", "statement": "A PatternRule with on=scope behaves inside that scope (and the scopes nested in it) as the rule without on, and has no effect anywhere else, whatever the other rules are; skipping rules by the module's name alone changes no result.", "quantifier": "every module, module name, list of rules and nesting of classes and functions", "why_tests_cant": "The claim compares runs with and without the restriction over all programs and rule lists.", "anchors": ["src/fastforward/_autoquant/cst/pattern.py:PatternRuleTransformer", "src/fastforward/_autoquant/cst/pattern.py:_applicable_in_module"]}
{"id": "C129", "title": "A quantization function made from two functions calls exactly those functions", "statement": "With (Params, Function, f) = create_quantization_function(name, quantize, dequantize): f(data, **kw) holds quantize(data, **those of kw that quantize takes) as raw data, and its dequantize() is dequantize(raw, **those of kw that dequantize takes), each with its own defaults; a keyword neither function takes, or a required one not given, raises TypeError.", "quantifier": "every pair of functions with any signatures and bodies that is accepted, every keyword arguments", "why_tests_cant": "Signatures are merged by name; tests try one pair with disjoint parameters.", "anchors": ["src/fastforward/quantization/function.py:create_quantization_function", "src/fastforward/quantization/function.py:_make_quantization_parameters_type", "src/fastforward/quantization/function.py:_ImplicitQuantizationFunction"]}
{"id": "C130", "title": "Which pairs of functions can be made into a quantization function", "statement": "create_quantization_function accepts a pair exactly when both take data, every other parameter can be given by keyword, shared parameters have equal annotations and defaults, no default is mutable, and the merged parameters have required ones first; otherwise it raises.", "quantifier": "every pair of signatures", "why_tests_cant": "The condition concerns all pairs of signatures.", "anchors": ["src/fastforward/quantization/function.py:create_quantization_function", "src/fastforward/quantization/function.py:_parameters_from_function", "src/fastforward/quantization/function.py:_make_quantization_parameters_type"]}
{"id": "C131", "title": "Changing a quantization context changes only what was asked", "statement": "with_changes gives a new context with exactly the named parameters changed and raises TypeError for a name that is no parameter; clone_parameters, detach_parameters and to apply to the tensors only; contiguous_parameters returns the same context exactly when all its tensors are contiguous.", "quantifier": "every context, every parameters, every changes", "why_tests_cant": "Parameter classes are user-defined, so the claim ranges over all of them.", "anchors": ["src/fastforward/quantization/function.py:QuantizationContext", "src/fastforward/quantization/function.py:QuantizationParameters", "src/fastforward/common.py:maybe_tensor_apply"]}
{"id": "C132", "title": "Every local variable an operator wants quantized is quantized on every path", "statement": "After automatic quantization of a function, whichever branches are taken and however often loops run, whenever an operator that wants a quantized argument is called with a local variable, the value of that variable is quantized: either the operator that computed it returns quantized values, or the rewritten function quantizes it right after the statement that bound it.", "quantifier": "all functions, all execution paths", "why_tests_cant": "Paths through loops and branches are unboundedly many; the analysis merges scopes and its mistakes only show on particular paths.", "anchors": ["src/fastforward/_autoquant/cst/quantizer_analysis/annotator.py:_QuantizationAnnotator", "src/fastforward/_autoquant/cst/quantizer_analysis/scope.py:QuantizationScope", "src/fastforward/_autoquant/cst/quantizer_analysis/transformer.py:QuantizerFunctionTransformer"]}
{"id": "C133", "title": "The quantizer analysis accepts every function", "statement": "The analysis that decides where quantizers are added ends without an error on every function whose syntax is supported.", "quantifier": "all functions made of supported statements", "why_tests_cant": "The errors depend on combinations of nested loops, branches and jumps that no finite set of examples covers.", "anchors": ["src/fastforward/_autoquant/cst/quantizer_analysis/scope.py:QuantizationScope", "src/fastforward/_autoquant/cst/quantizer_analysis/annotator.py:_QuantizationAnnotator"]}
{"id": "C134", "title": "Quantizers are added only where they are wanted, and once", "statement": "Automatic quantization adds a quantizer only behind a statement, parameter or loop head that binds a variable to a value that is not quantized already, only for variables that some operator of the function wants quantized, and at most once per statement and variable.", "quantifier": "all functions", "why_tests_cant": "Loop bodies are visited twice and scopes are merged, so a duplicate or unneeded quantizer may appear for some nesting only.", "anchors": ["src/fastforward/_autoquant/cst/quantizer_analysis/annotator.py:_QuantizationAnnotator", "src/fastforward/_autoquant/cst/quantizer_analysis/scope.py:QuantizationScope"]}
{"id": "C135", "title": "Every use of a non-local expression gets a quantizer in an enclosing block", "statement": "When automatic quantization rewrites a function, every occurrence of an expression such as self.weight in a place that wants a quantized value is served by exactly the quantizer of its expression, created in a block that contains the occurrence; occurrences of the same expression share one quantizer, different expressions never do, and an expression that all branches use is quantized once for all of them.", "quantifier": "all functions, any nesting of conditionals and loops", "why_tests_cant": "Expressions move up and down a tree of branches whose shape is unbounded; a lost or misplaced occurrence shows only for particular nestings.", "anchors": ["src/fastforward/_autoquant/cst/quantizer_analysis/annotator.py:_NonLocalBranchScope", "src/fastforward/_autoquant/cst/quantizer_analysis/annotator.py:_NLBResolveContext"]}
{"id": "C136", "title": "Inserted statements come right before their first use and change no order", "statement": "The statements that automatic quantization inserts into a block come directly before the first statement that mentions the variable they assign, behind a docstring, or at the end of the block if nothing mentions it; each is inserted once, and neither the statements of the block nor those inserted at one place change their order.", "quantifier": "all blocks, all lists of inserted statements", "why_tests_cant": "The number of statements, insertions and ties is unbounded.", "anchors": ["src/fastforward/_autoquant/cst/quantizer_analysis/transformer.py:_insert_dependency_aware_quantize_statements", "src/fastforward/_autoquant/cst/quantizer_analysis/transformer.py:_first_use_index_in_block"]}
{"id": "C137", "title": "A function rewritten for quantization computes the same with quantized attributes", "statement": "Running the function that automatic quantization produces gives the same variables, or an exception in the same cases, as running the original with each wanted attribute replaced by its quantized value at the place where it is read.", "quantifier": "all functions, all initial variables, all quantizers, operators and objects", "why_tests_cant": "Equivalence of two programs on all inputs, branches taken and loop counts.", "anchors": ["src/fastforward/_autoquant/cst/quantizer_analysis/transformer.py:QuantizerFunctionTransformer", "src/fastforward/_autoquant/cst/quantizer_analysis/annotator.py:_NonLocalBranchScope"]}
{"id": "C138", "title": "Sharing repeated quantizer calls keeps the meaning of a function", "statement": "When automatic quantization finds the same quantizer call more than once in a block it computes it once and uses the result in all places; the function still gives the same variables, or raises in the same cases, for all inputs.", "quantifier": "all functions with nested conditionals and loops, all initial variables, all operators and quantizers without side effects", "why_tests_cant": "Equivalence of two programs on all inputs; what breaks it is an assignment, condition or name at one particular distance from the calls.", "anchors": ["src/fastforward/_autoquant/cst/quantizer_analysis/transformer.py:_QuantizerCallDedup", "src/fastforward/_autoquant/cst/quantizer_analysis/transformer.py:_dedup_repeated_quantizer_calls"]}
{"id": "C139", "title": "After sharing, every quantizer call is made once per block", "statement": "After automatic quantization has shared repeated quantizer calls, no block makes the same call twice and every block makes the calls it made before; a function without repeated calls is not changed, and sharing again changes nothing.", "quantifier": "all functions, any number of calls and any nesting of blocks", "why_tests_cant": "The number of statements, calls and levels is unbounded, and inner blocks are visited once for every block around them.", "anchors": ["src/fastforward/_autoquant/cst/quantizer_analysis/transformer.py:_QuantizerCallDedup"]}
{"id": "C140", "title": "Splitting an assignment into parts loses no variable", "statement": "When automatic quantization takes an assignment apart, with nested and starred targets and several target lists, every variable that Python binds is a target of exactly one part, in the order of the source.", "quantifier": "all targets, any nesting and length, all values", "why_tests_cant": "The shapes of targets and values are unbounded, and cases multiply with every level of nesting.", "anchors": ["src/fastforward/_autoquant/cst/node_processing.py:normalize_assignments", "src/fastforward/_autoquant/cst/node_processing.py:unpack_sequence_expression"]}
{"id": "C141", "title": "The parts of an assignment get the values that Python assigns", "statement": "When automatic quantization takes an assignment apart, the value of a part with a single target is the value that Python binds to that target, for all values the expressions may have.", "quantifier": "all targets and values, all contents of variables", "why_tests_cant": "It relates the syntax of targets and values to the run time behaviour of unpacking for all values.", "anchors": ["src/fastforward/_autoquant/cst/node_processing.py:normalize_assignments", "src/fastforward/_autoquant/cst/node_processing.py:NormalizedAssignment"]}
{"id": "C142", "title": "Cleaning a captured graph keeps its results", "statement": "Removing quantizer artifacts from a captured graph keeps its outputs and its side effects for all inputs, whatever the functions, modules and parameters of the graph compute.", "quantifier": "all captured graphs and module trees, all inputs, all meanings of functions, modules and parameters", "why_tests_cant": "Removed code and removed submodules may matter for some input only, and graphs are unbounded.", "anchors": ["src/fastforward/export/stages/base_pipeline_stages.py:stage_cleanup_ff_quantizer_artifacts", "src/fastforward/export/stages/base_pipeline_stages.py:PruneUnusedGetAttrsPass"]}
{"id": "C143", "title": "No quantizer is left after cleaning", "statement": "After cleaning, the graph reads and calls nothing that belongs to a quantizer of the source model and no quantizer is left in the module. If an output or a side effect depends on a quantizer, cleaning fails with RuntimeError, and it fails in no other case.", "quantifier": "all captured graphs and module trees, all source models", "why_tests_cant": "Whether something depends on a quantizer is a question about all paths through the graph.", "anchors": ["src/fastforward/export/stages/base_pipeline_stages.py:stage_cleanup_ff_quantizer_artifacts", "src/fastforward/export/stages/base_pipeline_stages.py:_collect_graph_referenced_module_paths"]}
{"id": "C144", "title": "Cleaning keeps exactly what is needed", "statement": "The cleaned graph consists of exactly the nodes on which outputs and side effects depend, in the same order, and its module of exactly the submodules these nodes use. Everything the graph reads or calls still exists.", "quantifier": "all captured graphs and module trees, all source models", "why_tests_cant": "It is a claim about every node of every graph, in both directions.", "anchors": ["src/fastforward/export/stages/base_pipeline_stages.py:PruneUnusedGetAttrsPass", "src/fastforward/export/stages/base_pipeline_stages.py:FinalizeGraphModulePass"]}
{"id": "C145", "title": "Converting modules to quantized modules keeps their results", "statement": "Code that calls linear, convolution, normalization, embedding, activation and sequential modules and torch functions computes the same values after the modules were converted to quantized modules, as long as their quantizers are stubs and strict quantization is off.", "quantifier": "all modules, nested to any depth, all programs over them, all parameters and inputs, whatever the torch functions compute", "why_tests_cant": "Modules, programs and contents of tensors are unbounded, and in-place changes show only in some programs.", "anchors": ["src/fastforward/nn/linear.py:QuantizedLinear", "src/fastforward/nn/conv.py:QuantizedConv2d", "src/fastforward/nn/normalization.py:QuantizedLayerNorm", "src/fastforward/nn/embedding.py:QuantizedEmbedding", "src/fastforward/nn/activations.py:QuantizedRelu"]}
{"id": "C146", "title": "Quantizers of a module are applied where they belong", "statement": "A quantized module computes the torch function of the quantized input, weight and bias, followed by the output quantizer. Each quantizer is called exactly once per call, with the tensor it is named after. Input and parameters are not changed, unless torch itself renormalizes the weight of an embedding that has no weight quantizer.", "quantifier": "all quantized modules, nested to any depth, all quantizers, parameters and inputs", "why_tests_cant": "Quantizers are arbitrary functions, and modules nest to any depth.", "anchors": ["src/fastforward/nn/linear.py:QuantizedLinear", "src/fastforward/nn/conv.py:QuantizedConv1d", "src/fastforward/nn/normalization.py:QuantizedLayerNorm", "src/fastforward/nn/embedding.py:QuantizedEmbedding", "src/fastforward/nn/activations.py:QuantizedActivation"]}
{"id": "C147", "title": "Strict mode refuses exactly the unquantized inputs and weights of modules", "statement": "In strict mode a quantized module does exactly what it does otherwise, or raises QuantizationError. It raises exactly if the input or a weight of one of its parts is neither a quantized tensor nor passed through a quantizer other than a stub.", "quantifier": "all quantized modules, nested to any depth, all quantizers, parameters and inputs", "why_tests_cant": "The claim is about all combinations of stubs, quantizers and quantized tensors along a chain of modules.", "anchors": ["src/fastforward/nn/linear.py:QuantizedLinear", "src/fastforward/nn/container.py:QuantizedSequential", "src/fastforward/_quantops/generate.py"]}
{"id": "C148", "title": "Names made from expressions are identifiers", "statement": "For every expression that autoquant names a quantizer after, a name is made. It is a valid identifier and no reserved word, has no two underscores in a row and none at the end. Its letters and digits are those of the expression with arithmetic symbols written out, and a plain variable name is kept.", "quantifier": "the code of all expressions", "why_tests_cant": "The code of an expression is an unbounded string; the cleaning steps interact only in particular strings.", "anchors": ["src/fastforward/_autoquant/cst/node_processing.py:expr_to_ident"]}
{"id": "C149", "title": "Expressions share a quantizer exactly if they are written the same", "statement": "When expressions used in branches are quantized, uses get the same quantizer number exactly if their code is the same. Every expression is numbered, and different expressions get different names.", "quantifier": "all sequences of expressions", "why_tests_cant": "Sequences of expressions and their code are unbounded.", "anchors": ["src/fastforward/_autoquant/cst/quantizer_analysis/annotator.py:_NLBResolveContext", "src/fastforward/_autoquant/cst/node_processing.py:expr_to_ident"]}
{"id": "C150", "title": "Passes are applied one after the other, and a failure names the pass", "statement": "Running a sequence of passes over a statement gives what the passes make of it one after the other. Each must leave exactly one statement of the same class in its place; otherwise, or if it raises, an error is raised that gives the number of the first such pass and its exception as cause.", "quantifier": "all sequences of passes, all visitors, all statements and class hierarchies", "why_tests_cant": "Visitors are arbitrary code, and sequences are unbounded.", "anchors": ["src/fastforward/_autoquant/pass_manager.py:PassManager"]}
{"id": "C151", "title": "The registry of export pipelines finds what was registered", "statement": "After any history of registrations, a lookup by target and format finds the factory registered last for them, where later registrations count only if they ask for replacement; upper and lower case and white space around the names do not matter. Without a registration KeyError is raised. Registering raises ValueError exactly if the names are taken and no replacement is asked for, and then changes nothing.", "quantifier": "all histories of registrations, all names", "why_tests_cant": "Histories and names are unbounded.", "anchors": ["src/fastforward/export/pipeline/registry.py:PipelineRegistry"]}
{"id": "C152", "title": "An export request is run by its pipeline, for its directory and model name", "statement": "Exporting runs the pipeline given in the request, or else the one registered for target and format, once, with output directory, model name and options of the request as context. A request that is refused leaves no trace.", "quantifier": "all requests, registries, pipelines and file systems", "why_tests_cant": "Pipelines are arbitrary code, and options are unbounded.", "anchors": ["src/fastforward/export/pipeline/orchestrator.py:ExportOrchestrator"]}
{"id": "C153", "title": "A dotted name refers to the object in the longest module it begins with", "statement": "Importing a qualified name imports the longest beginning that is a module and follows the other parts as attributes. It raises ImportError exactly if no beginning is a module or an attribute is missing; other exceptions of a module are passed on.", "quantifier": "all names, all import systems and objects", "why_tests_cant": "Names have any number of parts, and what can be imported is not fixed.", "anchors": ["src/fastforward/_import.py:QualifiedNameReference"]}
{"id": "C154", "title": "The qualified name of an object leads back to it", "statement": "Importing the fully qualified name of an object gives this object.", "quantifier": "all objects, modules and import systems", "why_tests_cant": "The claim is about everything that can be named.", "anchors": ["src/fastforward/_import.py:fully_qualified_name", "src/fastforward/_import.py:QualifiedNameReference"]}
{"id": "C155", "title": "Generated methods call the parent methods that the original calls", "statement": "super() in a generated method means what it means in the method it was generated from, although the method is moved to a class below it.", "quantifier": "all method bodies, classes, objects and parent classes", "why_tests_cant": "Class hierarchies and bodies are arbitrary.", "anchors": ["src/fastforward/_autoquant/convert.py:_AnchorBareSuperCalls", "src/fastforward/_autoquant/convert.py:_rewrite_super_calls"]}
{"id": "C156", "title": "Searching a syntax tree finds every node of a type once, top levels first", "statement": "The search yields exactly the nodes of the tree that have the type, each once also if parts are shared; in trees without shared parts in breadth first order.", "quantifier": "all trees and types", "why_tests_cant": "Trees have any shape, and nodes may be shared.", "anchors": ["src/fastforward/_autoquant/cst/filter.py:filter_nodes_by_type"]}
{"id": "C157", "title": "Tokens are cut in sequences without gaps", "statement": "The texts are joined with empty lines and every column of their tokens is cut in consecutive sequences of the given length; only a rest that is too short is dropped, and the labels are the ids.", "quantifier": "all texts, tokenizers and lengths", "why_tests_cant": "Texts, tokens and lengths are unbounded.", "anchors": ["src/fastforward/testing/data.py:tokenize_dataset"]}
{"id": "C158", "title": "A limited progress bar counts to the number of items it shows", "statement": "The bar goes over the first items up to the limit, and its total is their number.", "quantifier": "all collections and limits", "why_tests_cant": "Sizes and limits are unbounded.", "anchors": ["src/fastforward/testing/data.py:sliced_tqdm"]}
{"id": "C159", "title": "The context of a method tells how Python calls it", "statement": "The kind of a method in its context is the kind that attribute lookup along the parent classes finds, and the variable of the object or class is the parameter that receives it.", "quantifier": "all classes, hierarchies, names and signatures", "why_tests_cant": "Hierarchies have any depth, and a class can store anything under a name.", "anchors": ["src/fastforward/_autoquant/function_context.py:FunctionContext", "src/fastforward/type_common.py:method_type"]}
{"id": "C160", "title": "Writing generated code changes one file, and no existing one unless told to", "statement": "The code goes to the file of the given path, or to __init__.py below it; all other files stay, and an existing file is changed only if overwriting is asked for.", "quantifier": "all paths, file systems and codes", "why_tests_cant": "File systems and paths are unbounded.", "anchors": ["src/fastforward/_autoquant/pybuilder/writer.py:FileWriter"]}
{"id": "C161", "title": "A process that ends while it writes code leaves the old or the new code", "statement": "At every time while code is written, the file has the old content or the whole new code.", "quantifier": "all points at which a process can end, all file systems and ways to split a write", "why_tests_cant": "Tests do not end at every point of a write.", "anchors": ["src/fastforward/_autoquant/pybuilder/writer.py:FileWriter"]}
{"id": "C162", "title": "Every token of the tokenizer is in the exported vocabulary, at its id", "statement": "The list of tokens has the size of the model; each token is at its id, once, with the type that the tokenizer gives it, and ids without token are filled with unused ones.", "quantifier": "all tokenizers and sizes", "why_tests_cant": "Vocabularies are unbounded, with gaps and any text as a token.", "anchors": ["src/fastforward/export/stages/gguf/_vocab.py:write_vocab"]}
{"id": "C163", "title": "No warning about code that is not implemented is lost", "statement": "Every warning given while a tree is transformed is a comment before the innermost node around it that can have comments.", "quantifier": "all trees, transformers and warnings", "why_tests_cant": "Trees and transformers are arbitrary.", "anchors": ["src/fastforward/_autoquant/cst/quantizer_analysis/unimplemented.py:NotImplementedMixin"]}
{"id": "C164", "title": "The source that is found for a name is the source of what the name refers to", "statement": "For a dotted name of a function or class of a module, the syntax tree that is found is the definition that the name refers to when the module is executed.", "quantifier": "all modules and names", "why_tests_cant": "Modules have any definitions, nested to any depth.", "anchors": ["src/fastforward/_autoquant/pysource/source_context.py:SourceContext", "src/fastforward/_autoquant/pysource/source_context.py:PySource"]}
{"id": "C165", "title": "Resolving a name ends at the name under which its object is defined", "statement": "A name of an object is resolved to a name of the same object that resolves to itself, and the resolution ends.", "quantifier": "all import systems, names and aliases", "why_tests_cant": "Aliases and wrappers form any graph.", "anchors": ["src/fastforward/_autoquant/pysource/source_context.py:SourceContext"]}
{"id": "C166", "title": "The signal-to-noise ratio orders tensors by their distance to the original", "statement": "A tensor that is nearer to the original in each entry of the batch never has a smaller ratio, the original has the highest, the ratio of an exact copy does not depend on the original, and tensors of different shapes are rejected.", "quantifier": "all pairs of tensors and positive eps", "why_tests_cant": "Tensors have any shape and content.", "anchors": ["src/fastforward/testing/metrics.py:sqnr"]}
