{
 "C04": [
  "proved",
  "For every tile that divides the data. Outside that domain (a non-dividing tile, which strict_blocks=False accepts) the docstring's promise fails: C04_nondividing_refuted."
 ],
 "C06": [
  "proved",
  "Error bound for every offset; saturation to the reported range ends for integral offsets (for fractional offsets see C06_fractional_offset_refuted)."
 ],
 "C09": [
  "proved",
  "Upper end exact when the range is not narrower than float32 eps * (2^b-1); otherwise a superset. One-bit symmetric ranges divide by zero (C09_one_bit_symmetric_refuted)."
 ],
 "C10": [
  "partial",
  "Holds when max-min >= eps32*(2^b-1) (resp. scale >= eps32); a narrower range is widened by the eps floor: C10_narrow_range_refuted."
 ],
 "C100": [
  "proved",
  "For every graph of uses and every set of failing conversions; conversion of a single function is any function of the task. A member whose function is already converted as a helper is not converted again (C100_complete says so)."
 ],
 "C101": [
  "partial",
  "Proved when different tasks have different function objects. Refuted for inherited methods: calls of helpers in all but the last class that shares a method stay unquantized."
 ],
 "C102": [
  "partial",
  "Altering keeps meaning and distinctness if no value is called as another will be, names asked for if they differ from inner names and no value is both input and output; refuted otherwise. The repair of Reshape nodes is not modelled."
 ],
 "C103": [
  "partial",
  "Annotations of recorded FX nodes reach the file under final names, and only related specs do, if names of values and nodes are distinct; refuted for nodes sharing a name, unnamed nodes, several results and operators taken apart by the exporter."
 ],
 "C104": [
  "partial",
  "Refusal, computation, flag and the 53 shipped operators are proved for all supported types; refuted: pad's default, defaults of optional strings, operators without quantized result, optional lists of tensors, quantized tensors where plain ones are expected."
 ],
 "C105": [
  "partial",
  "Binding and acceptance are those of Python for operators with distinct parameter names, and the newest accepting overload is taken; refuted for unpacked arguments, positional-only and keyword-only parameters."
 ],
 "C106": [
  "partial",
  "Laws of lookup over all histories, exact condition of success, listing, loading and the shipped file are proved; refuted: a colliding alias leaves the refused operator in the table, and the documented lookup by fallback name needs an extension."
 ],
 "C107": [
  "partial",
  "Proved for the default masking number -inf; with a finite one the exact result is proved (C107_penalised), which differs from attention for fully masked rows with positive scores and for rows whose scores are all small (refuted), and negative scales are refused (refuted). exp is any positive function, floating point is not modelled."
 ],
 "C108": [
  "partial",
  "Strict mode is proved. That torch's function is not used otherwise is proved; that it is used where allowed is refuted: it is called, but its result is thrown away, and only its errors are seen."
 ],
 "C109": [
  "partial",
  "Proved for managers that are entered where they are made; refuted for a manager made before another one is entered: it restores the older dtype."
 ],
 "C11": [
  "partial",
  "Half-step accuracy whenever the result is finite, which always holds in asymmetric mode; symmetric mode on data with an all-zero tile yields NaN (C11_zero_tile_refuted)."
 ],
 "C110": [
  "partial",
  "Records are proved for all calls, structures and modules whenever the export succeeds. Removal of hooks is proved if the quantized run returns and its quantized tensors are static affine; refuted otherwise: hooks stay after an exception in the second run."
 ],
 "C111": [
  "partial",
  "Proved for flat arguments whose graph inputs are the positional arguments and keyword arguments, in any order if keyword arguments before positional ones are quantized. Refuted: a number among the arguments or a None among the outputs shifts encodings to other tensors, an unquantized keyword argument takes the encoding of a positional one, nested arguments make the export fail."
 ],
 "C112": [
  "partial",
  "Which classes get surrogates is proved in full. Conversion is proved to succeed except in three cases, each shown to raise: a quantized module without an entry (unless skipped), a plain torch.nn.Module container, and entries given only to surrogate_quantized_modules."
 ],
 "C113": [
  "partial",
  "Tags follow the attribute through every history (full). Refuted: a quantizer's own extra tags are lost without warning, a shared quantizer loses the tags of its first attribute, and an assignment that raises leaves the quantizer in place."
 ],
 "C114": [
  "proved",
  "ASCII digits only; sorted() of Python is modelled by a stable insertion sort."
 ],
 "C115": [
  "partial",
  "Proved for regular programs: the root returns results of nodes, other modules return one result or a tuple of several, results of skipped functions are not used, named tuples hold no results of nodes. Refuted otherwise: a constant among the results is dropped (C115_constant_refuted), a program that returns an input is not traced (C115_input_refuted), nor one that uses the result of a skipped function (C115_skipped_refuted), and a module that returns a tuple of one result seems to return the result itself (C115_tuple_refuted). torch.export and unflatten are not modelled: programs are what they give."
 ],
 "C116": [
  "partial",
  "Well-formedness, scheduling and names are proved for every program that is traced. Not all are: placeholders of different names may be given one name and the trace fails (C116_collision_refuted). Nodes need not differ in name (C116_names_refuted)."
 ],
 "C117": [
  "partial",
  "Every flow of every node that is no fold is bound as stated, for all graphs and set orders; what is refused is refused. Refuted for folds: binding what leaves a fold always raises KeyError, because folds are not in the topological order."
 ],
 "C118": [
  "partial",
  "Names, tensors, other attributes and the strict flag are restored in every case, and the exporter sees no uninitialised tensor unless one has two names. Refuted: uninitialised tensors move to the end of their table (which is described exactly), uninitialised transient buffers become persistent, and a parameter with two names stays uninitialised under the second. The exporter is assumed to leave registrations as it finds them; disabling quantization is covered by the override properties, not here."
 ],
 "C119": [
  "proved",
  "Proved for all histories. The consequence that the graph need not fit the inputs given now is C119_inputs_refuted."
 ],
 "C120": [
  "partial",
  "Proved for tensors with elements (agreement) and for floating point data with positive sizes (elements). Refuted by C120_empty_refuted (empty tensor with non-dividing blocks), C120_integer_data_refuted (integer data with a scale given as a number dequantizes to zeros) and C120_block_count_refuted (block_size is a size, not a number of blocks). Floating point rounding is not modelled."
 ],
 "C121": [
  "proved",
  "Agreement of the entry points is stated for tensors with elements, the half-step bound for floating point data, granularities with positive sizes and dtypes that hold the codes."
 ],
 "C122": [
  "partial",
  "Proved without explicit dtypes and, for values, with floating point dtypes. Refuted by C122_integer_storage_refuted (codes stored as integers) and C122_dtype_refuted (dequantize_dtype is ignored)."
 ],
 "C123": [
  "partial",
  "Proved for models whose quantizers are all stubs, forward passes without in-place results and with quantized values used only through the quantizer. In general refuted: initialized quantizers are never annotated (the disabling override runs first), and residual uses, two quantizers on one value and values computed from parameters only give wrong or missing tags."
 ],
 "C124": [
  "proved",
  ""
 ],
 "C125": [
  "partial",
  "Exact for expressions and patterns without repeated captures, and statements stay statements. Refuted: an expression can be replaced by a statement, a repeated capture matches two different nodes, parentheses around an expression keep it from matching."
 ],
 "C126": [
  "partial",
  "Holds when captured nodes and replacement are atoms (names, calls, parenthesised). Refuted in general: parentheses around a capture in the replacement are dropped, f(a + b) with f({x}) to ({x}) * y becomes the text a + b * y."
 ],
 "C127": [
  "partial",
  "What the loop stops at is proved for every run; termination is proved for rules that shrink the text. Refuted in general: f({x}) to f(f({x})) never ends, and parts of a result are not visited again."
 ],
 "C128": [
  "proved",
  "Inside its scope a restricted rule acts as the unrestricted one, elsewhere not at all; the filter by module name changes nothing."
 ],
 "C129": [
  "partial",
  "Proved when shared parameters have the same default object and no parameter is called data, quantize_params or dequantize_params. Refuted otherwise: equal defaults (1 and True) are both taken from dequantize; a parameter called data can never be given."
 ],
 "C130": [
  "proved",
  "Exact characterisation. The condition the docstring gives (shared parameters agree) is shown not to be enough: the merged order can put a required parameter after a default."
 ],
 "C131": [
  "proved",
  "Proved for all contexts and changes."
 ],
 "C132": [
  "partial",
  "Proved for functions without break, continue and try, with plain parameters, balanced if/else and simple with items. The full statement is false of the code: six refutations. Not modelled: attribute targets, comprehensions, nested functions and expressions as arguments."
 ],
 "C133": [
  "partial",
  "Proved for functions of expressions, assignments, if, return and raise. The full statement is false of the code: three refutations. Loops without inner if or break are not covered by the positive theorem."
 ],
 "C134": [
  "proved",
  "For every function of the modelled syntax."
 ],
 "C135": [
  "partial",
  "Every occurrence is covered by an annotation of its own expression at an enclosing block in functions without elif; expressions used in all branches are hoisted; numbering and correctness of the lists hold for all functions. False with elif: C135_elif_refuted (the else branch of an elif reads a variable made in the elif body only)."
 ],
 "C136": [
  "proved",
  "For any statement type, any block that is not empty and any list of insertions."
 ],
 "C137": [
  "partial",
  "Proved for functions without elif whose quantized attributes can be read at the start, belong to variables that are never assigned, and get new, different variable names. Each condition is needed: the five refuted theorems give a counterexample for each."
 ],
 "C138": [
  "partial",
  "Proved for pure quantizers, functions without _tmp_ names, nested quantizer calls, assignments between equal calls and calls under a condition. Four refuted theorems show that assignments in between, conditional expressions, elif and _tmp_ names of outer blocks break it in the code. while, with, comprehensions and nested calls are not covered."
 ],
 "C139": [
  "partial",
  "Proved when no argument of a quantizer call contains a quantizer call; false otherwise (C139_nested_calls_refuted). That a function without repeated calls is unchanged holds for all functions."
 ],
 "C14": [
  "partial",
  "Proved for reshape/view, transpose, indexing (per tensor and per channel), expand, take_along_dim, contiguous, scalar multiply, unsqueeze (per tensor, per tile). Not true of the code: unsqueeze on per-channel data (C14_unsqueeze_per_channel_refuted), cat of a tensor without and one with an offset (C14_cat_refuted), topk with a negative scale (C14_topk_refuted)."
 ],
 "C140": [
  "partial",
  "Proved for targets whose inner displays have no starred element; C140_nested_star_refuted shows that the code loses the starred variable of an inner display."
 ],
 "C141": [
  "partial",
  "Proved for values without starred elements and targets without one-element displays and inner stars. False otherwise: C141_single_element_refuted and C141_starred_value_refuted."
 ],
 "C142": [
  "partial",
  "Proved when submodules that the graph reads as values contain no submodules; otherwise false: C142_module_read_as_value_refuted (torch's deletion of unused submodules takes what is inside them). What torch.fx does is modelled from its documentation."
 ],
 "C143": [
  "partial",
  "The refusal is characterised exactly. That no quantizer is left is proved except inside modules that the graph calls, where it is false: C143_called_module_refuted. Assumes that no parameter of the captured module has the path of a quantizer."
 ],
 "C144": [
  "proved",
  "What torch.fx does (lint, dead code elimination, deletion of unused submodules) is modelled from its documentation."
 ],
 "C145": [
  "partial",
  "Proved for programs whose convolutions pad with zeros and whose modules do not change the tensor they are given (in-place activations behind another layer are covered). Refuted otherwise: C145_padding_mode_refuted (padding_mode is ignored), C145_in_place_refuted."
 ],
 "C146": [
  "proved",
  "Embeddings with a maximal norm and without weight quantizer are excluded by hypothesis: torch changes their weight in place."
 ],
 "C147": [
  "proved",
  "Acceptance is characterised exactly; right after conversion every module but a sequential is refused."
 ],
 "C148": [
  "partial",
  "For code with a letter, a digit or an arithmetic symbol; otherwise an assertion fails (refuted by ... and ())."
 ],
 "C149": [
  "partial",
  "Numbers go by code (C149_numbers_go_by_code). Different names are refuted: self.a.b and self.a_b have the same name; only plain names are proved to differ."
 ],
 "C150": [
  "partial",
  "For visitors that do not answer with several statements; a visitor that needs metadata may leave several, of which all but the first are dropped without an error (refuted)."
 ],
 "C151": [
  "proved",
  "Names within ASCII."
 ],
 "C152": [
  "partial",
  "Options that name output_dir or model_name win over the request, and a request for an unknown target is refused only after its directory was made (both refuted)."
 ],
 "C153": [
  "proved",
  "getattr raises nothing but AttributeError."
 ],
 "C154": [
  "partial",
  "For objects found in their module under their qualified name, without a submodule of that name; the case of torch's functions in fully_qualified_name is not modelled."
 ],
 "C155": [
  "partial",
  "Proved for calls super().m(...) in methods when the class is bound to its name in the generated module. False for super().x, super().x.m() and f(super()), which are left as they are, and for class methods. Statements, nested functions and the binding of the class name are not modelled."
 ],
 "C156": [
  "proved",
  "The tests of types of nodes are arbitrary predicates. The generator is modelled by the list it yields, so changes of the tree during the search are not modelled."
 ],
 "C157": [
  "proved",
  "For tokenizers whose columns have one length; with columns of different lengths the pieces of the others can be short, which is shown. Lengths are natural numbers; length 0 raises ZeroDivisionError."
 ],
 "C158": [
  "partial",
  "Proved for positive limits up to the number of items, and without limit. With limit 0 the total is the number of all items though none is shown, and a limit beyond the end is kept as the total."
 ],
 "C159": [
  "partial",
  "Proved for methods that attribute lookup finds and whose first parameter is positional. False if a class hides a method of a parent by another value, and for signatures that begin with *args. Wrapped functions are not modelled."
 ],
 "C16": [
  "proved",
  "For histories that register each kernel/predicate pair at most once; removing one of two identical registrations removes the other one (C16_duplicate_removal_refuted)."
 ],
 "C160": [
  "proved",
  "Names, directories and existing files are modelled; rights, links, full disks and other processes are not."
 ],
 "C161": [
  "partial",
  "Proved: the file is as before or has a beginning of the new code, and other files do not change. That it has the old or the new code is false: the file is emptied when it is opened."
 ],
 "C162": [
  "partial",
  "Proved for ids below the size of the model and, for distinct tokens, for vocabularies without tokens of the form [PADi]. Tokens with larger ids are left out without an error, and a token [PADi] can be there twice. Merges and special tokens read by other libraries are not modelled."
 ],
 "C163": [
  "partial",
  "Proved for trees whose root can have comments and keeps its type. The warnings of a root that is replaced by a node of another type are lost. Transformers that drop nodes with comments are not modelled."
 ],
 "C164": [
  "partial",
  "Proved for modules without conditions in which no class is followed by another definition of its name. False with conditions, where the last definition in the text is taken, and for classes that are defined again, whose old members are still found. Assignments and the resolution of aliases are not modelled here."
 ],
 "C165": [
  "partial",
  "Proved: results are fixed, and if qualified names lead back to objects the resolution ends after two calls at the same object. Functions that have the names of each other lead to RecursionError."
 ],
 "C166": [
  "partial",
  "The order, the maximum, the shapes, the value of one entry and the average over batches are proved over rationals. Refuted that the ratio of an exact copy does not depend on the original: zeros have ratio 0, and scaling changes it, because of eps. Missing: rounding, decibels, empty tensors."
 ],
 "C18": [
  "proved",
  "Holds for with-blocks. A stored context object entered a second time does not give its value inside (C18_reused_context_refuted)."
 ],
 "C19": [
  "partial",
  "Holds for overrides that call their callback at most once per call; an override that calls it twice bypasses the remaining overrides the second time (C19_second_call_refuted)."
 ],
 "C21": [
  "partial",
  "Refuted: the overrides are never removed (C21_ends_refuted) and activation quantizers become stubs too (C21_activation_refuted). The frozen value itself is right: C21_frozen_partial."
 ],
 "C22": [
  "partial",
  "Holds for non-re-entrant calls that return, with one handle per module; refuted for exceptions, re-entrant calls and two handles on a module."
 ],
 "C25": [
  "partial",
  "Holds for every grid with exactly the requested number of candidates (incl. symmetric, perfect squares); refuted for the asymmetric uniform grid when the number of candidates is not a perfect square: C25_uneven_grid_refuted"
 ],
 "C26": [
  "partial",
  "Holds once all quantizers are prepared, for every body and exception point in the body; refuted when preparing a later quantizer raises: C26_prepare_error_refuted"
 ],
 "C27": [
  "partial",
  "Proved for trees (or any acyclic module graph when already quantized modules are skipped) without entry-less plain torch.nn.Module containers; unsupported classes raise before any change. Refuted: an entry-less torch.nn.Module container, or a module shared by two parents without skip_quantized_modules, makes quantize_model raise after converting part of the model."
 ],
 "C28": [
  "proved",
  ""
 ],
 "C29": [
  "proved",
  ""
 ],
 "C30": [
  "proved",
  "Assumes quantizers do not contain quantizers among the targets and factories return; a quantizer held under two attributes is replaced only at the location of the winning search result."
 ],
 "C31": [
  "proved",
  "Under 'error' the stubs before the first concrete quantizer stay initialized; the theorem says exactly which."
 ],
 "C32": [
  "partial",
  "Full for tensors whose key (address, shape, stride, device) determines the dtype; refuted for a view with another dtype, and for views with another shape or layout (kept apart)."
 ],
 "C33": [
  "partial",
  "Round trip proved for describable quantizers with plain names; refuted for a quantizer without parameters, a module registered under two names (default policy), a comma in a module name, and a dtype changed after construction."
 ],
 "C34": [
  "proved",
  "All three policies as stated, for every saved state and model; a load that fails under 'error' is not undone (refuted atomicity)."
 ],
 "C35": [
  "partial",
  "Holds for quantizers that are stable (linear quantizers whose codes fit the weight's float format) and weights that are equal or disjoint views. Fails for rounding in narrow formats, and for modules that share a fused weight without quantizing it."
 ],
 "C36": [
  "partial",
  "Holds if views of one storage are equal or disjoint. Fails for ties through a reshaped or transposed view, and for one non-idempotent quantizer instance shared by modules."
 ],
 "C37": [
  "partial",
  "Proved for every layer and dataset in which no tensor that is scaled in place occurs twice: value, independence of order and splits, refusals. Refuted: the calibration tensors are scaled in place, so a repeated tensor, or the same dataset for a second layer, gives another Hessian."
 ],
 "C38": [
  "partial",
  "Fixed point, on-grid values, the full recurrence and its uniqueness, totality and refusals are proved for every weight, granularity, Hessian factor, column order and positive block size, over exact arithmetic with one final rounding to the weight's format. Refuted for symmetric scales of groups that are all zero (division by zero). Not modelled: rounding inside the float32 loop."
 ],
 "C39": [
  "proved",
  "Exactness and termination on every acyclic module graph in which no module holds one child under two names; outside it, refuted (C39_two_names_refuted)."
 ],
 "C40": [
  "partial",
  "Proved when no alternative consists of ** only; otherwise refuted: results missing, an alternative dropped, or a search that never ends."
 ],
 "C41": [
  "proved",
  "Also for regex fragments whose pattern has no brackets or double quotes; for bracket patterns and names such as 1x1 refuted."
 ],
 "C42": [
  "partial",
  "Set operations are exact on entries (name, module, parent, attribute), hence on modules for collections with one entry per module, such as answers on trees; refuted for shared modules."
 ],
 "C43": [
  "proved",
  ""
 ],
 "C44": [
  "proved",
  ""
 ],
 "C45": [
  "proved",
  ""
 ],
 "C46": [
  "partial",
  "Proved for every graph whose constants are used as such and whose items of items belong to nodes that are evaluated: outputs, optimizer bundles, order of optimizers, exact errors. Not true of the code otherwise: items of constants (C46_item_of_constant_refuted), items of items of unused nodes (C46_unused_node_refuted)."
 ],
 "C47": [
  "proved",
  "Calls, arguments, results and errors are the same for every program; everything mentioned is deleted right after its last mention; after the run only outputs are kept (programs whose only return is the last instruction)."
 ],
 "C48": [
  "partial",
  "Instructions kept in order for every program; the same bundles for every scheduled program without side effects in calls and with some optimizer context. Not for every program: C48_stored_value_refuted, C48_side_effects_refuted."
 ],
 "C49": [
  "partial",
  "Same results for every orderly program up to field names of tuples; weights restored after every program that does not return. Not true of the code otherwise: C49_return_refuted (programs with outputs never restore), C49_exception_refuted, C49_other_operation_refuted, C49_named_tuple_refuted, C49_unused_node_refuted."
 ],
 "C50": [
  "partial",
  "Proved for programs without items, with tensors in tuples, lists and dictionaries, whose first module is not the last one listed by the graph (or starts on the compute device, untied). Not true of the code otherwise: C50_first_module_refuted, C50_two_items_refuted, C50_other_objects_refuted."
 ],
 "C53": [
  "proved",
  "exec over nested override programs with exceptions; blocks that do not nest (threads) do not restore (refuted)"
 ],
 "C54": [
  "partial",
  "proved while the class name of the manager is used by no other manager or generator; refuted for two managers of one class, and declared flows never reach the engine"
 ],
 "C55": [
  "partial",
  "Values are preserved (C55_values_partial) whenever reduce_resolution returns, if calling the module of a fold gives the values of its exposed leaves in the order in which they were added; for spans and groups also if node arguments are tensors, arguments are no items of items, and graph outputs are no items. Success is proved for regions that are apart and can be computed in one go (C55_succeeds_partial). The full statement is false: see the refutations."
 ],
 "C56": [
  "proved",
  "Every pipeline the API can make, including raw depends_on wiring and stages of other pipelines; stage functions and the metric are arbitrary and may raise."
 ],
 "C57": [
  "partial",
  "insert_stage_before is as documented. insert_stage_after and replace_stage put the new stage last among the inputs of a dependent instead of in the target's position (refuted with a run whose result changes); insert_stage_after does not run immediately after the target; insert_stage_before with explicit dependencies need not run before it."
 ],
 "C58": [
  "proved",
  "add_dependency raises ValueError exactly if the edge closes a cycle; every history of the pipeline's own methods leaves it executable."
 ],
 "C59": [
  "partial",
  "Q4_0 is proved end to end from the model's parameters to the bytes read with llama.cpp's formula (built-in adapters, quantizers without offset, scales below 65520, exact for binary16 scales and with the rounding error bound otherwise). Q8_0 is proved only when no code is -128. Refuted for code -128 in Q8_0 (C59_q8_0_minimum_refuted), for one-sided quantizers whose offset is dropped (C59_one_sided_refuted) and for scales from 65520 on (C59_scale_overflow_refuted)."
 ],
 "C60": [
  "proved",
  "Row index, its permutation property, the documented row moves and the joint move of codes and block scales, for any head count and row count; the end-to-end row order is C59_export_llama_q4_0."
 ],
 "C61": [
  "proved",
  "For every quantizer with the two supported block layouts. An encoding is also made if only some offsets are zero; then the offsets are lost (C61_offsets_dropped_refuted)."
 ],
 "C62": [
  "partial",
  "Values: 1.0.0 and 0.6.1 schemas for every accepted quantizer; 2.0.0 if all offsets are zero, or all are non-zero and the quantizer is not block-wise. Flag: if all offsets are zero or none is. Refuted otherwise: a quantizer with some zero offsets is flagged symmetric and its 2.0.0 entry loses the zero points; block zero points follow another convention; 1.0.0 block entries do not record the axis."
 ],
 "C63": [
  "proved",
  "For every history of add_encoding (including calls that raise) and clear, on each of the three handlers, and for the extraction from an ONNX graph."
 ],
 "C64": [
  "partial",
  "Never overwrites, only copies along views, terminates: proved. Completeness: everything derived from an annotated tensor and everything an annotated tensor is derived from; all connected tensors if no tensor has two views or annotated views have annotated inputs. Refuted in general: a sibling view listed earlier is missed."
 ],
 "C65": [
  "partial",
  "Proved for modules that are no packages, wherever Python accepts the import, and for absolute imports everywhere. Refuted for a package's own module and for imports Python rejects, which are given a name."
 ],
 "C66": [
  "proved",
  ""
 ],
 "C67": [
  "partial",
  "Holds for every granularity except PerBlock, whose equality ignores all fields: C67_granularity_equality_refuted."
 ],
 "C68": [
  "partial",
  "Holds for all floating point dtypes and for signed integer dtypes with at least num_bits bits; the check itself accepts narrower and unsigned integer dtypes: C68_int_storage_refuted."
 ],
 "C69": [
  "partial",
  "Holds for nested traces; overlapping blocks leave the flag changed (C69_interleaved_blocks_refuted)."
 ],
 "C72": [
  "partial",
  "Exact when the other metadata has every attribute; refuted otherwise: a missing attribute raises KeyError."
 ],
 "C73": [
  "proved",
  "For the three shipped adapters and parameter names without newline characters (C73_newline_refuted shows the names are not kept apart otherwise)."
 ],
 "C74": [
  "partial",
  "Proved for quantized projections; refuted for unquantized ones, which the transform returns unchanged (C74_float_row_order_refuted)."
 ],
 "C75": [
  "partial",
  "For quantizers with an offset tensor; a quantizer without one cannot be annotated (C75_no_offset_refuted)."
 ],
 "C76": [
  "proved",
  "Operators are arbitrary functions; kwargs and non-node arguments are part of the operator."
 ],
 "C77": [
  "partial",
  "Proved if every quantized tensor is read through its one quantizer only. Refuted for tensors also read raw or through two quantizers: different models give the same annotated graph."
 ],
 "C78": [
  "partial",
  "Proved for per-tensor quantization with every view and for views that keep the tile of every element. Refuted for per-channel quantization and a transpose."
 ],
 "C79": [
  "partial",
  "Proved for per-tensor and per-channel (any axis) quantizers with 4, 8 or 16 bits whose zero points fit the storage type: decoded values agree, codes agree up to one step, and exactly unless x/scale is a tie and the offset odd. Refuted at such ties, for zero points outside the type, for block tiles (scales silently applied to columns) and for fractional bit widths (silently truncated)."
 ],
 "C80": [
  "proved",
  "Merged options and table characterised; errors characterised exactly."
 ],
 "C81": [
  "partial",
  "Proved for names and tags where '/' is the only replaced character and hyphens and slashes are not adjacent; refuted for tags and names that map to one directory, and for the tag '..'."
 ],
 "C82": [
  "partial",
  "Proved for targets that tie no more weights than the source; refuted for a target that ties weights the source does not."
 ],
 "C83": [
  "partial",
  "Proved whenever group scales are not recomputed; refuted with recomputed groups and for negative block sizes."
 ],
 "C84": [
  "partial",
  "Proved: exactly which corrections enter a group's range, and the full claim if the group width is a multiple of the block size. Refuted otherwise."
 ],
 "C85": [
  "partial",
  "proved with targets, with explicit specs and for functions registered themselves; refuted for partials without targets"
 ],
 "C86": [
  "proved",
  "queries and user selectors are arbitrary functions"
 ],
 "C87": [
  "partial",
  "Batches of one kind (all dictionaries, all tuples or lists, or all objects), with string items that raise only KeyError and TypeError and agree with attributes. Refuted in general: named tuples are bound by position, a tuple given as the value of the only input is split, and later batches of other lengths are cut."
 ],
 "C88": [
  "partial",
  "Values, acceptance, refusal of ill-fitting arguments and folds are proved in full. Refuted: a subgraph inlined twice is refused only after the fold was inserted, so the graph changes."
 ],
 "C89": [
  "partial",
  "Proved for inputs and outputs added before the first call, and after any added node or subgraph. Refuted in general: the cached program is not dropped by add_input and add_output."
 ],
 "C90": [
  "partial",
  "Proved for all programs in which nothing unstable is evaluated before a moved operation and none moves out of a lambda, the second operand of and/or, the message of assert or the cause of raise; splitting and marking are exact for all programs. Refuted in general: short circuit, lambda bodies, order of attribute reads and of assignment targets, assert messages, variables named _tmp_n."
 ],
 "C91": [
  "partial",
  "Proved exactly when in-place operators are the binary operators and the parts of the target are stable. Refuted: f(x)[0] += 1 calls f twice; operands are no longer changed in place."
 ],
 "C92": [
  "proved",
  "For every program; conditions of if, while and for keep their operations, as the statement of isolated says."
 ],
 "C93": [
  "proved",
  "For every expression of the modelled syntax (chained comparisons and yield are left out)."
 ],
 "C94": [
  "partial",
  "Proved: completeness for names not bound by dotted imports and for dotted imports used in full; everything imported is bound to the same thing in the module and hides no local name or builtin; imports of several functions merge without loss where they agree. Refuted: parts of dotted imports, module names of builtins, attributes of unnamed values called like module names, names bound twice, functions of different modules that use one name for different things. Star imports, class scopes and the fallback of ImportSymbol are not modelled."
 ],
 "C95": [
  "partial",
  "Proved for every call graph: calls pass only declared parameters, none twice, from values the caller has. Proved for acyclic graphs in which no helper called by a called function calls another helper twice: every parameter is passed, bound along every path, and paths share nothing. Refuted: a helper called twice by a helper two calls away from a method. Default arguments and the names of parameters are not modelled here."
 ],
 "C96": [
  "partial",
  "Proved for all acyclic call graphs. Refuted for circular calls: a program of four functions on which the loop goes round forever."
 ],
 "C97": [
  "partial",
  "Proved for all histories that make all references before asking for names: names are known, steady and, if no name begins with the prefix or is another name with a number, distinct; declared quantizers are exactly those used. Refuted: names ending in numbers, names with the prefix, references made after names were asked for, parameters that already have the name."
 ],
 "C98": [
  "partial",
  "Proved for all types and requests: names are always found, class names are distinct, base names are distinct, helper names are distinct from each other and from classes and methods, and plain names are kept. Refuted: a class name can be the name of an imported base class, a helper name that of an import."
 ],
 "C99": [
  "partial",
  "Proved for all expressions without keywords called like a helper and all environments in which names of helpers stand for them; which names are mapped is characterised exactly. Refuted: keywords, and names that stand for something else. Parameters, assignments and comprehension scopes are not modelled."
 ]
}