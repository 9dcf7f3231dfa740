# Formal model of fastforward in Rocq (Coq 8.16.1)

## 1. Layout and method

Each area `Foo` of the code base has up to four files in `rocq/theories/`:

* `FooModel.v`  - the code, function by function, as total computable Gallina
  functions. Each definition cites the lines in `/repo` it models and says
  where it simplifies. Exceptions are values (`option`/`result`).
* `FooSpec.v`   - the small, independent vocabulary the theorems are stated in
  (what an element of a tile is, what a path matches, what reachability is...).
  It does not use the model's helpers.
* `FooProofs.v` - lemmas.
* `FooThms.v`   - only the property theorems, each closed by `exact lemma.`,
  followed by `Print Assumptions` and by an `Example` which shows that a
  concrete, non-trivial case meets its hypotheses.

Where the code does not satisfy the property a user would expect, there is a
theorem `..._refuted : exists ..., ~ ...` with a concrete witness run through the
model, plus a theorem that states what does hold (with suffix `_partial` when it
is weaker than the property).

Properties are listed in `properties.jsonl`; `MANIFEST.json` maps them to theorems.
`seeded/LOG.jsonl` records the mutation experiments.

## 2. Trusted base

* Coq's kernel (8.16.1).
* `Print Assumptions` of every theorem: see section 5 (target: "Closed under the
  global context"; no axioms of our own).
* The reading of Python/PyTorch semantics encoded in the model files:
  - numbers: tensors of floats are modelled by exact rationals (`Q`), i.e. no
    floating-point rounding, no NaN/inf. `torch.round` is round-half-to-even.
  - tensors: a shape plus a flat row-major list of elements; `reshape` keeps the
    list, `permute` is defined on multi-indices.
  - Python dicts are association lists in insertion order; sets are lists up to
    membership; object identity is a natural number.
  - user callbacks (modules, predicates, metric functions, delegates) are
    arbitrary functions, universally quantified in the theorems.
* Not modelled: autograd machinery of PyTorch itself, CUDA/compile paths, file
  formats (safetensors/yaml/onnx/gguf byte containers beyond the block packing),
  libcst based source rewriting in `_autoquant` (except relative import
  resolution), torch.export tracing, HF tokenizers, the `testing` package.

## 3. Per property plan

| id | what is modelled | how it is proved |
|----|------------------|------------------|
| C01 | `tiled_tensor.py` reshape/permute/reshape on shape + flat data | index bijection; round trip by algebra of mixed-radix numbers |
| C02 | same | explicit formula for the flat position of (tile, position in tile) |
| C03 | `granularity.py` tile_size / parameter_dimensionality | case analysis, divisibility |
| C04 | `granularity_from_sizes` | case analysis |
| C05-C08 | `_quantizer_impl.py` quantize/dequantize per element over Q | properties of round-half-even on Q, clamp |
| C09-C10 | `range.py` | field/linear arithmetic over Q by branch |
| C11 | `quantize_dynamic_by_tile_impl` | C09 + C06 with offset rounding |
| C12 | tile-wise quantize on tensors | C02 + map over rows |
| C13 | `quant_dequant_by_tile_grad_impl` | pointwise evaluation |
| C14 | `_linear_quantized_ops.py` | commutation lemmas; refutations for `unsqueeze`, `cat` |
| C15 | `__torch_function__` + fallback | case analysis over dispatch result and flag |
| C16-C17 | dispatcher table with bisect insertion | sortedness invariant by induction over histories |
| C18 | flag contexts as a small language of nested blocks with raise | structural induction over programs |
| C19-C22 | override lists, handles, disable/enable, freeze, strict handle | invariants over operation histories; refutations |
| C23-C26 | range estimators as folds over batches | induction over histories; refutation for non-square grids |
| C27-C29 | module trees with identities | induction over trees |
| C30-C31 | rule scoring fold, policies | induction over rule lists |
| C32-C34 | state dict dedup/expand, metadata strings, load loop | induction over dicts; string split/join lemmas |
| C35-C36 | fuse | uses C07, C12 |
| C37-C38 | gptq over Q matrices | induction over batches / columns |
| C39-C42 | mpath selectors, DFS search, parser, collections | invariants of the DFS; parser/printer induction |
| C43-C45 | graph algorithms (Kahn, BFS closure, iterative DFS) | loop invariants |
| C46-C52 | instruction engine: scheduler, engine, passes | simulation by induction over instruction lists |
| C53-C54 | registries | histories |
| C55 | graph coarsening (`reduce_resolution`, spans, groups, folds) | value preservation by an invariant on the rewiring context; success by the order of regions; delegates; refutation witnesses |
| C56-C58 | export pipeline DFS and edits | DFS invariants |
| C59-C63 | GGUF packing, RoPE permutation, LPBQ, encodings | bit/integer arithmetic, permutation lemmas |
| C64 | spec propagation worklist | invariant; refutation of completeness |
| C65-C66 | relative imports, tags | list lemmas |
| C67-C72 | granularity equality, storage dtypes, tracing flags, search grid, calibrated ranges, metadata extension | case analysis, histories, C09/C23 |
| C73-C74 | GGUF names and tensors of whole models, Llama row order | string lemmas, permutation lemmas |
| C75 | annotations and ONNX metadata | algebra of the offset encoding, composed with C62 |
| C76 | annotation pass over FX node lists, node-by-node graph runs | loop invariant; runs as unique solutions of the node equations |
| C77 | annotated graphs read through fake quantizers | same; refutation by two graphs with one result |
| C78 | tile-wise quantization and re-indexing views | elementwise characterisation (C01); refutation on a transpose |
| C79 | QDQ lowering functions; ONNX QuantizeLinear/DequantizeLinear by elements as specification, cast arbitrary outside the range | rounding shifted by an integer, axis recovery, elementwise characterisation (C01); refutations |
| C80 | option merging on association lists | case analysis of the merged dictionary |
| C81 | cache directories as resolved paths, a map from directories to saved states | induction over save histories; injectivity of the name mangling |
| C82 | weight entries of a state dict, deduplication, loading into storages | composition of the C32 lemmas |
| C83 | GPTQ block loop, block size as a parameter | both runs satisfy the same recurrence, which has one solution; refuted for groups that start inside a block |
| C84 | GPTQ group scales: range of the corrected group | invariant of the column loop; refuted for groups that start inside a block |
| C85 | target resolution of layerwise_optimize | case analysis over resolve; refuted for partials without targets |
| C86 | normalize and the selectors | induction over nested targets and selectors |
| C87 | _sanitize_inputs and forward on top of the engine model | case analysis on the first batch, then the engine's simulation theorem |
| C88 | add_input, add_node, add_output, add_subgraph on graphs with object identities | induction over the subgraph's nodes; invariant over built graphs |
| C89 | forward with its program cache, histories of additions and calls | invariant over histories; engine's simulation theorem |
| C90 | the preprocessing passes on a small Python with arbitrary semantics of calls, operators and the world | simulation by induction on expressions and statements |
| C91 | ExpandAugAssign | equality of executions |
| C92 | the passes in sequence | induction on programs |
| C93 | MarkReplacementCandidates | induction on expressions |
| C94 | dotted names as part lists, libcst's scopes as binding lists, expressions as names, attributes and parts | completeness by induction on expressions, soundness by case analysis of bindings; refutations |
| C95 | functions as lists of references to callees, quantizers as traces of call positions, propagation as the loop over functions with its set of seen traces, signatures and calls | a fixed point of the loop is the set of paths; path semantics of calls by induction on paths; refutation by a helper called twice |
| C96 | the same loop with fuel that is an error when it runs out | ends when the call graph has a rank; a periodic orbit refutes it for circular calls |
| C97 | references as positions with name, context and cached name; histories of making references and asking for names | names as a function of the finished collection, injectivity of numbered names; refutations by clashing names |
| C98 | the allocator with its sets of used names, the search for a free suffix with fuel | search never runs out of fuel (pigeonhole), invariant over requests; refutations |
| C99 | expressions as names, attributes and calls with keywords, the name map with its ambiguous names | induction on expressions over all meanings of names and calls; refutations |
| C100 | tasks as functions or class members, conversion as any function from tasks to found tasks, the queue with fuel | invariant of the queue, well-founded induction on unconverted tasks and queue length |
| C101 | the table of builders keyed by function object, last entry wins | characterisation of the table; refutation by an inherited method |
| C102 | Graphs with values as numbers and names apart; `_fix_onnx_names`, `_rename_onnx_input_output_names`, serialization by name (OnxModel); meaning of graphs by value and of files by name for any operators. | Folds over values with the mapping of names as invariant; simulation of environments under an injective naming; refutations by clashing names. |
| C103 | Annotator with recorded FX nodes, copy of annotations by name, the stages in order (OnxModel). | Characterisation of the annotations of the final file by values and final names; refutations for shared names, several results, operators taken apart. |
| C104 | Symbolic types, `Operator.from_spec`, what the generated guards and fallbacks do, the dispatching function (OpsModel); the operators of the YAML file, transcribed by tools/gen_optable.py (OpsTable); torch, kernels and quantizers are arbitrary functions. | Case analysis of guards under a description of supported types (OpsSpec), induction over parameters and lists; a decision procedure, proved sound, for the file; refutations for other types and defaults. |
| C105 | `_bind_partial`, `validate_arguments`, lookup of the counterpart of a call (OpsModel). | Binding as `firstn`/`skipn` of the parameter list by induction over the arguments; equivalence with Python's rule (`accepts`, `given` in OpsSpec). |
| C106 | `OperatorTable`: groups of operators, index of functions, names; `append_operator`, aliases, `add_alias`, `from_yaml`, lookup (OptModel); importing is an arbitrary partial function. | Invariant over histories (each operator lives in the group of its function); laws of lookup after each action; loading by induction over the rows. |
| C107 | sdpa.py: attention with masks, grouped queries, safe softmax over numbers, -inf and NaN; exp is any positive function, the root and dropout are arbitrary (SdpModel). | The sums of the code are shown to be finite, then equal to a mean (`attend` in SdpSpec); locality and bounds follow from the mean; refutations for finite masking numbers and negative scales by computation. |
| C108 | The checks of strict mode before each step, the choice between torch, kernel and the function above (SdpModel). | Inversion of each step; case analysis of settings. |
| C109 | The context manager for the dtype: programs of with statements, exceptions and managers kept in variables (SdpModel). | Induction over programs; a counterexample for managers made early. |
| C110 | _io_capture.py and export_modules: trees with flatten and unflatten, hooks on a sequence of calls, both runs (CapModel); the model is an arbitrary sequence of calls with an arbitrary exception, the exporter an arbitrary function. | Unflattening preserves relations between leaves (induction over trees); the last call by induction over calls; hooks by cases; refutations by computation. |
| C111 | maybe_extend_encodings_file on the handlers of EncModel (CapModel). | Induction over graph inputs: the additions are those of C63, in order; refutations for numbers, None and nested arguments. |
| C112 | surrogate_quantized_modules over the module graphs of ModulesModel; new classes are numbers not used before (QmModel). | The listing of modules (C29) gives the keys; success from the conversion theorem of C27; refutations by computation. |
| C113 | register_quantizer and __setattr__ on worlds of metadata objects, quantizers and modules, with all steps of a user (QmModel). | Induction over histories: metadata only grows, remembered references stay, references are valid; refutations by computation. |
| C114 | _summarize_quantizers and _deduplicate_quantizer_names on strings (QmModel). | Grouping and stable sorting by induction; splitting and joining of names is injective on names without dots in parts. |
| C115 | The graph builder of trace.py over exported programs (trees of fx graphs), user code as functions (TrcModel); the program is run by a small interpreter (TrcSpec). | Invariant on the graph under construction (TrcProofs), then values of references agree with the interpreter's environment, by induction over nodes, arguments and nested modules; inlining by the lemmas of C55; calling by C89. |
| C116 | As C115; names of placeholders as strings (TrcModel). | Nodes refer to nodes before them, so positions decrease along edges: no cycles, and C43 gives the schedule; names by string lemmas. |
| C117 | bind_flows over graphs, sets as lists in arbitrary order, sorting by position in the topological order (BndModel). | Sorting by distinct keys gives the topological order filtered; C43 and C44 give order and ancestors. |
| C118 | Modules with tables of parameters and buffers, delattr and registration, the loops of the context manager with their failures; the exporter is an arbitrary function (UniModel). | Replacements in one module are a function of the replacements listed for it; moving entries to the end twice gives the filtered table followed by the moved entries. |
| C119 | The cache as a dictionary from modules to graphs; histories of calls and destructions (UniModel). | Induction over histories: the cache holds the first success of each module. |
| C120 | The functions of static.py, the quantization function, its autograd wrappers and the kernels, with dtypes of data, codes and results (EntModel). | The entry points reduce to one call with equal tiles; scalars are broadcast to one number per tile, and the element-wise theorems of C12 are lifted to the entry points. Refuted for empty tensors, integer data and the documented meaning of block_size. |
| C121 | The functions of dynamic.py, inference functions as arbitrary functions, and the dynamic kernel on tensors (EntModel). | The dynamic kernel is the static kernel with the inferred parameters, because rounding rounded offsets changes nothing; the error bound is that of C06 with the range of each tile. |
| C122 | The export branch of the quantization function and attach (EntModel). | Both branches run the same kernels; equality of the dtypes decides equality of the results. Refuted for integer storage and explicit result dtypes. |
| C123 | Tracing tensors with identity, the annotating override on top of the override model, forward passes as lists of operator applications and quantizer calls (AnnModel). | Invariant over the forward pass relating objects to the variables' data flow; refuted in general by four counterexamples. |
| C124 | Same. | Registration and removal cancel over any history of overrides; the disabling override runs first. |
| C125 | Syntax trees with captures and parentheses, matching, substitution, the statement wrapping of apply (PatModel). | Matching is inverse to instantiation by induction on the pattern; three refutations. |
| C126 | Token texts of sums, products, calls and Python's grammar for them (PatSpec). | Substitution lemma over derivations of the grammar; refuted where a replacement groups a capture by parentheses. |
| C127 | The loop over the rules with the texts seen, the visit of a tree (PatModel). | Invariant of the loop; termination by a measure; an endless rule and a leftover as refutations. |
| C128 | Scope stack, prefix test, filter by module name (PatModel). | The loop depends only on the rules that match the scope; string prefixes from dotted prefixes. |
| C129 | Signatures, keyword binding, the merged parameter class and the made functions (CqfModel); bodies are arbitrary. | Binding through the parameter class is binding directly, by lookup lemmas; refuted for equal but different defaults and for a parameter called data. |
| C130 | Same. | Characterisation of each check; the documented condition refuted by the order of merged parameters. |
| C131 | Contexts as a function and fields with object identities (CqfModel). | Lookup lemmas. |
| C132 | The analysis (scopes, assignments, merging, two visits of loops, annotations) and a separate small semantics of the rewritten function: all paths, values tagged as quantized or not (QanModel, QanSpec). | Bundle of facts by induction on syntax: after a normal run the binder of every variable is among the analysed definitions; then no path faults. Refuted for one-sided else, break, continue, try, keyword-only parameters and with items. |
| C133 | Same model; errors of the analysis are values (QanModel). | Induction on syntax with disjointness of recorded definitions, for loop-free functions. Refuted for an if in a loop, nested breaks and code behind a with that returns. |
| C134 | Same model (QanModel). | Invariant over all operations of the analysis, every program. |
| C135 | Recording of attribute expressions in a tree of scopes, the resolve step that moves them up, numbering of quantizers (NlbModel). | The tree of a block is written as an equation over its branches; induction over branches. Refuted for elif. |
| C136 | Insertion with first use, docstring offset, stable sort and merge (NlbModel). | The result equals a weave of the block with gaps, for any statement type. |
| C137 | Rewriting of blocks with replacement of occurrences, inserted statements; a small interpreter with abstract values, attributes and operators as specification (NlbModel, NlbSpec). | Simulation by induction on syntax: the new variables in scope hold the quantized values. Each side condition is shown to be needed by a counterexample. |
| C138 | Keys of calls, scan for taken names, first occurrences and counts, allocation, replacement, insertion with a running offset, and the repeated visits of inner blocks (DdpModel); an interpreter with abstract values as specification (DdpSpec). | Simulation by induction on the statements of a block: a shared variable holds the value of its call from the first to the last use; the frame rule keeps it. Each condition is shown to be needed by a counterexample. |
| C139 | Same model. | The treated block is a permutation of the inserted and the replaced statements; counting. Refuted for nested calls. |
| C140 | Matching of target and value displays with and without starred elements, unpacking of nested targets (NrmModel). | Mutual induction on targets. Refuted for starred elements of inner displays. |
| C141 | Same model; Python's evaluation of displays and unpacking with abstract values as specification (NrmSpec). | Mutual induction on targets, with the bindings cut into one segment for each part. Refuted for one-element targets and for starred values. |
| C142 | Pruning of unused get_attr nodes, dead code elimination, deletion of unused submodules, references to quantizers (ClnModel); runs of graphs with abstract functions, modules and side effects as specification (ClnSpec). | Dead code elimination is shown to keep exactly the needed nodes; then a simulation between runs of the two graphs. Refuted for submodules that are read as values and contain submodules. |
| C143 | Same model. | References are prefixes of targets; submodules that stay are above a target or inside a called module. Refuted for quantizers inside called modules. |
| C144 | Same model. | Induction over the graph from its end, with the set of needed nodes as invariant. |
| C145 | Forward passes of quantized modules and their conversion, with tensors as objects in a memory and torch functions left open (FwdModel); torch's modules, in-place activations and programs as specification (FwdSpec). | Simulation by mutual induction on modules, then induction on programs. Refuted for padding modes and for in-place activations whose input is used again. |
| C146 | Same model, quantizers as arbitrary functions with a record of their calls. | Mutual induction on modules. |
| C147 | Same model, with the check of arguments of the generated functions. | Mutual induction on modules; acceptance is computed by a separate function on stubs and quantized tensors (FwdSpec). |
| C148 | The replacements, the cleaning of underscores and the keyword test on lists of characters (IdnModel). | Invariants of each step; letters and digits are followed through all steps. Refuted for code without letters, digits and symbols. |
| C149 | The table of numbers by code (IdnModel). | Induction on the sequence, the table has no duplicates. Different names refuted. |
| C150 | The dispatch on passes, wrapping in modules, checks of classes and the loop, with arbitrary visitors (PmgModel). | Equivalence with a relation (PmgSpec) by induction on the sequence. Refuted for visitors with metadata that leave several statements. |
| C151 | Registration, lookup and normalization of names on characters, histories of registrations (OrcModel). | Induction on histories from their end; stripping and case by characterisation (OrcSpec). |
| C152 | The export function with arbitrary pipelines and file systems, the context as a dictionary (OrcModel). | Lookup lemmas. Refuted for options that name the output directory, and for unknown targets, whose directory is made. |
| C153 | Splitting and joining names, the search for the module and the walk along attributes, with an arbitrary import system (QnrModel). | Induction on the parts from the end; the longest beginning is unique. |
| C154 | Same, with the naming of objects. | From C153. Refuted for functions with the name of a submodule, local functions and objects without module. |
| C155 | Expressions with names, attributes, calls and other operations, the rewriting of calls on super(), and a meaning with arbitrary attributes, calls and super (SupModel, SupSpec). | Induction on expressions. Refuted for attributes of super() and class methods. |
| C156 | Trees whose nodes have identities, the queue and the set of seen nodes (FltModel). | Invariant of the loop: taken and queued nodes are the seen nodes, once each; on trees the loop equals one without marks, which goes level by level. |
| C157 | Joining, an arbitrary tokenizer, and the grouping of columns (TokModel). | Induction on the number of pieces; uniqueness of the cut. |
| C158 | The slice and the total (TokModel). | By cases. Refuted for limit 0 and limits beyond the end. |
| C159 | Dicts of classes along the hierarchy, kinds and first parameters (MtyModel). | Induction on the classes. Refuted for methods hidden by values and for *args. |
| C160 | Paths, suffixes of names, a file system with files and directories, and the steps of a write (FwrModel). | By cases of the write; induction on the parts that are written. |
| C161 | Same, with all file systems on the way. | Induction on the parts. Refuted: the file is emptied first. |
| C162 | The dict from ids to tokens, special and added tokens, and the loop over ids (VocModel). | Induction on the vocabulary. Refuted for tokens with larger ids and tokens that look like fillings. |
| C163 | Trees with arbitrary warnings and changes, the stack and the comments (WrnModel). | Induction on trees: the stack gets what belongs to the node around; permutation of all warnings. Refuted for roots that are replaced. |
| C164 | Statements with definitions, classes and conditions, and what the visitor records (MemModel), against the execution of a module (MemSpec). | Induction on plain modules. Refuted for conditions and for classes that are defined again. |
| C165 | The resolution of names with an arbitrary import system and a limit of calls (RsvModel). | Induction on the calls. Refuted for functions that have the names of each other. |
| C166 | sqnr without decibels on lists of lists of rationals (SnrModel). | Monotony of sums and quotients; the value is fixed by one entry and by concatenation. Refuted: the ratio of an exact copy depends on the original. |

## 4. Disagreements found between code and expected behaviour

Each is a theorem with a concrete witness, checked by computation on the model (`_refuted`).
The remark after a property says on which domain its positive theorems hold.

- **C04** Granularity recovery from sizes. For every tile that divides the data. Outside that domain (a non-dividing tile, which strict_blocks=False accepts) the docstring's promise fails: C04_nondividing_refuted.
  - `C04_nondividing_refuted`: The docstring promises the same for any tile; a tile that does not divide the data (accepted with strict_blocks=False) is recovered as a strict block and then rejected.
- **C06** Rounding error bound and saturation. Error bound for every offset; saturation to the reported range ends for integral offsets (for fractional offsets see C06_fractional_offset_refuted).
  - `C06_fractional_offset_refuted`: With a fractional offset the grid is shifted by the rounding of the offset, so the reported range end is not reached exactly.
- **C09** Range to parameters covers the range. Upper end exact when the range is not narrower than float32 eps * (2^b-1); otherwise a superset. One-bit symmetric ranges divide by zero (C09_one_bit_symmetric_refuted).
  - `C09_one_bit_symmetric_refuted`: One-bit symmetric quantization has integer_maximum 0: a division by zero.
- **C10** Setting then reading a quantization range. Holds when max-min >= eps32*(2^b-1) (resp. scale >= eps32); a narrower range is widened by the eps floor: C10_narrow_range_refuted.
  - `C10_narrow_range_refuted`: Without the width hypothesis: a very narrow range is widened by the eps floor.
- **C11** Dynamic quantization never saturates visibly. Half-step accuracy whenever the result is finite, which always holds in asymmetric mode; symmetric mode on data with an all-zero tile yields NaN (C11_zero_tile_refuted).
  - `C11_zero_tile_refuted`: Symmetric dynamic quantization of data with an all-zero tile divides zero by a zero scale (NaN codes in torch).
- **C14** Structural operations commute with dequantization. Proved for reshape/view, transpose, indexing (per tensor and per channel), expand, take_along_dim, contiguous, scalar multiply, unsqueeze (per tensor, per tile). Not true of the code: unsqueeze on per-channel data (C14_unsqueeze_per_channel_refuted), cat of a tensor without and one with an offset (C14_cat_refuted), topk with a negative scale (C14_topk_refuted).
  - `C14_unsqueeze_per_channel_refuted`: The same statement is false for per-channel data: the result has other values.
  - `C14_cat_refuted`: A tensor with an offset after one without is accepted and loses its offset.
  - `C14_topk_refuted`: With a negative scale (which multiplying by a negative number produces) the smallest entries are returned.
- **C16** Dispatcher selects the newest best-priority match. For histories that register each kernel/predicate pair at most once; removing one of two identical registrations removes the other one (C16_duplicate_removal_refuted).
  - `C16_duplicate_removal_refuted`: Without that restriction the wrong registration is removed.
- **C18** Flag contexts restore on every exit. Holds for with-blocks. A stored context object entered a second time does not give its value inside (C18_reused_context_refuted).
  - `C18_reused_context_refuted`: A context object sets its value when it is constructed, not when it is entered: entering one a second time does not give the requested value inside.
- **C19** Forward overrides stack and detach independently. Holds for overrides that call their callback at most once per call; an override that calls it twice bypasses the remaining overrides the second time (C19_second_call_refuted).
  - `C19_second_call_refuted`: An override that calls its callback twice bypasses the remaining overrides the second time: it does not behave as a decorator.
- **C21** freeze_parameters ends with its block. Refuted: the overrides are never removed (C21_ends_refuted) and activation quantizers become stubs too (C21_activation_refuted). The frozen value itself is right: C21_frozen_partial.
  - `C21_ends_refuted`: C21 fails: the overrides are still there after the block. Calling a quantizer that was not called inside the block overwrites the parameter afterwards and returns the parameter itself instead of a quantized tensor.
  - `C21_activation_refuted`: An activation quantizer used in the block is replaced by a stub although no parameter of it was frozen.
- **C22** Module-level strict quantization is scoped to the module's forward. Holds for non-re-entrant calls that return, with one handle per module; refuted for exceptions, re-entrant calls and two handles on a module.
  - `C22_exception_refuted`: Each of the three restrictions is needed: the flag stays changed otherwise.
  - `C22_reentrant_refuted`
  - `C22_two_handles_refuted`
- **C25** Grid search picks the best candidate. Holds for every grid with exactly the requested number of candidates (incl. symmetric, perfect squares); refuted for the asymmetric uniform grid when the number of candidates is not a perfect square: C25_uneven_grid_refuted
  - `C25_uneven_grid_refuted`: Otherwise it has more rows than are evaluated; their error stays zero and one of them is selected. Five candidates, data [-1, 1, 1/2], 8-bit asymmetric quantizer with the mean squared error: the chosen range clips -1 and its error is larger than that of an evaluated candidate.
- **C26** Range estimation leaves no trace on the forward path. Holds once all quantizers are prepared, for every body and exception point in the body; refuted when preparing a later quantizer raises: C26_prepare_error_refuted
  - `C26_prepare_error_refuted`: An unsupported quantizer met while preparing makes the context manager raise without cleaning up those prepared before it.
- **C27** quantize_model converts exactly the convertible modules. Proved for trees (or any acyclic module graph when already quantized modules are skipped) without entry-less plain torch.nn.Module containers; unsupported classes raise before any change. Refuted: an entry-less torch.nn.Module container, or a module shared by two parents without skip_quantized_modules, makes quantize_model raise after converting part of the model.
  - `C27_plain_container_refuted`: Two ways in which the call raises after converting part of the model.
  - `C27_shared_module_refuted`
- **C32** Shared tensors survive the checkpoint. Full for tensors whose key (address, shape, stride, device) determines the dtype; refuted for a view with another dtype, and for views with another shape or layout (kept apart).
  - `C32_dtype_refuted`: The dtype is not compared: a tensor and a view of the same memory under another dtype ([t.view(torch.int32)]) count as one, and the dropped name comes back with the other dtype.
  - `C32_views_refuted`: Views with another shape or layout over the same memory are not recognised: both are kept for writing (safetensors then refuses to write them).
- **C33** Quantization state round trip. Round trip proved for describable quantizers with plain names; refuted for a quantizer without parameters, a module registered under two names (default policy), a comma in a module name, and a dtype changed after construction.
  - `C33_no_parameters_refuted`: A quantizer without parameters (its metadata is the empty string) is saved, but the saved state cannot be loaded.
  - `C33_shared_module_refuted`: A module registered under two names: its quantizer is saved under both, and loading into a fresh model with the default policy attaches it under the first name and then fails, because the second name is the same, now concrete, quantizer.
  - `C33_comma_refuted`: A module name with a comma (an entry of a ModuleDict) breaks the metadata.
  - `C33_dtype_refuted`: If the dtype of the parameters was changed after the quantizer was made ([model.double()]), the rebuilt quantizer has the old dtype, and loading rounds the parameters to it.
- **C34** Load overwrite policy. All three policies as stated, for every saved state and model; a load that fails under 'error' is not undone (refuted atomicity).
  - `C34_atomic_refuted`: A failing load under "error" is not undone: the stubs met before the concrete quantizer are already replaced.
- **C35** Fusing QDQ weights preserves the quantized model. Holds for quantizers that are stable (linear quantizers whose codes fit the weight's float format) and weights that are equal or disjoint views. Fails for rounding in narrow formats, and for modules that share a fused weight without quantizing it.
  - `C35_rounding_refuted`: Without the precision condition fusing is not idempotent: a bfloat16 weight 200, clipped by an 8-bit quantizer with offset 16 and scale 115/128, is fused to 128, which the same quantizer maps to 127.5.
  - `C35_shared_unquantized_refuted`: A module that shares a fused weight but does not quantize it computes with other values afterwards.
- **C36** Tied weights are fused only if unambiguous. Holds if views of one storage are equal or disjoint. Fails for ties through a reshaped or transposed view, and for one non-idempotent quantizer instance shared by modules.
  - `C36_reshaped_tie_refuted`: A weight shared through a view of another shape is not recognised as tied: fusing succeeds although the quantizers disagree, and the result is off the grid of one.
  - `C36_transposed_tie_refuted`: A square weight shared with its transpose has the same address and shape; the comparison then uses one layout for both modules and passes, although the per-row quantizer snaps the two layouts to different values.
  - `C36_shared_instance_refuted`: One custom quantizer instance shared by two modules with one weight: the quantizer is applied twice, so the weight is not its QDQ value (even when it is replaced by stubs).
- **C37** GPTQ running Hessian. Proved for every layer and dataset in which no tensor that is scaled in place occurs twice: value, independence of order and splits, refusals. Refuted: the calibration tensors are scaled in place, so a repeated tensor, or the same dataset for a second layer, gives another Hessian.
  - `C37_dataset_for_two_layers_refuted`: The calibration tensors are scaled in place, so a second layer that gets the same dataset gets another Hessian: 4 where the first layer got 2.
  - `C37_repeated_tensor_refuted`: A tensor that occurs twice in a dataset is scaled twice: the Hessian is 3 where 2/N times the sum of x x^T is 2.
- **C38** GPTQ writes on-grid weights. Fixed point, on-grid values, the full recurrence and its uniqueness, totality and refusals are proved for every weight, granularity, Hessian factor, column order and positive block size, over exact arithmetic with one final rounding to the weight's format. Refuted for symmetric scales of groups that are all zero (division by zero). Not modelled: rounding inside the float32 loop.
  - `C38_zero_group_refuted`: A group of weights that are all zero gets the symmetric scale zero, and quantizing it divides zero by zero (nan in torch), for every block size.
- **C39** Path queries: exactly the matching modules. Exactness and termination on every acyclic module graph in which no module holds one child under two names; outside it, refuted (C39_two_names_refuted).
  - `C39_two_names_refuted`: Outside that class: a child held under two names is found under the first only.
- **C40** Path queries with alternatives. Proved when no alternative consists of ** only; otherwise refuted: results missing, an alternative dropped, or a search that never ends.
  - `C40_star_alternative_refuted`: An alternative that is "**" only: one result is missing, ...
  - `C40_dropped_alternative_refuted`: ... an alternative is dropped, ...
  - `C40_divergence_refuted`: ... or the search never ends.
- **C41** Query text round trip. Also for regex fragments whose pattern has no brackets or double quotes; for bracket patterns and names such as 1x1 refuted.
  - `C41_bracket_pattern_refuted`: A pattern with brackets prints as text that does not parse, or parses to something else.
  - `C41_digit_name_refuted`: A name that starts with a digit but is no number is no query.
- **C42** Module collections behave like sets. Set operations are exact on entries (name, module, parent, attribute), hence on modules for collections with one entry per module, such as answers on trees; refuted for shared modules.
  - `C42_shared_module_refuted`
- **C46** Scheduled programs compute the graph. Proved for every graph whose constants are used as such and whose items of items belong to nodes that are evaluated: outputs, optimizer bundles, order of optimizers, exact errors. Not true of the code otherwise: items of constants (C46_item_of_constant_refuted), items of items of unused nodes (C46_unused_node_refuted).
  - `C46_item_of_constant_refuted`: Items of a constant cannot be evaluated.
  - `C46_unused_node_refuted`: A node that no output depends on makes the run fail if it takes an item of an item of such a node.
- **C48** Dropping non-optimization work is unobservable to the optimizer. Instructions kept in order for every program; the same bundles for every scheduled program without side effects in calls and with some optimizer context. Not for every program: C48_stored_value_refuted, C48_side_effects_refuted.
  - `C48_stored_value_refuted`: Not for every program: a stored dataset is dropped although an optimizer needs it.
  - `C48_side_effects_refuted`: Nor if calls have side effects: an optimizer then sees other activations.
- **C49** Offloading restores placement. Same results for every orderly program up to field names of tuples; weights restored after every program that does not return. Not true of the code otherwise: C49_return_refuted (programs with outputs never restore), C49_exception_refuted, C49_other_operation_refuted, C49_named_tuple_refuted, C49_unused_node_refuted.
  - `C49_return_refuted`: A program with outputs returns before weights are moved back.
  - `C49_exception_refuted`: An exception leaves weights on the storage device.
  - `C49_other_operation_refuted`: A module used by a node that is not marked as a module node is offloaded and never moved back.
  - `C49_named_tuple_refuted`: Named tuples returned lose their field names.
  - `C49_unused_node_refuted`: A graph with a node that no output depends on and that takes an item of such a node runs, but not with offloading.
- **C50** Offloading runs modules on the compute device. Proved for programs without items, with tensors in tuples, lists and dictionaries, whose first module is not the last one listed by the graph (or starts on the compute device, untied). Not true of the code otherwise: C50_first_module_refuted, C50_two_items_refuted, C50_other_objects_refuted.
  - `C50_first_module_refuted`: A graph whose only module starts out on the storage device is run there.
  - `C50_two_items_refuted`: A module given two items of the same value gets only one of them on the compute device.
  - `C50_other_objects_refuted`: Tensors held by other objects stay where they are.
- **C53** Algorithm registry override is scoped. exec over nested override programs with exceptions; blocks that do not nest (threads) do not restore (refuted)
  - `C53_interleaved_blocks_refuted`: Blocks that do not nest (say, in two threads or in generators) do not restore: the one that is left last puts back the other's targets.
- **C54** Flow contexts are the ones given. proved while the class name of the manager is used by no other manager or generator; refuted for two managers of one class, and declared flows never reach the engine
  - `C54_same_class_refuted`: Two context managers of the same class (or of classes with the same qualified name): the second one declared is never entered, the first is used in its place. A manager whose class is named like a generator gets that generator.
  - `C54_declared_flows_unused_refuted`: What [layerwise_optimize] runs never uses the declared flows: every region is run in the default context, whatever flows its algorithm is registered with. (The code that binds flows to a graph, scheduler.py, is not called.)
- **C55** Graph coarsening preserves the computation. Values are preserved (C55_values_partial) whenever reduce_resolution returns, if calling the module of a fold gives the values of its exposed leaves in the order in which they were added; for spans and groups also if node arguments are tensors, arguments are no items of items, and graph outputs are no items. Success is proved for regions that are apart and can be computed in one go (C55_succeeds_partial). The full statement is false: see the refutations.
  - `C55_duplicate_names_refuted`: C55: Nodes of the same name are accepted, and coarsening then takes one for the other: the output changes.
  - `C55_values_refuted`: C55 is false in general: the item of an item that enters a span becomes another item. Silently, the new graph computes something else.
  - `C55_fold_order_refuted`: C55 is false in general: results of a fold are taken in the order in which its leaves were added, not in the order in which its module returns them.
  - `C55_output_item_refuted`: C55 is false in general: an output of the graph that is an item of a node in a span is indexed twice.
  - `C55_span_refuted`: C55 is false in general: a span raises a [KeyError] if a node outside of it reads one of its nodes before its end is computed.
  - `C55_nested_refuted`: C55 is false in general: a fold and a leaf in it are not seen as overlapping targets, and raise a [KeyError].
- **C57** Pipeline edits keep wiring. insert_stage_before is as documented. insert_stage_after and replace_stage put the new stage last among the inputs of a dependent instead of in the target's position (refuted with a run whose result changes); insert_stage_after does not run immediately after the target; insert_stage_before with explicit dependencies need not run before it.
  - `C57_replace_swaps_inputs_refuted`: Replacing a stage by one with the same function swaps the inputs of a later stage, which computes 60/5 before and 5/60 after.
  - `C57_insert_after_swaps_inputs_refuted`: So does inserting a stage that returns what it is given.
  - `C57_insert_after_immediately_refuted`: The stage inserted after another one need not run directly after it.
  - `C57_insert_before_explicit_refuted`: With explicit dependencies the stage inserted "before" another one runs after it.
- **C59** GGUF packing is lossless. Q4_0 is proved end to end from the model's parameters to the bytes read with llama.cpp's formula (built-in adapters, quantizers without offset, scales below 65520, exact for binary16 scales and with the rounding error bound otherwise). Q8_0 is proved only when no code is -128. Refuted for code -128 in Q8_0 (C59_q8_0_minimum_refuted), for one-sided quantizers whose offset is dropped (C59_one_sided_refuted) and for scales from 65520 on (C59_scale_overflow_refuted).
  - `C59_scale_overflow_refuted`: Scales from 65520 on become infinite.
  - `C59_q8_0_minimum_refuted`: An 8-bit range set to the weight's own minimum and maximum gives its minimum the code -128, which is written as -127.
  - `C59_one_sided_refuted`: A symmetric quantizer that fell back to its one-sided range passes validation; its offset is not written, and every weight in the file is wrong by offset * scale.
- **C61** LPBQ scale compression. For every quantizer with the two supported block layouts. An encoding is also made if only some offsets are zero; then the offsets are lost (C61_offsets_dropped_refuted).
  - `C61_offsets_dropped_refuted`: Without all offsets zero the weights bound fails: an LPBQ encoding is accepted as soon as one offset is zero, and all offsets are dropped.
- **C62** Exported encodings describe the quantizer. Values: 1.0.0 and 0.6.1 schemas for every accepted quantizer; 2.0.0 if all offsets are zero, or all are non-zero and the quantizer is not block-wise. Flag: if all offsets are zero or none is. Refuted otherwise: a quantizer with some zero offsets is flagged symmetric and its 2.0.0 entry loses the zero points; block zero points follow another convention; 1.0.0 block entries do not record the axis.
  - `C62_flag_refuted`: A quantizer with one zero and one non-zero offset is flagged symmetric.
  - `C62_v2_mixed_refuted`: Its 2.0.0 entry has no zero point and does not decode to the dequantized value.
  - `C62_v2_zero_point_refuted`: The zero points of 2.0.0 entries of a per-tensor and of a block quantizer follow different conventions: both quantizers give every code the same value, their entries have the same scale and different zero points, so no reading of scale and zero point is right for both.
  - `C62_v1_block_axis_refuted`: A 1.0.0 block entry does not say along which dimension the blocks run: two quantizers that give some element different values have the same entry.
- **C64** Quantization spec propagation through views. Never overwrites, only copies along views, terminates: proved. Completeness: everything derived from an annotated tensor and everything an annotated tensor is derived from; all connected tensors if no tensor has two views or annotated views have annotated inputs. Refuted in general: a sibling view listed earlier is missed.
  - `C64_complete_refuted`: In general the pass is not complete: of two views of a tensor, the first stays without a spec if only the second has one.
- **C65** Relative import resolution. Proved for modules that are no packages, wherever Python accepts the import, and for absolute imports everywhere. Refuted for a package's own module and for imports Python rejects, which are given a name.
  - `C65_package_refuted`: The claim fails in a package's own module: [from .layers import x] in pkg/models/__init__.py means pkg.models.layers and is taken for pkg.layers.
  - `C65_rejected_refuted`: Imports Python rejects are given a name: those that climb above the top package, and those of a module in no package.
- **C67** Equal granularities induce equal tilings. Holds for every granularity except PerBlock, whose equality ignores all fields: C67_granularity_equality_refuted.
  - `C67_granularity_equality_refuted`
- **C68** Accepted output dtypes store all codes. Holds for all floating point dtypes and for signed integer dtypes with at least num_bits bits; the check itself accepts narrower and unsigned integer dtypes: C68_int_storage_refuted.
  - `C68_int_storage_refuted`: But the check also accepts 10-bit codes for int8 and signed codes for uint8.
- **C69** Flag blocks under overlapping executions. Holds for nested traces; overlapping blocks leave the flag changed (C69_interleaved_blocks_refuted).
  - `C69_interleaved_blocks_refuted`
- **C72** Metadata extension check. Exact when the other metadata has every attribute; refuted otherwise: a missing attribute raises KeyError.
  - `C72_missing_attribute_refuted`: An attribute the other metadata lacks is a KeyError instead of the answer "no".
- **C73** GGUF export is complete and keeps tensors apart. For the three shipped adapters and parameter names without newline characters (C73_newline_refuted shows the names are not kept apart otherwise).
  - `C73_newline_refuted`: Without the newline hypothesis the name maps are not injective.
- **C74** Llama projections are exported in llama.cpp's row order. Proved for quantized projections; refuted for unquantized ones, which the transform returns unchanged (C74_float_row_order_refuted).
  - `C74_float_row_order_refuted`: An unquantized query projection is written in Hugging Face row order: row 1 of the file is row 1 of the weight where llama.cpp expects row 2.
- **C75** Quantizer parameters survive the ONNX metadata. For quantizers with an offset tensor; a quantizer without one cannot be annotated (C75_no_offset_refuted).
  - `C75_no_offset_refuted`: A quantizer without offset cannot be annotated.
- **C77** The annotated graph determines the quantized model. Proved if every quantized tensor is read through its one quantizer only. Refuted for tensors also read raw or through two quantizers: different models give the same annotated graph.
  - `C77_raw_read_refuted`: A tensor that is also read without its quantizer: two models that compute different results become the same annotated graph.
  - `C77_two_quantizers_refuted`: A tensor read through two quantizers: the first one is lost, and a different model has the same annotated graph.
- **C78** Specs copied to views fit the view. Proved for per-tensor quantization with every view and for views that keep the tile of every element. Refuted for per-channel quantization and a transpose.
  - `C78_transpose_refuted`: Not for per-channel quantization: the spec copied to the transpose of a square matrix quantizes its columns with the scales of the rows.
- **C79** The QDQ export computes the quantizer. Proved for per-tensor and per-channel (any axis) quantizers with 4, 8 or 16 bits whose zero points fit the storage type: decoded values agree, codes agree up to one step, and exactly unless x/scale is a tie and the offset odd. Refuted at such ties, for zero points outside the type, for block tiles (scales silently applied to columns) and for fractional bit widths (silently truncated).
  - `C79_tie_refuted`: Not at ties with an odd offset: 0.5 with scale 1 and offset 1 is quantized to 0 (which stands for 1), the exported graph gives -1 (which stands for 0).
  - `C79_zero_point_refuted`: Not if the zero point does not fit the storage type: with 8 bits for the range [1, 2] (scale 1/255, offset 383) the value 1.5 is quantized to 383/255; whatever the cast makes of -383, the exported graph gives at most 1.
  - `C79_blocks_refuted`: Not for blocks: the tile (2, 2) of a (4, 2) tensor has no side 1, so no axis is written and the two scales are applied to the two columns.
  - `C79_fractional_refuted`: A fractional bit width is truncated, although the dtype lookup would refuse it.
- **C81** Saved states do not overwrite each other. Proved for names and tags where '/' is the only replaced character and hyphens and slashes are not adjacent; refuted for tags and names that map to one directory, and for the tag '..'.
  - `C81_tags_refuted`: Different tags can share a directory: the state saved under one tag is then silently loaded for the other.
  - `C81_names_refuted`: Likewise for model names; there loading notices, because the name is in the file.
  - `C81_parent_refuted`: The tag ".." leads to the cache directory itself, for every model.
- **C82** Model artifact weights round trip. Proved for targets that tie no more weights than the source; refuted for a target that ties weights the source does not.
  - `C82_tied_target_refuted`: A source without and a target with tied weights: the artifact loads, and one of the two saved weights is lost.
- **C83** GPTQ's block size does not change the result. Proved whenever group scales are not recomputed; refuted with recomputed groups and for negative block sizes.
  - `C83_block_size_refuted`: With one scale per group of columns the block size changes the weight: a group that starts inside a block gets its scale from weights without the corrections of this block.
  - `C83_negative_block_size_refuted`: A negative block size is accepted, no column is processed and the weight becomes zero.
- **C84** GPTQ group scales fit the corrected weights. Proved: exactly which corrections enter a group's range, and the full claim if the group width is a multiple of the block size. Refuted otherwise.
  - `C84_groups_inside_blocks_refuted`: A group that starts inside a block: its scale is not that of the corrected weights.
- **C85** layerwise_optimize runs the algorithm it is given. proved with targets, with explicit specs and for functions registered themselves; refuted for partials without targets
  - `C85_bound_arguments_dropped_refuted`: [layerwise_optimize(model, data, functools.partial(gptq, ...))] without targets runs the registered function: the bound arguments are dropped without notice.
- **C87** A graph called on batches computes each batch. Batches of one kind (all dictionaries, all tuples or lists, or all objects), with string items that raise only KeyError and TypeError and agree with attributes. Refuted in general: named tuples are bound by position, a tuple given as the value of the only input is split, and later batches of other lengths are cut.
  - `C87_named_tuple_refuted`: C87: Named tuples with the fields of the inputs are bound by position: fields in another order end up at the wrong inputs.
  - `C87_tuple_value_refuted`: C87: A tuple given as the value of the only input is taken for several batches, by keyword it is not.
  - `C87_uneven_refuted`: C87: Only the first batch is checked: values of later batches that belong to no input are dropped.
- **C88** Inlining a subgraph keeps its meaning. Values, acceptance, refusal of ill-fitting arguments and folds are proved in full. Refuted: a subgraph inlined twice is refused only after the fold was inserted, so the graph changes.
  - `C88_twice_refuted`: C88: A subgraph whose nodes are in the graph already is rejected only after the fold was added: the graph is not as before.
- **C89** A call runs the graph as it is now. Proved for inputs and outputs added before the first call, and after any added node or subgraph. Refuted in general: the cached program is not dropped by add_input and add_output.
  - `C89_stale_refuted`: C89: An output added after a call is not returned, and an input added after a call is not accepted.
- **C90** Preparing source code keeps its meaning. Proved for all programs in which nothing unstable is evaluated before a moved operation and none moves out of a lambda, the second operand of and/or, the message of assert or the cause of raise; splitting and marking are exact for all programs. Refuted in general: short circuit, lambda bodies, order of attribute reads and of assignment targets, assert messages, variables named _tmp_n.
  - `C90_short_circuit_refuted`: C90: [x and f(y)] calls [f] also if [x] is false.
  - `C90_lambda_refuted`: C90: The call in [lambda z: f(z)] is moved out of the lambda, where [z] has no value.
  - `C90_order_refuted`: C90: [(y.a, f(y))] reads the attribute after the call.
  - `C90_target_order_refuted`: C90: [y[f(x)] = gg(y)] calls [f] before [gg].
  - `C90_assert_message_refuted`: C90: The message of [assert y, f(x)] is computed although the assertion holds.
  - `C90_temporary_name_refuted`: C90: A variable of the source code named [_tmp_1] is overwritten.
- **C91** Expanded augmented assignments do the same. Proved exactly when in-place operators are the binary operators and the parts of the target are stable. Refuted: f(x)[0] += 1 calls f twice; operands are no longer changed in place.
  - `C91_twice_refuted`: C91: [f(x)[0] += 1] calls [f] twice.
  - `C91_in_place_refuted`: C91: An in-place operator that changes its operand (as for tensors and lists) no longer does, so that other references to it keep the old value.
- **C94** Generated code imports what it uses. Proved: completeness for names not bound by dotted imports and for dotted imports used in full; everything imported is bound to the same thing in the module and hides no local name or builtin; imports of several functions merge without loss where they agree. Refuted: parts of dotted imports, module names of builtins, attributes of unnamed values called like module names, names bound twice, functions of different modules that use one name for different things. Star imports, class scopes and the fallback of ImportSymbol are not modelled.
  - `C94_dotted_refuted`: The claim fails for parts of dotted imports: after [import os.path], code reading [os.sep] imports nothing.
  - `C94_builtin_refuted`: It fails for names of builtins: a module's own [sum] is not imported.
  - `C94_attribute_refuted`: It fails for attributes of unnamed values: in a module that binds [cat], [x(y).cat] imports [cat], which is not read, and not [x], which is.
  - `C94_rebound_refuted`: A name bound twice is imported twice, to different things; the one that counts is the last in alphabetical order, not the last in the source.
  - `C94_merged_refuted`: The claim fails for functions of different modules: two modules that each define [scale] give a generated module in which both uses of [scale] mean the same.
- **C95** Every quantized call gets its quantizers. Proved for every call graph: calls pass only declared parameters, none twice, from values the caller has. Proved for acyclic graphs in which no helper called by a called function calls another helper twice: every parameter is passed, bound along every path, and paths share nothing. Refuted: a helper called twice by a helper two calls away from a method. Default arguments and the names of parameters are not modelled here.
  - `C95_twice_refuted`
- **C96** Passing quantizers on comes to an end. Proved for all acyclic call graphs. Refuted for circular calls: a program of four functions on which the loop goes round forever.
  - `C96_circle_refuted`
- **C97** Quantizers have names of their own. Proved for all histories that make all references before asking for names: names are known, steady and, if no name begins with the prefix or is another name with a number, distinct; declared quantizers are exactly those used. Refuted: names ending in numbers, names with the prefix, references made after names were asked for, parameters that already have the name.
  - `C97_number_refuted`: The claim fails for names that end in a number: two quantizers [add] and one [add_1].
  - `C97_prefix_refuted`: The claim fails for names that begin with the prefix.
  - `C97_changes_refuted`: Names can change: making another reference and asking for its name renames the first.
  - `C97_parameter_refuted`: Names of quantizers can be names of parameters the function has already.
- **C98** Generated classes and functions have names of their own. Proved for all types and requests: names are always found, class names are distinct, base names are distinct, helper names are distinct from each other and from classes and methods, and plain names are kept. Refuted: a class name can be the name of an imported base class, a helper name that of an import.
  - `C98_base_refuted`: Class names and names of base classes are not kept apart: the class made for [Block] has the name under which the type [QuantizedBlock] is imported.
  - `C98_import_refuted`: Names of helpers and imports are not kept apart: names of classes and methods are all that is looked at.
- **C99** Renaming helpers changes nothing else. Proved for all expressions without keywords called like a helper and all environments in which names of helpers stand for them; which names are mapped is characterised exactly. Refuted: keywords, and names that stand for something else. Parameters, assignments and comprehension scopes are not modelled.
  - `C99_keyword_refuted`: The claim fails for keywords called like a helper: a call passes another keyword.
  - `C99_other_refuted`: The claim fails for code in which the name of a helper stands for something else, such as code of another module: it is renamed all the same.
- **C101** Calls in converted code are resolved. Proved when different tasks have different function objects. Refuted for inherited methods: calls of helpers in all but the last class that shares a method stay unquantized.
  - `C101_inherited_refuted`: The claim fails for inherited methods: a class and its subclass that share the function [forward] are both converted, but only the calls of the second are resolved.
- **C102** Renaming keeps the meaning of the ONNX model. Altering keeps meaning and distinctness if no value is called as another will be, names asked for if they differ from inner names and no value is both input and output; refuted otherwise. The repair of Reshape nodes is not modelled.
  - `C102_altered_refuted`: The claim fails if a result is called as another will be: the altered name is altered again, two values are called the same, and the file computes something else.
  - `C102_inner_refuted`: The claim fails if the name asked for an output is that of a value inside: the file computes something else.
  - `C102_passed_refuted`: The claim fails if an input is an output too: it does not get the name asked for the input.
- **C103** Quantization annotations reach the right tensors of the ONNX file. Annotations of recorded FX nodes reach the file under final names, and only related specs do, if names of values and nodes are distinct; refuted for nodes sharing a name, unnamed nodes, several results and operators taken apart by the exporter.
  - `C103_nodes_refuted`: The claim fails if two nodes have one name: a node gets the annotation of the other.
  - `C103_unnamed_refuted`: The claim fails for nodes without a name if the serializer does not keep annotations: theirs is lost.
  - `C103_results_refuted`: The claim fails for nodes with several results: the spec of the first is written for all.
  - `C103_intermediate_refuted`: The claim fails for an operator that the exporter takes apart: its spec is written for intermediate results too.
- **C104** Quantized operators guard their arguments and then compute the torch function. Refusal, computation, flag and the 53 shipped operators are proved for all supported types; refuted: pad's default, defaults of optional strings, operators without quantized result, optional lists of tensors, quantized tensors where plain ones are expected.
  - `C104_pad_refuted`: ... the mode of [pad], which is [...] in the specification, and the string "..." in the generated function.
  - `C104_optional_string_refuted`: A string default of an optional string parameter becomes code.
  - `C104_unquantized_refuted`: An operator whose result is not quantized cannot be called: its function fails after torch has been called.
  - `C104_optional_list_refuted`: Quantized tensors in an optional list go to torch as they are, in strict mode too.
  - `C104_optional_plain_refuted`: ... and so do plain tensors there, where only quantized ones may be.
  - `C104_indices_refuted`: [embedding] gives torch a quantized tensor of indices as it is.
- **C105** Calls are matched with operators as Python binds arguments. Binding and acceptance are those of Python for operators with distinct parameter names, and the newest accepting overload is taken; refuted for unpacked arguments, positional-only and keyword-only parameters.
  - `C105_unpacked_refuted`: The call [add( *pair)] is refused, and [relu( *rest)] accepted, whatever is unpacked.
  - `C105_posonly_refuted`: Positional-only parameters are put behind the others: [sub(1, 2)] binds its arguments the wrong way round.
  - `C105_kwonly_refuted`: A keyword-only parameter may be given by position.
- **C106** The operator table returns what was registered, newest first. Laws of lookup over all histories, exact condition of success, listing, loading and the shipped file are proved; refuted: a colliding alias leaves the refused operator in the table, and the documented lookup by fallback name needs an extension.
  - `C106_atomic_refuted`: An alias that names a function with other operators is refused, but the operator stays in the table, and is the one that calls of its function become.
  - `C106_fallback_name_refuted`: The documentation looks up ["torch.nn.functional.conv2d"] in a table from [from_yaml()]; but then it has no names of fallbacks.
- **C107** Attention without quantizers is attention. Proved for the default masking number -inf; with a finite one the exact result is proved (C107_penalised), which differs from attention for fully masked rows with positive scores and for rows whose scores are all small (refuted), and negative scales are refused (refuted). exp is any positive function, floating point is not modelled.
  - `C107_all_masked_refuted`: With a finite [neg_inf] a row that is masked altogether is not 0, if a score is positive: the only value, 7, comes out.
  - `C107_not_masked_refuted`: ... and a row that is not masked is 0, if all scores are small: 7 is lost.
  - `C107_negative_refuted`: A negative scale, which torch accepts, is refused.
- **C108** Strict attention is quantized throughout; torch's attention is used only where allowed. Strict mode is proved. That torch's function is not used otherwise is proved; that it is used where allowed is refuted: it is called, but its result is thrown away, and only its errors are seen.
  - `C108_torch_refuted`: Otherwise torch's function is called, but its result is thrown away: the result is that of the kernel in any case.
  - `C108_torch_error_refuted`: If it fails, the call fails, though its result is not needed.
- **C109** The attention dtype is scoped. Proved for managers that are entered where they are made; refuted for a manager made before another one is entered: it restores the older dtype.
  - `C109_early_refuted`: A manager that was made outside another one restores the dtype of the outside when it is entered inside.
- **C110** Module export records what the modules saw. Records are proved for all calls, structures and modules whenever the export succeeds. Removal of hooks is proved if the quantized run returns and its quantized tensors are static affine; refuted otherwise: hooks stay after an exception in the second run.
  - `C110_hooks_refuted`: If the quantized run raises, or a quantized tensor is of another kind, the hooks of all modules stay.
- **C111** Inputs and outputs of exported modules get the encodings of the tensors they were called with. Proved for flat arguments whose graph inputs are the positional arguments and keyword arguments, in any order if keyword arguments before positional ones are quantized. Refuted: a number among the arguments or a None among the outputs shifts encodings to other tensors, an unquantized keyword argument takes the encoding of a positional one, nested arguments make the export fail.
  - `C111_shift_refuted`: A number among the arguments, which is no input of the graph, shifts them: the encoding of the quantized input [x] is given to [y], which is not quantized.
  - `C111_keyword_refuted`: A keyword argument that is not quantized takes the setting of a positional one: the encoding of [x] is given to [k].
  - `C111_output_refuted`: A missing output shifts outputs: the quantized output [y] after a [None] gets no encoding.
  - `C111_nested_refuted`: Arguments inside a tuple make the export fail, even if nothing is quantized.
- **C112** Surrogates cover what has no quantized counterpart. Which classes get surrogates is proved in full. Conversion is proved to succeed except in three cases, each shown to raise: a quantized module without an entry (unless skipped), a plain torch.nn.Module container, and entries given only to surrogate_quantized_modules.
  - `C112_requantize_refuted`: A quantized module in the model for which the map has no entry: conversion raises unless it is told to skip quantized modules.
  - `C112_plain_refuted`: A plain [torch.nn.Module] used as a container gets no surrogate; conversion raises half way.
  - `C112_extra_refuted`: Entries given to the call are not part of its result: with the result alone, conversion raises.
- **C113** Quantizers take over the metadata of the attribute they are assigned to. Tags follow the attribute through every history (full). Refuted: a quantizer's own extra tags are lost without warning, a shared quantizer loses the tags of its first attribute, and an assignment that raises leaves the quantizer in place.
  - `C113_silent_loss_refuted`: A quantizer that carries more tags than the module remembers loses them without a warning.
  - `C113_shared_quantizer_refuted`: A quantizer that two attributes share loses the tags of the first.
  - `C113_error_refuted`: When the module remembers an attribute the quantizer's metadata does not have, the assignment raises KeyError, but the quantizer is in place all the same, with metadata of its own.
  - `C113_uninitialized_refuted`: So does an assignment before the module is initialized for quantization.
- **C115** A traced graph computes what the exported program computes. Proved for regular programs: the root returns results of nodes, other modules return one result or a tuple of several, results of skipped functions are not used, named tuples hold no results of nodes. Refuted otherwise: a constant among the results is dropped (C115_constant_refuted), a program that returns an input is not traced (C115_input_refuted), nor one that uses the result of a skipped function (C115_skipped_refuted), and a module that returns a tuple of one result seems to return the result itself (C115_tuple_refuted). torch.export and unflatten are not modelled: programs are what they give.
  - `C115_constant_refuted`: C115: A constant among the results is dropped.
  - `C115_input_refuted`: C115: A program that returns an input is not traced.
  - `C115_skipped_refuted`: C115: Nor is one that uses the result of a function that is skipped.
  - `C115_tuple_refuted`: C115: A module that returns a tuple of one result seems to return the result.
- **C116** Traced graphs can be scheduled and have the inputs the caller knows. Well-formedness, scheduling and names are proved for every program that is traced. Not all are: placeholders of different names may be given one name and the trace fails (C116_collision_refuted). Nodes need not differ in name (C116_names_refuted).
  - `C116_collision_refuted`: C116: Placeholders of different names may be given one name; such a program is not traced.
  - `C116_names_refuted`: C116: Nodes need not differ in name: a module called twice gives two nodes of its name.
- **C117** Data declared by an optimization is produced by exactly the nodes it depends on. Every flow of every node that is no fold is bound as stated, for all graphs and set orders; what is refused is refused. Refuted for folds: binding what leaves a fold always raises KeyError, because folds are not in the topological order.
  - `C117_fold_refuted`: C117: What arrives at a fold is bound likewise if folds take input from leaves; what leaves a fold never is.
- **C118** Tracing leaves the module as it was. Names, tensors, other attributes and the strict flag are restored in every case, and the exporter sees no uninitialised tensor unless one has two names. Refuted: uninitialised tensors move to the end of their table (which is described exactly), uninitialised transient buffers become persistent, and a parameter with two names stays uninitialised under the second. The exporter is assumed to leave registrations as it finds them; disabling quantization is covered by the override properties, not here.
  - `C118_order_refuted`: C118: The order of buffers of a batch normalisation changes.
  - `C118_transient_refuted`: C118: A transient uninitialised buffer becomes part of the state dictionary.
  - `C118_tied_refuted`: C118: A parameter with two names stays uninitialised under the second, and the exporter fails.
- **C119** A module is traced once. Proved for all histories. The consequence that the graph need not fit the inputs given now is C119_inputs_refuted.
  - `C119_inputs_refuted`: C119: So the graph need not be one for the given inputs: what is captured now is not looked at.
- **C120** The entry points of static quantization agree. Proved for tensors with elements (agreement) and for floating point data with positive sizes (elements). Refuted by C120_empty_refuted (empty tensor with non-dividing blocks), C120_integer_data_refuted (integer data with a scale given as a number dequantizes to zeros) and C120_block_count_refuted (block_size is a size, not a number of blocks). Floating point rounding is not modelled.
  - `C120_empty_refuted`: C120, counterexample: an empty tensor with blocks that need not divide it is quantized by a context and refused by [quantize_per_granularity].
  - `C120_integer_data_refuted`: C120, counterexample: integer data. Dequantization happens in the dtype of the data, so that a scale given as a number is truncated to an integer: 3 and 5 with scale 1/2 become 0 and 0.
  - `C120_block_count_refuted`: C120, counterexample: [block_size] is documented as the number of blocks along the axis. It is their size: one row of eight elements with block size 4 has two blocks, and four scales are refused.
- **C122** Export mode computes what eager mode computes. Proved without explicit dtypes and, for values, with floating point dtypes. Refuted by C122_integer_storage_refuted (codes stored as integers) and C122_dtype_refuted (dequantize_dtype is ignored).
  - `C122_integer_storage_refuted`: C122, counterexample: codes stored as 8-bit integers. Export mode dequantizes to the dtype of the codes: 3/2 with scale 1/2 is 3/2 in eager mode and 1 in export mode, and 0 if the scale is given as a number.
  - `C122_dtype_refuted`: C122, counterexample: the dtype asked for is ignored in export mode.
- **C123** Operator annotations name exactly the operators around each quantizer. Proved for models whose quantizers are all stubs, forward passes without in-place results and with quantized values used only through the quantizer. In general refuted: initialized quantizers are never annotated (the disabling override runs first), and residual uses, two quantizers on one value and values computed from parameters only give wrong or missing tags.
  - `C123_initialized_quantizers_refuted`: C123: a quantizer of the model that is not a stub gets no tags, whatever the forward pass does: the override that disables it is registered later, so it runs first and does not call the one that annotates.
  - `C123_residual_refuted`: C123: without the condition that a quantized value is only used through the quantizer, an operator applied to the unquantized value (as a residual connection does) is taken for one applied to the quantizer's result.
  - `C123_two_quantizers_refuted`: C123: if two quantizers are applied to the same value, an operator applied to the result of the first is taken for one applied to the result of the second.
  - `C123_parameters_refuted`: C123: an operator that computes a value from the model's own tensors only (such as the transpose of a weight) is not recorded, so the quantizer of its result is not tagged.
- **C125** Pattern rules rewrite exactly the instances of their pattern. Exact for expressions and patterns without repeated captures, and statements stay statements. Refuted: an expression can be replaced by a statement, a repeated capture matches two different nodes, parentheses around an expression keep it from matching.
  - `C125_expression_slots_refuted`: C125, what fails: an expression can be rewritten to a statement ("f({x})" to "y = {x}"), a pattern that uses a capture twice matches two different nodes ("{x} + {x}" on "a + b"), and parentheses around an expression keep it from matching ("f({x})" on "(f(a))").
  - `C125_repeated_captures_refuted`
  - `C125_parentheses_refuted`
- **C126** The text of rewritten code means the rewritten tree. Holds when captured nodes and replacement are atoms (names, calls, parenthesised). Refuted in general: parentheses around a capture in the replacement are dropped, f(a + b) with f({x}) to ({x}) * y becomes the text a + b * y.
  - `C126_parentheses_refuted`: C126, what fails: the parentheses written around a capture in a replacement are dropped and none are added. With the rule "f({x})" to "({x}) * y", "f(a + b)" becomes the tree of (a + b) * y with the text "a + b * y", which is another expression with another value.
- **C127** Applying pattern rules comes to an end, at code no rule rewrites. What the loop stops at is proved for every run; termination is proved for rules that shrink the text. Refuted in general: f({x}) to f(f({x})) never ends, and parts of a result are not visited again.
  - `C127_endless_refuted`
  - `C127_parts_refuted`
- **C129** A quantization function made from two functions calls exactly those functions. Proved when shared parameters have the same default object and no parameter is called data, quantize_params or dequantize_params. Refuted otherwise: equal defaults (1 and True) are both taken from dequantize; a parameter called data can never be given.
  - `C129_equal_defaults_refuted`
  - `C129_parameter_called_data_refuted`
- **C130** Which pairs of functions can be made into a quantization function. Exact characterisation. The condition the docstring gives (shared parameters agree) is shown not to be enough: the merged order can put a required parameter after a default.
  - `C130_documented_condition_refuted`: C130, what fails: the documented condition (shared parameters agree) is not enough. Two valid functions without any disagreement are refused because of the order of the merged parameters.
- **C132** Every local variable an operator wants quantized is quantized on every path. Proved for functions without break, continue and try, with plain parameters, balanced if/else and simple with items. The full statement is false of the code: six refutations. Not modelled: attribute targets, comprehensions, nested functions and expressions as arguments.
  - `C132_one_sided_else_refuted`
  - `C132_break_refuted`
  - `C132_continue_refuted`
  - `C132_try_refuted`
  - `C132_keyword_only_parameter_refuted`
  - `C132_with_items_refuted`
- **C133** The quantizer analysis accepts every function. Proved for functions of expressions, assignments, if, return and raise. The full statement is false of the code: three refutations. Loops without inner if or break are not covered by the positive theorem.
  - `C133_if_in_loop_refuted`
  - `C133_nested_break_refuted`
  - `C133_code_after_with_return_refuted`
- **C135** Every use of a non-local expression gets a quantizer in an enclosing block. Every occurrence is covered by an annotation of its own expression at an enclosing block in functions without elif; expressions used in all branches are hoisted; numbering and correctness of the lists hold for all functions. False with elif: C135_elif_refuted (the else branch of an elif reads a variable made in the elif body only).
  - `C135_elif_refuted`
- **C137** A function rewritten for quantization computes the same with quantized attributes. Proved for functions without elif whose quantized attributes can be read at the start, belong to variables that are never assigned, and get new, different variable names. Each condition is needed: the five refuted theorems give a counterexample for each.
  - `C137_elif_refuted`: With [elif], the else branch reads a variable that is never assigned.
  - `C137_guarded_attribute_refuted`: [if a: y = f(self.w)]: the expression is quantized before the conditional, so that it is read even if the branch is not taken. A function that checks whether it can be read now fails.
  - `C137_reassigned_variable_refuted`: [y = f(a.w); a = b; z = f(a.w)]: the second occurrence gets the quantized value of the first.
  - `C137_loop_variable_refuted`: [for a in l: y = f(a.w)]: the attribute of the loop variable is read before the loop, where the variable has no value yet.
  - `C137_name_collision_refuted`: [y = f(self.a, self.b)] where both attributes give the same new name, as [self.a.b] and [self.a_b] do: both arguments get the value that is quantized last.
- **C138** Sharing repeated quantizer calls keeps the meaning of a function. Proved for pure quantizers, functions without _tmp_ names, nested quantizer calls, assignments between equal calls and calls under a condition. Four refuted theorems show that assignments in between, conditional expressions, elif and _tmp_ names of outer blocks break it in the code. while, with, comprehensions and nested calls are not covered.
  - `C138_assigned_in_between_refuted`: y = q0(x); x = x + x; z = q0(x): the second call gets the value of the first.
  - `C138_conditional_expression_refuted`: z = (q0(x) + q0(x)) if c else c with no x: the call is made although the condition is false.
  - `C138_elif_refuted`: if c: z = c elif q0(x) + q0(x): z = c: the calls in the second test are made before the first.
  - `C138_name_of_outer_block_refuted`: _tmp_1 = a; if c: y = q0(x) + q0(x); z = _tmp_1: names are looked for in the inner block only, so its shared variable overwrites the variable of the outer block.
- **C139** After sharing, every quantizer call is made once per block. Proved when no argument of a quantizer call contains a quantizer call; false otherwise (C139_nested_calls_refuted). That a function without repeated calls is unchanged holds for all functions.
  - `C139_nested_calls_refuted`: y = q0(q1(x)); z = q0(q1(x)): the shared variable is assigned the original call, and a second one that nobody reads is assigned the inner call, which is now made twice.
- **C140** Splitting an assignment into parts loses no variable. Proved for targets whose inner displays have no starred element; C140_nested_star_refuted shows that the code loses the starred variable of an inner display.
  - `C140_nested_star_refuted`: 0, (1, *2) = 10: the starred variable is missing.
- **C141** The parts of an assignment get the values that Python assigns. Proved for values without starred elements and targets without one-element displays and inner stars. False otherwise: C141_single_element_refuted and C141_starred_value_refuted.
  - `C141_single_element_refuted`: (0,) = 10: the part says that the variable gets the sequence, not its element.
  - `C141_starred_value_refuted`: 0, 1 = *10, 11: the part says that the first variable gets the starred sequence.
- **C142** Cleaning a captured graph keeps its results. Proved when submodules that the graph reads as values contain no submodules; otherwise false: C142_module_read_as_value_refuted (torch's deletion of unused submodules takes what is inside them). What torch.fx does is modelled from its documentation.
  - `C142_module_read_as_value_refuted`
- **C143** No quantizer is left after cleaning. The refusal is characterised exactly. That no quantizer is left is proved except inside modules that the graph calls, where it is false: C143_called_module_refuted. Assumes that no parameter of the captured module has the path of a quantizer.
  - `C143_called_module_refuted`
- **C145** Converting modules to quantized modules keeps their results. Proved for programs whose convolutions pad with zeros and whose modules do not change the tensor they are given (in-place activations behind another layer are covered). Refuted otherwise: C145_padding_mode_refuted (padding_mode is ignored), C145_in_place_refuted.
  - `C145_padding_mode_refuted`: The padding mode of convolutions is ignored after conversion.
  - `C145_in_place_refuted`: In-place activations no longer change their input, which shows if it is used again.
- **C148** Names made from expressions are identifiers. For code with a letter, a digit or an arithmetic symbol; otherwise an assertion fails (refuted by ... and ()).
  - `C148_no_name_refuted`: For an expression such as [...] or () there is no name: an assertion fails.
- **C149** Expressions share a quantizer exactly if they are written the same. Numbers go by code (C149_numbers_go_by_code). Different names are refuted: self.a.b and self.a_b have the same name; only plain names are proved to differ.
  - `C149_same_name_refuted`: Different expressions may have the same name, with different numbers.
- **C150** Passes are applied one after the other, and a failure names the pass. For visitors that do not answer with several statements; a visitor that needs metadata may leave several, of which all but the first are dropped without an error (refuted).
  - `C150_statements_dropped_refuted`: A pass that needs metadata and leaves two statements in place of one: the second is dropped without an error. Without metadata this is an error.
- **C152** An export request is run by its pipeline, for its directory and model name. Options that name output_dir or model_name win over the request, and a request for an unknown target is refused only after its directory was made (both refuted).
  - `C152_options_win_refuted`: Options may say otherwise: the directory of the request is made, and the model is written elsewhere.
  - `C152_refused_with_directory_refuted`: A request for an unknown target is refused after its directory was made.
- **C154** The qualified name of an object leads back to it. For objects found in their module under their qualified name, without a submodule of that name; the case of torch's functions in fully_qualified_name is not modelled.
  - `C154_submodule_refuted`: A function that has the name of a submodule: the submodule is found instead.
  - `C154_local_refuted`: A function made inside another has no such path.
  - `C154_no_module_refuted`: An object without module has its bare name, which is no reference to it.
- **C155** Generated methods call the parent methods that the original calls. Proved for calls super().m(...) in methods when the class is bound to its name in the generated module. False for super().x, super().x.m() and f(super()), which are left as they are, and for class methods. Statements, nested functions and the binding of the class name are not modelled.
  - `C155_attribute_of_super_refuted`: The value of an attribute of super(), super().x, is taken after the generated class.
  - `C155_method_of_attribute_refuted`: So is super().x.m(), a call of a method of an attribute, and f(super()).
  - `C155_class_methods_refuted`: In class methods even super().m() is not changed.
- **C157** Tokens are cut in sequences without gaps. For tokenizers whose columns have one length; with columns of different lengths the pieces of the others can be short, which is shown. Lengths are natural numbers; length 0 raises ZeroDivisionError.
  - `C157_uneven_columns_refuted`: Columns of different lengths are cut as the first one: a shorter one gets pieces that are too short.
- **C158** A limited progress bar counts to the number of items it shows. Proved for positive limits up to the number of items, and without limit. With limit 0 the total is the number of all items though none is shown, and a limit beyond the end is kept as the total.
  - `C158_limit_zero_refuted`: With limit 0 no item is shown, but the total is the number of all.
  - `C158_large_limit_refuted`: A limit beyond the end is the total, which is not reached.
- **C159** The context of a method tells how Python calls it. Proved for methods that attribute lookup finds and whose first parameter is positional. False if a class hides a method of a parent by another value, and for signatures that begin with *args. Wrapped functions are not modelled.
  - `C159_hidden_method_refuted`: A class that hides a method of its parent by a value, as forward = None or a partial function, is said to have the method of the parent.
  - `C159_star_args_refuted`: In a method with the parameters *args the name args is taken for the object, although it is a tuple.
- **C161** A process that ends while it writes code leaves the old or the new code. Proved: the file is as before or has a beginning of the new code, and other files do not change. That it has the old or the new code is false: the file is emptied when it is opened.
  - `C161_old_code_is_lost_refuted`: When a file is overwritten there is a time when it is empty: if the process ends then, the old code and the new code are lost.
- **C162** Every token of the tokenizer is in the exported vocabulary, at its id. Proved for ids below the size of the model and, for distinct tokens, for vocabularies without tokens of the form [PADi]. Tokens with larger ids are left out without an error, and a token [PADi] can be there twice. Merges and special tokens read by other libraries are not modelled.
  - `C162_larger_ids_refuted`: A token whose id is not below the size of the model is left out, without an error.
  - `C162_filling_twice_refuted`: A token that looks like the filling of another id is twice in the list.
- **C163** No warning about code that is not implemented is lost. Proved for trees whose root can have comments and keeps its type. The warnings of a root that is replaced by a node of another type are lost. Transformers that drop nodes with comments are not modelled.
  - `C163_replaced_root_refuted`: If the outermost node is replaced by one of another type its warnings are lost, without an error.
- **C164** The source that is found for a name is the source of what the name refers to. Proved for modules without conditions in which no class is followed by another definition of its name. False with conditions, where the last definition in the text is taken, and for classes that are defined again, whose old members are still found. Assignments and the resolution of aliases are not modelled here.
  - `C164_condition_refuted`: Of two definitions in the parts of a condition the second is taken, also if the first is executed.
  - `C164_class_again_refuted`: A method of a class that is defined again without it still has a source.
- **C165** Resolving a name ends at the name under which its object is defined. Proved: results are fixed, and if qualified names lead back to objects the resolution ends after two calls at the same object. Functions that have the names of each other lead to RecursionError.
  - `C165_swapped_names_refuted`: Two functions that have the names of each other are never resolved, however many calls are allowed.
- **C166** The signal-to-noise ratio orders tensors by their distance to the original. The order, the maximum, the shapes, the value of one entry and the average over batches are proved over rationals. Refuted that the ratio of an exact copy does not depend on the original: zeros have ratio 0, and scaling changes it, because of eps. Missing: rounding, decibels, empty tensors.
  - `C166_exact_copy_refuted`: A tensor of zeros has the ratio zero (minus infinity in decibels) even if it is reproduced exactly, and the ratio of an exact copy changes when both tensors are scaled.

## 5. Assumptions per theorem

Every theorem below is followed by `Print Assumptions` in its file; the answer is
`Closed under the global context` for all of them: no axioms, not even of the standard
library.  (`coqchk -o` on the whole development lists the module-type fields
`Coq.ssr.ssrunder.Under_rel.*` of the standard library as axioms of loaded library
files; no theorem here depends on them.)

- `AffineThms.v`: C05_rounding_is_nearest_even, C05_codes_in_range, C05_elementwise_total_in_range, C06_rounding_error, C06_saturation, C06_fractional_offset_refuted, C07_grid_fixpoint, C07_idempotent, C08_monotone, C09_range_covered, C09_total, C09_one_bit_symmetric_refuted, C09_set_range_then_quantize, C10_set_then_get, C10_get_then_set, C10_narrow_range_refuted, C11_dynamic_half_step_partial, C11_dynamic_asymmetric_total, C11_zero_tile_refuted, C12_quantize_elementwise, C12_dequantize_elementwise, C13_straight_through_gradients, C13_input_gradient_mask, C68_float_storage_exact, C68_int_storage_exact_partial, C68_int_storage_refuted
- `AnnThms.v`: C123_operator_tags_partial, C123_initialized_quantizers_refuted, C123_residual_refuted, C123_two_quantizers_refuted, C123_parameters_refuted, C124_model_restored, C124_never_quantizes, C124_tags_accumulate
- `AqThms.v`: C90_prepared_partial, C90_isolated_partial, C90_split, C90_mark, C90_short_circuit_refuted, C90_lambda_refuted, C90_order_refuted, C90_target_order_refuted, C90_assert_message_refuted, C90_temporary_name_refuted, C91_expand_partial, C91_none_left, C91_twice_refuted, C91_in_place_refuted, C92_isolated, C92_one_per_line, C92_assigned_once, C93_marked
- `BndThms.v`: C117_bound_partial, C117_fold_refuted, C117_refused
- `BuildThms.v`: C87_batches_partial, C87_passed_on, C87_stream, C87_other_stream, C87_named_tuple_refuted, C87_tuple_value_refuted, C87_uneven_refuted, C88_values, C88_accepted, C88_rejected, C88_fold, C88_built, C88_twice_refuted, C55_duplicate_names_refuted, C89_values_partial, C89_history_partial, C89_node_resets, C89_subgraph_resets, C89_graph_kept, C89_stale_refuted
- `CapThms.v`: C110_recorded, C110_trees, C110_parameters, C110_hooks_partial, C110_hooks_refuted, C111_encodings_partial, C111_shift_refuted, C111_keyword_refuted, C111_output_refuted, C111_nested_refuted
- `ClnThms.v`: C142_cleaning_keeps_results_partial, C142_module_read_as_value_refuted, C143_no_quantizer_left_partial, C143_refusal, C143_called_module_refuted, C144_exactly_what_is_needed, C144_exactly_the_modules_used, C144_result_is_valid, C144_result_in_order
- `CoarseThms.v`: C55_values_partial, C55_engine_values, C55_succeeds_partial, C55_span_in_one_go, C55_group_in_one_go, C55_delegates, C55_values_refuted, C55_fold_order_refuted, C55_output_item_refuted, C55_span_refuted, C55_nested_refuted
- `CqfThms.v`: C129_calls_the_functions_partial, C129_equal_defaults_refuted, C129_parameter_called_data_refuted, C130_accepted_pairs, C130_documented_condition_refuted, C131_with_changes, C131_tensor_parameters, C131_contiguous
- `DdpThms.v`: C138_sharing_keeps_the_meaning_partial, C138_assigned_in_between_refuted, C138_conditional_expression_refuted, C138_elif_refuted, C138_name_of_outer_block_refuted, C139_every_call_is_made_once_partial, C139_nothing_repeated_nothing_changed, C139_sharing_again_changes_nothing, C139_nested_calls_refuted
- `DispatcherThms.v`: C16_newest_best_priority, C16_with_removals, C16_with_unambiguous_removals, C16_duplicate_removal_refuted, C16_predicate_operators, C17_with_block_restores, C17_active_inside, C17_reachable_tables_sorted, C15_strict_never_dequantizes, C15_lenient_dequantizes_everything
- `EncThms.v`: C61_lpbq_compression, C61_lpbq_accepted, C61_lpbq_weights, C61_codes_fit, C61_offsets_dropped_refuted, C62_v1_decode, C62_legacy_decode, C62_v2_decode_partial, C62_flag_partial, C62_accepted, C62_blocks_accepted, C62_flag_refuted, C62_v2_mixed_refuted, C62_v2_zero_point_refuted, C62_v1_block_axis_refuted, C63_names_first_wins, C63_extraction, C63_history_independent, C75_metadata_round_trip, C75_end_to_end, C75_no_offset_refuted
- `EngineThms.v`: C46_graph_run_partial, C46_contexts_partial, C46_item_of_constant_refuted, C46_unused_node_refuted, C47_lifetimes_same, C47_lifetimes_clean, C47_deleted_at_once, C48_optimizations_kept, C48_same_bundles_partial, C48_stored_value_refuted, C48_side_effects_refuted, C49_same_results_partial, C49_weights_restored_partial, C49_return_refuted, C49_exception_refuted, C49_other_operation_refuted, C49_named_tuple_refuted, C49_unused_node_refuted, C50_on_compute_device_partial, C50_first_module_refuted, C50_two_items_refuted, C50_other_objects_refuted, C51_arguments_bound, C52_broadcast, C52_mismatch, C52_batches, C52_length
- `EntThms.v`: C120_agree_partial, C120_blocks, C120_elements_partial, C120_empty_refuted, C120_integer_data_refuted, C120_block_count_refuted, C121_static_again, C121_inferred, C121_agree, C121_blocks, C121_half_step, C122_export_eager, C122_export_values_partial, C122_dynamic_refused, C122_attach, C122_integer_storage_refuted, C122_dtype_refuted
- `FlagsThms.v`: C18_block_restores, C18_value_inside, C18_blocks_are_lexical, C18_reused_context_refuted, C69_nested_traces_restore, C69_interleaved_blocks_refuted, C22_scoped_to_forward_partial, C22_exception_refuted, C22_reentrant_refuted, C22_two_handles_refuted
- `FltThms.v`: C156_all_nodes_once, C156_order, C156_types_independent
- `FuseThms.v`: C35_linear_idempotent_partial, C35_linear_quantizers_are_stable, C35_linear_models_partial, C35_fused_weights_partial, C35_forward_unchanged_partial, C35_other_memory, C35_other_modules, C35_twice_partial, C35_stubbed, C35_not_stubbed, C35_disabled_kept, C35_stub_only, C35_stub_only_stubs, C35_discovery, C35_rounding_refuted, C35_shared_unquantized_refuted, C36_tied_agree, C36_disagreement_rejected, C36_agreement_accepted, C36_order_independent_partial, C36_reshaped_tie_refuted, C36_transposed_tie_refuted, C36_shared_instance_refuted
- `FwdThms.v`: C145_conversion_keeps_results_partial, C145_one_call_partial, C145_padding_mode_refuted, C145_in_place_refuted, C146_quantizers_where_they_belong, C146_every_parameter_has_a_quantizer, C147_strict_mode_only_refuses, C147_stubs_are_refused
- `FwrThms.v`: C160_existing_files_are_kept, C160_one_file_is_written, C160_every_path, C161_interrupted_write_partial, C161_old_code_is_lost_refuted
- `FxThms.v`: C64_ends_and_keeps, C64_only_copies, C64_reaches_partial, C64_complete_partial, C64_complete_refuted, C76_removes_exactly, C76_same_function, C76_specs, C76_accepted, C77_faithful_partial, C77_raw_read_refuted, C77_two_quantizers_refuted, C78_view_commutes_partial, C78_per_tensor_partial, C78_transpose_refuted
- `GgufThms.v`: C59_scale_rounding, C59_scale_exact, C59_scale_overflow_refuted, C59_q4_0_packing, C59_q8_0_packing, C59_export_llama_q4_0, C59_export_qwen_q4_0, C59_export_llama_q8_0_partial, C59_export_qwen_q8_0_partial, C59_q8_0_minimum_refuted, C59_one_sided_refuted, C60_rope_permutation, C60_rope_documented, C60_rope_rejects, C60_scales_follow_codes, C73_names_injective, C73_llama_names, C73_complete, C73_float_unchanged, C73_newline_refuted, C74_quantized_row_order_partial, C74_float_row_order_refuted
- `GptqThms.v`: C37_hessian_partial, C37_order_independent_partial, C37_bad_entries_rejected, C37_empty_first_entry_rejected, C37_calibration_tensor_is_scaled, C37_dataset_for_two_layers_refuted, C37_repeated_tensor_refuted, C38_fixed_point_partial, C38_on_grid, C38_recurrence, C38_recurrence_unique, C38_total, C38_rejections, C38_other_channels_rejected, C38_zero_group_refuted, C83_block_size_partial, C83_block_size_refuted, C83_negative_block_size_refuted, C84_group_scales_partial, C84_aligned_groups_partial, C84_groups_inside_blocks_refuted
- `GraphThms.v`: C43_order, C43_raises_exactly, C43_failure_is_cycle, C43_closure, C44_ancestors, C44_stop, C44_strict, C45_find_cycle, C45_exactly
- `IdnThms.v`: C148_names_are_identifiers, C148_names_exist_partial, C148_names_resemble_the_code, C148_plain_names_are_kept, C148_no_name_refuted, C149_numbers_go_by_code, C149_all_are_numbered, C149_plain_names_differ_partial, C149_same_name_refuted
- `ImpThms.v`: C65_resolves_partial, C65_absolute, C65_package_refuted, C65_rejected_refuted, C94_imported_partial, C94_dotted_partial, C94_nothing_else_partial, C94_dotted_refuted, C94_builtin_refuted, C94_attribute_refuted, C94_rebound_refuted, C94_merged_partial, C94_merged_refuted
- `MemThms.v`: C164_source_of_a_name_partial, C164_module, C164_condition_refuted, C164_class_again_refuted
- `ModulesThms.v`: C27_conversion_partial, C27_unsupported_raises_first, C27_plain_container_refuted, C27_shared_module_refuted, C28_last_registration_wins, C28_registering_keeps_entries, C28_one_entry_per_class, C28_filters_are_scoped, C29_each_quantizer_once, C29_all_paths, C29_children_only, C30_config_precedence, C31_overwrite_and_skip, C31_error_raises, C66_tags_carry_parents, C66_tag_query_exact, C66_child_tag, C66_descent_is_an_order, C72_extension_exact_partial, C72_missing_attribute_refuted
- `MpathThms.v`: C39_query_exact, C39_two_names_refuted, C40_alternatives_partial, C40_alternatives_exact_partial, C40_star_alternative_refuted, C40_dropped_alternative_refuted, C40_divergence_refuted, C41_round_trip, C41_parsing_ends, C41_bracket_pattern_refuted, C41_digit_name_refuted, C42_set_operations, C42_different_roots, C42_module_sets_partial, C42_answers_on_trees, C42_shared_module_refuted
- `MtyThms.v`: C159_kind_and_variables_partial, C159_name_of_the_function, C159_no_method, C159_hidden_method_refuted, C159_star_args_refuted
- `NamThms.v`: C97_distinct_partial, C97_known, C97_steady_partial, C97_declared, C97_number_refuted, C97_prefix_refuted, C97_changes_refuted, C97_parameter_refuted, C98_classes, C98_plain, C98_helpers, C98_helpers_plain, C98_base_refuted, C98_import_refuted, C99_map, C99_value_partial, C99_keyword_refuted, C99_other_refuted
- `NlbThms.v`: C135_every_use_gets_a_quantizer_partial, C135_annotations_list_their_uses, C135_one_quantizer_per_expression, C135_shared_by_all_branches, C135_elif_refuted, C136_inserted_right_before_first_use, C137_rewritten_function_means_the_same_partial, C137_elif_refuted, C137_guarded_attribute_refuted, C137_reassigned_variable_refuted, C137_loop_variable_refuted, C137_name_collision_refuted
- `NrmThms.v`: C140_no_variable_is_lost_partial, C140_nested_star_refuted, C141_parts_get_the_right_values_partial, C141_single_element_refuted, C141_starred_value_refuted
- `OnxThms.v`: C102_serialized, C102_altered_partial, C102_counts, C102_unasked, C102_renamed_partial, C102_stages_partial, C102_altered_refuted, C102_inner_refuted, C102_passed_refuted, C103_copied_partial, C103_recorded, C103_source, C103_reaches_partial, C103_nothing_else_partial, C103_nodes_refuted, C103_unnamed_refuted, C103_results_refuted, C103_intermediate_refuted
- `OpsThms.v`: C104_refused, C104_computed, C104_flag, C104_table, C104_types, C104_default_partial, C104_defaults_partial, C104_pad_refuted, C104_optional_string_refuted, C104_unquantized_refuted, C104_optional_list_refuted, C104_optional_plain_refuted, C104_indices_refuted, C105_accepts, C105_binds, C105_counterpart_partial, C105_unpacked_refuted, C105_posonly_refuted, C105_kwonly_refuted
- `OptThms.v`: C106_append, C106_names, C106_alias, C106_succeeds, C106_operators, C106_listed, C106_contains, C106_loaded, C106_shipped, C106_atomic_refuted, C106_atomic_partial, C106_fallback_name_refuted
- `OrcThms.v`: C151_lookup_finds_the_last, C151_one_counts, C151_has, C151_register_raises, C152_export_runs_the_pipeline_partial, C152_export_fails, C152_options_win_refuted, C152_refused_with_directory_refuted
- `OverrideThms.v`: C19_forward_is_decorated, C19_second_call_refuted, C20_program_restores, C20_blocks_are_lexical, C20_disabled_passes_through, C21_ends_refuted, C21_activation_refuted, C21_frozen_partial
- `PatThms.v`: C125_exactly_the_instances_partial, C125_statements_stay_statements, C125_expression_slots_refuted, C125_repeated_captures_refuted, C125_parentheses_refuted, C126_text_read_back_partial, C126_parentheses_refuted, C127_stops_at_rest, C127_ends_partial, C127_endless_refuted, C127_parts_refuted, C128_scope, C128_filter, C128_one_result
- `PipelineThms.v`: C56_run, C57_insert_before, C57_insert_before_explicit_partial, C57_insert_after_partial, C57_replace_partial, C57_edits_raise, C57_replace_swaps_inputs_refuted, C57_insert_after_swaps_inputs_refuted, C57_insert_after_immediately_refuted, C57_insert_before_explicit_refuted, C58_add_dependency, C58_always_executable, C58_remove_dependency
- `PmgThms.v`: C150_passes_are_chained_partial, C150_class_is_kept, C150_errors_name_the_pass, C150_in_two_steps, C150_statements_dropped_refuted
- `QanThms.v`: C132_wanted_values_are_quantized_partial, C132_one_sided_else_refuted, C132_break_refuted, C132_continue_refuted, C132_try_refuted, C132_keyword_only_parameter_refuted, C132_with_items_refuted, C133_analysis_accepts_loop_free_functions_partial, C133_if_in_loop_refuted, C133_nested_break_refuted, C133_code_after_with_return_refuted, C134_quantizers_only_where_wanted, C134_quantized_results_are_left_alone
- `QdqThms.v`: C79_codes_partial, C79_values_partial, C79_accepted, C79_tie_refuted, C79_zero_point_refuted, C79_blocks_refuted, C79_fractional_refuted, C80_options_kept, C80_options_refused
- `QmThms.v`: C112_surrogates, C112_succeeds_partial, C112_requantize_refuted, C112_plain_refuted, C112_extra_refuted, C113_attribute_keeps, C113_assigned, C113_shared_metadata_partial, C113_warns, C113_silent_loss_refuted, C113_shared_quantizer_refuted, C113_error_refuted, C113_uninitialized_refuted, C114_summary, C114_lines, C114_distinct
- `QnrThms.v`: C153_longest_module_then_attributes, C153_names_have_parts, C153_found_if_there, C153_module, C154_names_lead_back_partial, C154_submodule_refuted, C154_local_refuted, C154_no_module_refuted
- `RangeThms.v`: C23_running_is_global, C23_running_extends_range, C23_split_independent, C24_smoothed_is_weighted_average, C24_weights_convex, C24_between_extremes, C24_smoothed_from_range, C25_grid_search_best, C25_uniform_grid_rows_partial, C25_uneven_grid_refuted, C26_no_trace, C26_prepare_error_refuted, C70_grid_covers_batch, C71_no_clipping
- `RegThms.v`: C53_entry_restored, C53_resolution_restored, C53_inside_block, C53_refused, C53_optimize_leaves_registry, C53_interleaved_blocks_refuted, C54_manager_used_partial, C54_generator_used, C54_key_gives_latest, C54_unknown_key_refused, C54_builtin_keys, C54_same_class_refuted, C54_name_taken, C54_declared_flows_unused_refuted, C85_with_targets_partial, C85_every_target_partial, C85_with_specs_partial, C85_registered_partial, C85_bound_arguments_dropped_refuted, C86_regions_exact, C86_regions_once, C86_types_in_model_order, C86_accepted, C86_register_replaces, C86_resolve_outcome, C86_resolve_arguments
- `RsvThms.v`: C165_resolved_names_are_at_home, C165_same_object_partial, C165_errors_pass, C165_swapped_names_refuted
- `SaveThms.v`: C32_shared_tensors, C32_dangling_alias, C32_round_trip_partial, C32_dtype_refuted, C32_views_refuted, C33_round_trip_partial, C33_lazy_rejected, C33_load_checks, C33_file_not_empty, C33_wrong_model, C33_no_parameters_refuted, C33_shared_module_refuted, C33_comma_refuted, C33_dtype_refuted, C34_overwrite_and_skip, C34_overwrite, C34_skip, C34_error, C34_error_on_stubs, C34_kept, C34_names, C34_atomic_refuted, C81_cache_partial, C81_tags_refuted, C81_names_refuted, C81_parent_refuted, C82_artifact_weights_partial, C82_weights_only, C82_tied_target_refuted
- `SdpThms.v`: C107_attention, C107_masked, C107_causal, C107_bounds, C107_penalised, C107_all_masked_refuted, C107_not_masked_refuted, C107_negative_refuted, C108_strict, C108_quantizers, C108_torch_partial, C108_torch_refuted, C108_torch_error_refuted, C109_scoped_partial, C109_early_refuted
- `SnrThms.v`: C166_nearer_partial, C166_original_is_best, C166_shapes, C166_one_entry, C166_batches, C166_exact_copy_refuted
- `StructuralThms.v`: C14_reshape, C14_transpose, C14_getitem, C14_expand, C14_take_along, C14_contiguous, C14_getitem_per_channel, C14_unsqueeze_per_tensor, C14_unsqueeze_per_tile_partial, C14_unsqueeze_per_channel_refuted, C14_scalar_multiply, C14_cat_partial, C14_cat_refuted, C14_topk_partial, C14_topk_refuted
- `SupThms.v`: C155_parent_methods_partial, C155_other_code_unchanged, C155_attribute_of_super_refuted, C155_method_of_attribute_refuted, C155_class_methods_refuted
- `ThrThms.v`: C95_calls, C95_known_parameters, C95_every_parameter_partial, C95_bound_partial, C95_not_shared_partial, C95_twice_refuted, C96_ends_partial, C96_circle_refuted
- `TilingThms.v`: C01_tiling_round_trip, C01_rows_round_trip, C02_rows_are_tiles, C02_each_position_once, C03_parameter_count, C03_tile_compatible, C04_granularity_recovery, C04_nondividing_refuted, C67_granularity_equality_partial, C67_granularity_equality_refuted
- `TokThms.v`: C157_columns_are_cut, C157_unique, C157_length_zero, C157_uneven_columns_refuted, C158_total_partial, C158_limit_zero_refuted, C158_large_limit_refuted
- `TrcThms.v`: C115_value_partial, C115_called_partial, C115_constant_refuted, C115_input_refuted, C115_skipped_refuted, C115_tuple_refuted, C116_well_formed, C116_keyword, C116_positional, C116_other, C116_collision_refuted, C116_names_refuted
- `UniThms.v`: C118_restored_partial, C118_captured, C118_moved, C118_last, C118_order_refuted, C118_transient_refuted, C118_tied_refuted, C119_history, C119_forgotten, C119_inputs_refuted
- `VocThms.v`: C162_tokens_at_their_ids_partial, C162_distinct_partial, C162_larger_ids_refuted, C162_filling_twice_refuted
- `WrkThms.v`: C100_types, C100_ends, C100_once, C100_complete, C100_exact, C101_all_partial, C101_inherited_refuted
- `WrnThms.v`: C163_no_warning_is_lost_partial, C163_place_partial, C163_replaced_root_refuted, C163_no_place
