(** Properties C46-C52: the instruction engine. *)
From Coq Require Import String Ascii Permutation Relations.
From Verif Require Import Prelude GraphModel GraphSpec GraphProofs EngineModel EngineSpec EngineBaseProofs EngineLifeProofs EngineOptProofs
  EngineInputProofs EngineContextProofs EngineSchedProofs EngineTopProofs EngineOffloadProofs EngineSameProofs EngineDeviceProofs EngineExamples EngineWitness.
Local Open Scope nat_scope.
Local Open Scope list_scope.

(** C46: Running the program scheduled for a graph returns, batch by batch, the values of the outputs, each node being
    evaluated on the values of its inputs, and every optimizer sees the values of the inputs of its node in each of its contexts, after all
    optimizers of nodes upstream. The run fails only with a [TypeError] for ill-formed arguments, a [ValueError] for streams of lengths that
    do not fit, or an error of user code: in particular it never looks for an activation that has not been produced.
    [f] is what calls return; they may depend on user state only through the property [P] that optimizers preserve.
    Partial: items of constants, and items of items of nodes that are not evaluated, are excluded by [refs_usable]. *)
Theorem C46_graph_run_partial :
  forall X U (s : semantics X U) (f : nat -> nat -> list (val X) -> list (string * val X) -> result (val X)) (P : U -> Prop) (pl : nat -> nat),
    (forall u c m a k, P u -> call s pl u c m a k = (f c m a k, u)) ->
    (forall u fn m bs u', P u -> optimize s pl u fn m bs = (Ok tt, u') -> P u') ->
  forall order g p args kwargs u0,
    (forall l, Permutation (order l) l) -> graph_ok g -> refs_usable g -> g_outputs g <> [] ->
    NoDup (map fst (g_inputs g)) -> NoDup (map snd (g_inputs g)) -> NoDup (map fst kwargs) -> P u0 ->
    schedule s order g = Ok p ->
    match run (traced false s) order p args kwargs (mkWorld pl (u0, [])) with
    | (w', Ok (_, Some out)) =>
        call_ok (map fst (g_inputs g)) args kwargs /\
        (exists ds o, Forall2 (means s f g (given_inputs g args kwargs) default_context) (g_outputs g) ds /\
                      aget Nat.eqb default_context out = Some o /\ returned_for ds o) /\
        exists ns, NoDup (map n_id ns) /\
          (forall n, In n ns <-> In n (g_nodes g) /\ is_leaf g (n_id n) /\ n_delegate n <> None /\ is_module s (n_target n) = true) /\
          (forall a b, In a ns -> In b ns -> clos_trans nat (feeds g) (n_id a) (n_id b) -> before (map n_id ns) (n_id a) (n_id b)) /\
          Forall2 (optimized_with s f g (given_inputs g args kwargs)) ns (snd (w_user w'))
    | (_, Ok (_, None)) => False
    | (_, Err e) => (e = TypeError /\ ~ call_ok (map fst (g_inputs g)) args kwargs) \/
                    (e = ValueError /\ misfit s f g (given_inputs g args kwargs)) \/ user_error s f e
    end.
Proof. intros X U s f P pl Hc Ho order g p args kwargs u0. exact (graph_run s f P pl Hc Ho order g p args kwargs u0). Qed.
Print Assumptions C46_graph_run_partial.
(** The contexts a node is evaluated in are exactly the ones in which its value is wanted. *)
Theorem C46_contexts_partial :
  forall X U (s : semantics X U) order g p, graph_ok g -> (forall l, Permutation (order l) l) -> schedule s order g = Ok p ->
  forall n, In n (g_nodes g) -> is_leaf g (n_id n) ->
    exists cs, In (CallModule (n_target n) (n_args n) (n_kwargs n) (RNode (n_id n) (n_name n)) cs) (p_instrs p) /\
      forall c, In c cs <-> wanted g c (n_id n).
Proof. exact scheduled_contexts. Qed.
Print Assumptions C46_contexts_partial.
(** Items of a constant cannot be evaluated. *)
Theorem C46_item_of_constant_refuted :
  graph_ok const_item_graph /\
  exists p, schedule exs idord const_item_graph = Ok p /\
    snd (run exs idord p [] [] (mkWorld (fun _ => 0) tt)) = Err OutOfMemory.
Proof. exact const_item. Qed.
Print Assumptions C46_item_of_constant_refuted.
(** A node that no output depends on makes the run fail if it takes an item of an item of such a node. *)
Theorem C46_unused_node_refuted :
  graph_ok dead_graph /\
  exists p, schedule exs idord dead_graph = Ok p /\
    snd (run exs idord p [GValue (T 0 4)] [] (mkWorld (fun _ => 0) tt)) = Err KeyError /\
    means exs (fun c => ex_call c (fun _ => 0)) dead_graph (given_inputs dead_graph [GValue (T 0 4)] []) 0 (nrf 3) [T 0 5].
Proof. exact dead_node. Qed.
Print Assumptions C46_unused_node_refuted.
Example C46_nonvacuous :
  (forall u c m a k, call exs (fun _ => 0) u c m a k = (ex_call c (fun _ => 0) m a k, u)) /\
  graph_ok ex_graph /\ refs_usable ex_graph /\
  exists p g w, schedule exs idord ex_graph = Ok p /\
    run (traced false exs) idord p [GDataset [T 0 1; T 0 2]] [] (mkWorld (fun _ => 0) (tt, [])) =
      (w, Ok (g, Some [(0, Multi [[T 0 112; T 0 2]; [T 0 114; T 0 3]]); (5, Single [T 0 2; T 0 3])])) /\
    snd (w_user w) = [Optimized 40 2 (let b := mkBundle [[T 0 2; T 0 3]; [T 0 107; T 0 107]] [("k"%string, [T 0 1; T 0 2])] in [b; b])].
Proof. exact run_example. Qed.

(** C47: The pass changes neither the calls made with their arguments nor what is returned or raised, and keeps the activations returned. *)
Theorem C47_lifetimes_same :
  forall X U (s : semantics X U) is w g,
    let before := run_instructions (traced true s) is w g in
    let after := run_instructions (traced true s) (lifetime_management_pass is) w g in
    fst after = fst before /\
    (forall e, snd before = Err e -> snd after = Err e) /\
    (forall g1 o, snd before = Ok (g1, o) ->
       exists g2, snd after = Ok (g2, o) /\ forall r, returned is r -> rget r g2 = rget r g1).
Proof. intros X U s is w g. exact (lifetime_same (traced true s) is w g). Qed.
Print Assumptions C47_lifetimes_same.
(** Afterwards every activation that was mentioned is gone, unless it is returned. *)
Theorem C47_lifetimes_clean :
  forall X U (s : semantics X U) is w g w' g' o,
    returns_last is -> run_instructions s (lifetime_management_pass is) w g = (w', Ok (g', o)) ->
    forall r, mentioned is r -> ~ returned is r -> rget r g' = None.
Proof. exact @lifetime_clean. Qed.
Print Assumptions C47_lifetimes_clean.
(** An activation is deleted right after the last instruction that mentions it: no later instruction does. *)
Theorem C47_deleted_at_once :
  forall X (is : list (instr X)) is1 ts is2, lifetime_management_pass is = is1 ++ DeleteRegisterEntries ts :: is2 ->
    (forall i, In i is -> match i with DeleteRegisterEntries _ => False | _ => True end) ->
    forall t, In t ts -> ~ mentioned is2 t /\ exists is0 i, is1 = is0 ++ [i] /\ mentioned [i] t.
Proof. exact deleted_at_once. Qed.
Print Assumptions C47_deleted_at_once.
Example C47_nonvacuous :
  returns_last (p_instrs ex_program) /\
  exists w g1 g2 o, run exs idord ex_program [GDataset [T 0 1; T 0 2]] [] (mkWorld (fun _ => 0) tt) = (w, Ok (g1, o)) /\
    run exs idord (mkProgram (lifetime_management_pass (p_instrs ex_program)) (p_inputs ex_program)) [GDataset [T 0 1; T 0 2]] [] (mkWorld (fun _ => 0) tt) = (w, Ok (g2, o)) /\
    map fst g1 = [xin; nrf 1; nrf 2; RAttr (nrf 2) (AInt 0); RConst 7; nrf 3] /\ map fst g2 = [nrf 1; nrf 3].
Proof. exact lifetime_example. Qed.

(** C48: every optimization instruction is kept, in order. *)
Theorem C48_optimizations_kept :
  forall X (is : list (instr X)),
    let is_optimization i := match i with OptimizeModule _ _ _ _ => true | _ => false end in
    filter is_optimization (optimization_only_pass is) = filter is_optimization is.
Proof. exact @optimization_kept. Qed.
Print Assumptions C48_optimizations_kept.
(** If a program as scheduled runs, the program the pass leaves makes the same optimizer calls with the same bundles, provided that calling
    modules has no side effects and some optimizer has a context. *)
Theorem C48_same_bundles_partial :
  forall X U (s : semantics X U) order p args kwargs u pl w' g o,
    (forall l, Permutation (order l) l) -> calls_pure s -> plain_program (p_instrs p) ->
    (forall m a k t cs, In (CallModule m a k t cs) (p_instrs p) -> NoDup cs) ->
    NoDup (map fst (p_inputs p)) -> NoDup (map snd (p_inputs p)) -> NoDup (map fst kwargs) ->
    (exists m a k d c, In (OptimizeModule m a k d) (p_instrs p) /\ In c (d_contexts d)) ->
    run (traced false s) order p args kwargs (mkWorld pl (u, [])) = (w', Ok (g, o)) ->
    exists g', run (traced false s) order (mkProgram (optimization_only_pass (p_instrs p)) (p_inputs p)) args kwargs (mkWorld pl (u, [])) = (w', Ok (g', None)).
Proof. exact same_bundles. Qed.
Print Assumptions C48_same_bundles_partial.
(** Not for every program: a stored dataset is dropped although an optimizer needs it. *)
Theorem C48_stored_value_refuted :
  exists (is : list (instr nat)) w g, snd (run_instructions exs is (mkWorld (fun _ => 0) tt) []) = Ok (g, None) /\
    run_instructions exs (optimization_only_pass is) (mkWorld (fun _ => 0) tt) [] = (w, Err KeyError).
Proof. exact stored_value. Qed.
Print Assumptions C48_stored_value_refuted.
(** Nor if calls have side effects: an optimizer then sees other activations. *)
Theorem C48_side_effects_refuted :
  exists (is : list (instr nat)) w w' g g',
    run_instructions (traced false counting) is (mkWorld (fun _ => 0) (0, [])) [] = (w, Ok (g, None)) /\
    run_instructions (traced false counting) (optimization_only_pass is) (mkWorld (fun _ => 0) (0, [])) [] = (w', Ok (g', None)) /\
    snd (w_user w) = [Optimized 40 2 [mkBundle [[T 0 1]] []]] /\ snd (w_user w') = [Optimized 40 2 [mkBundle [[T 0 0]] []]].
Proof. exact side_effects. Qed.
Print Assumptions C48_side_effects_refuted.
Example C48_nonvacuous :
  calls_pure exs /\ plain_program (p_instrs ex_program) /\
  optimization_only_pass (p_instrs ex_program) = firstn 3 (p_instrs ex_program) ++ [nth 4 (p_instrs ex_program) (ReturnOutputs [])] /\
  exists w g g' o, run (traced false exs) idord ex_program [GDataset [T 0 1; T 0 2]] [] (mkWorld (fun _ => 0) (tt, [])) = (w, Ok (g, o)) /\
    run (traced false exs) idord (mkProgram (optimization_only_pass (p_instrs ex_program)) (p_inputs ex_program)) [GDataset [T 0 1; T 0 2]] [] (mkWorld (fun _ => 0) (tt, [])) = (w, Ok (g', None)) /\
    length (snd (w_user w)) = 1.
Proof. exact opt_only_example. Qed.

(** C49: user state, results and errors are the same as without offloading. *)
Theorem C49_same_results_partial :
  forall X U (s : semantics X U) order is inputs compute storage g args kwargs w,
    device_blind s -> orderly_program is ->
    let before := run s order (mkProgram is inputs) args kwargs w in
    let after := run s order (mkProgram (offloading_pass s is compute storage g (w_place w)) inputs) args kwargs w in
    w_user (fst after) = w_user (fst before) /\
    same_result (fun x y => same_output (snd x) (snd y)) (snd before) (snd after).
Proof. exact offload_same_results. Qed.
Print Assumptions C49_same_results_partial.
(** After a run that does not return early every weight is where it was. *)
Theorem C49_weights_restored_partial :
  forall X U (s : semantics X U) is compute storage g w rg w' rg' o,
    no_moves is -> (forall i, In i is -> ~ is_return i) ->
    (forall i m, In i is -> ((exists a k t cs, i = CallModule m a k t cs) \/ (exists a k d, i = OptimizeModule m a k d)) -> is_module s m = true ->
       exists n, In n (g_nodes g) /\ n_op n = TorchModule /\ n_target n = m) ->
    (forall m, NoDup (map fst (weights s m))) ->
    run_instructions s (offloading_pass s is compute storage g (w_place w)) w rg = (w', Ok (rg', o)) ->
    forall x, w_place w' x = w_place w x.
Proof. exact @offload_restores. Qed.
Print Assumptions C49_weights_restored_partial.
(** A program with outputs returns before weights are moved back. *)
Theorem C49_return_refuted :
  schedule exs idord ex_graph = Ok ex_program /\
  exists w r, run exs idord (mkProgram (offloading_pass exs (p_instrs ex_program) 1 0 ex_graph (fun _ => 1)) (p_inputs ex_program))
                [GDataset [T 0 1; T 0 2]] [] (mkWorld (fun _ => 1) tt) = (w, Ok r) /\ w_place w 2 = 0.
Proof. exact return_early. Qed.
Print Assumptions C49_return_refuted.
(** An exception leaves weights on the storage device. *)
Theorem C49_exception_refuted :
  exists (is : list (instr nat)) w, no_moves is /\ (forall i, In i is -> ~ is_return i) /\
    run_instructions exs (offloading_pass exs is 1 0 ex_graph (fun _ => 1)) (mkWorld (fun _ => 1) tt) [] = (w, Err RuntimeError) /\ w_place w 2 = 0.
Proof. exact raise_early. Qed.
Print Assumptions C49_exception_refuted.
(** A module used by a node that is not marked as a module node is offloaded and never moved back. *)
Theorem C49_other_operation_refuted :
  exists g (is : list (instr nat)) w r, no_moves is /\ (forall i, In i is -> ~ is_return i) /\ In (CallModule 2 [] [] (nrf 0) [0]) is /\
    (exists n, In n (g_nodes g) /\ n_target n = 2) /\
    run_instructions exs (offloading_pass exs is 1 0 g (fun _ => 1)) (mkWorld (fun _ => 1) tt) [] = (w, Ok r) /\ w_place w 2 = 0.
Proof. exact other_operation. Qed.
Print Assumptions C49_other_operation_refuted.
(** Named tuples returned lose their field names. *)
Theorem C49_named_tuple_refuted :
  exists g p, schedule exs idord g = Ok p /\
    let result is := match snd (run exs idord (mkProgram is (p_inputs p)) [GValue (T 0 1)] [] (mkWorld (fun _ => 0) tt)) with Ok (_, o) => o | Err _ => None end in
    result (p_instrs p) = Some [(0, Single [Tup ["left"%string; "right"%string] [T 0 1; T 0 1]])] /\
    result (offloading_pass exs (p_instrs p) 1 0 g (fun _ => 0)) = Some [(0, Single [Tup [] [T 0 1; T 0 1]])].
Proof. exact named_tuple. Qed.
Print Assumptions C49_named_tuple_refuted.
(** A graph with a node that no output depends on and that takes an item of such a node runs, but not with offloading. *)
Theorem C49_unused_node_refuted :
  exists g p w r w', graph_ok g /\ schedule exs idord g = Ok p /\
    run exs idord p [GValue (T 0 4)] [] (mkWorld (fun _ => 0) tt) = (w, Ok r) /\
    run exs idord (mkProgram (offloading_pass exs (p_instrs p) 1 0 g (fun _ => 0)) (p_inputs p)) [GValue (T 0 4)] [] (mkWorld (fun _ => 0) tt) = (w', Err KeyError).
Proof. exact unused_offload. Qed.
Print Assumptions C49_unused_node_refuted.
Example C49_nonvacuous :
  device_blind exs /\ orderly_program (p_instrs ex_program) /\ orderly_program (lifetime_management_pass (p_instrs ex_program)) /\
  (exists w r w' r', run exs idord ex_program [GDataset [T 0 1; T 0 2]] [] (mkWorld (fun _ => 0) tt) = (w, Ok r) /\
     run exs idord (mkProgram (offloading_pass exs (p_instrs ex_program) 1 0 ex_graph (fun _ => 0)) (p_inputs ex_program)) [GDataset [T 0 1; T 0 2]] [] (mkWorld (fun _ => 0) tt) = (w', Ok r')) /\
  (exists w r, run exs idord (mkProgram (offloading_pass exs (optimization_only_pass (p_instrs ex_program)) 1 0 ex_graph (fun _ => 1)) (p_inputs ex_program))
     [GDataset [T 0 1; T 0 2]] [] (mkWorld (fun _ => 1) tt) = (w, Ok r)).
Proof. exact offload_example. Qed.

(** C50: every call of a module and every optimizer finds the weights of its module and all given tensors on the compute device.
    Partial: no items of values are taken, values have their tensors in tuples, lists and dictionaries, and
    the first module called is not the last one the graph lists (or starts out on the compute device and shares no weights). *)
Theorem C50_on_compute_device_partial :
  forall X U (s : semantics X U) compute storage g is inputs order args kwargs pl u,
    item_free s is -> single_assignment is -> stays_on s compute ->
    (forall i, on_device compute (constv s i) = true) ->
    (forall v, In v (args ++ map snd kwargs) -> given_movable v) ->
    (forall m, begins_with s is m ->
       (forall n, In n (g_nodes g) -> module_node s n -> n_target n <> m) \/ not_last s g m \/ (loaded_on s compute pl m /\ untied s g m)) ->
    snd (w_user (fst (run (watched compute s) order (mkProgram (offloading_pass s is compute storage g pl) inputs) args kwargs (mkWorld pl (u, true))))) = true.
Proof. exact @offload_device. Qed.
Print Assumptions C50_on_compute_device_partial.
(** A graph whose only module starts out on the storage device is run there. *)
Theorem C50_first_module_refuted :
  exists g p w r, schedule exs idord g = Ok p /\ (exists n, g_nodes g = [n] /\ module_node exs n) /\
    run (watched 1 exs) idord (mkProgram (offloading_pass exs (p_instrs p) 1 0 g (fun _ => 0)) (p_inputs p)) [GValue (T 1 1)] [] (mkWorld (fun _ => 0) (tt, true)) = (w, Ok r) /\
    snd (w_user w) = false.
Proof. exact first_module. Qed.
Print Assumptions C50_first_module_refuted.
(** A module given two items of the same value gets only one of them on the compute device. *)
Theorem C50_two_items_refuted :
  exists g p w r, schedule exs idord g = Ok p /\
    run (watched 1 exs) idord (mkProgram (offloading_pass exs (p_instrs p) 1 0 g (fun _ => 1)) (p_inputs p)) [GValue (T 1 1)] [] (mkWorld (fun _ => 1) (tt, true)) = (w, Ok r) /\
    snd (w_user w) = false.
Proof. exact two_items. Qed.
Print Assumptions C50_two_items_refuted.
(** Tensors held by other objects stay where they are. *)
Theorem C50_other_objects_refuted :
  exists g p w r, schedule exs idord g = Ok p /\
    run (watched 1 exs) idord (mkProgram (offloading_pass exs (p_instrs p) 1 0 g (fun _ => 1)) (p_inputs p))
      [GValue (Obj 3 [("x"%string, T 0 3)])] [] (mkWorld (fun _ => 1) (tt, true)) = (w, Ok r) /\
    snd (w_user w) = false.
Proof. exact other_objects. Qed.
Print Assumptions C50_other_objects_refuted.
Example C50_nonvacuous :
  item_free dev_exs (p_instrs chain_program) /\ single_assignment (p_instrs chain_program) /\ stays_on dev_exs 1 /\
  (forall i, on_device 1 (constv dev_exs i) = true) /\ given_movable (GDataset [T 0 1; T 0 2]) /\
  begins_with dev_exs (p_instrs chain_program) 1 /\ not_last dev_exs chain_graph 1 /\
  exists w r, run (watched 1 dev_exs) idord (mkProgram (offloading_pass dev_exs (p_instrs chain_program) 1 0 chain_graph (fun _ => 0)) (p_inputs chain_program))
    [GDataset [T 0 1; T 0 2]] [] (mkWorld (fun _ => 0) (tt, true)) = (w, Ok r).
Proof. exact device_example. Qed.

(** C51: arguments are bound as in a Python call. *)
Theorem C51_arguments_bound :
  forall X (refs : list (string * nat)) (args : list (given (X:=X))) (kwargs : list (string * given)) contexts,
    NoDup (map fst refs) -> NoDup (map snd refs) -> NoDup (map fst kwargs) ->
    (call_ok (map fst refs) args kwargs ->
      exists g, prepare_input_register refs args kwargs contexts = Ok g /\
        (forall n id v c, In (n, id) refs -> bound (map fst refs) args kwargs n v -> In c contexts -> load (RInput id n) c g = Ok (Data (from_value v))) /\
        (forall r c e, load r c g = Ok e ->
           exists n id v, same_ref r (RInput id n) /\ In (n, id) refs /\ bound (map fst refs) args kwargs n v /\ In c contexts /\ e = Data (from_value v))) /\
    (~ call_ok (map fst refs) args kwargs -> prepare_input_register refs args kwargs contexts = Err TypeError).
Proof. exact @inputs_bind. Qed.
Print Assumptions C51_arguments_bound.
Example C51_nonvacuous :
  let refs := [("a"%string, 3); ("b"%string, 4); ("c"%string, 5)] in
  let t n : given := GValue (T 0 n) in
  call_ok (map fst refs) [t 1] [("c"%string, t 2); ("b"%string, t 3)] /\
  (exists g, prepare_input_register refs [t 1] [("c"%string, t 2); ("b"%string, t 3)] [0; 5] = Ok g /\ load (RInput 4 "b") 5 g = Ok (Data [T 0 3])) /\
  ~ call_ok (map fst refs) [t 1] [("a"%string, t 2); ("b"%string, t 3); ("c"%string, t 3)] /\
  ~ call_ok (map fst refs) [t 1] [("b"%string, t 3)] /\
  ~ call_ok (map fst refs) [t 1; t 1; t 1; t 1] [] /\
  ~ call_ok (map fst refs) [t 1; t 1; t 1] [("z"%string, t 3)].
Proof. exact bind_example. Qed.

(** C52: streams of lengths 1 and N: the singletons are repeated, the others kept. *)
Theorem C52_broadcast :
  forall A (ds : list (list A)) N,
    (forall d, In d ds -> length d = 1 \/ length d = N) -> (exists d, In d ds /\ length d = N) ->
    exists ds', broadcast ds = Ok ds' /\
      Forall2 (fun d d' => length d = N /\ d' = d \/ exists a, d = [a] /\ d' = repeat a N) ds ds'.
Proof. exact @broadcast_ok. Qed.
Print Assumptions C52_broadcast.
Theorem C52_mismatch :
  forall A (ds : list (list A)) d1 d2, In d1 ds -> In d2 ds -> length d1 <> length d2 -> length d1 <> 1 -> length d2 <> 1 ->
    broadcast ds = Err ValueError.
Proof. exact @broadcast_err. Qed.
Print Assumptions C52_mismatch.
(** Batch [i] of a bundle consists of element [i] of each stream. *)
Theorem C52_batches :
  forall X U (s : semantics X U) g c args kwargs b i,
    gather s g c args kwargs = Ok b -> i < bundle_len b ->
    exists ds ks xs ys,
      Forall2 (fun r d => dataset_of s g c r = Ok d) args ds /\ Forall2 (fun r d => dataset_of s g c r = Ok d) (map snd kwargs) ks /\
      batch b i = Ok (xs, combine (map fst kwargs) ys) /\
      Forall2 (fun d x => element d i x) ds xs /\ Forall2 (fun d x => element d i x) ks ys.
Proof. exact gathered_batches. Qed.
Print Assumptions C52_batches.
(** A bundle has as many batches as the longest stream (none if some stream is empty). *)
Theorem C52_length :
  forall X U (s : semantics X U) g c args kwargs b, gather s g c args kwargs = Ok b -> args ++ map snd kwargs <> [] ->
    exists r d, In r (args ++ map snd kwargs) /\ dataset_of s g c r = Ok d /\ length d = bundle_len b /\
      forall r' d', In r' (args ++ map snd kwargs) -> dataset_of s g c r' = Ok d' -> length d' = 1 \/ length d' = bundle_len b.
Proof. exact gathered_length. Qed.
Print Assumptions C52_length.
Example C52_nonvacuous :
  broadcast [[1; 2; 3]; [7]; [4; 5; 6]] = Ok [[1; 2; 3]; [7; 7; 7]; [4; 5; 6]] /\ broadcast [[1; 2]; [7]; [4; 5; 6]] = Err ValueError /\
  broadcast [[]; [7]] = Ok [[]; []] /\
  exists b, gather exs [(xin, [(0, Data [T 0 1; T 0 2])])] 0 [xin] [("k"%string, RConst 7)] = Ok b /\ bundle_len b = 2 /\
    batch b 1 = Ok ([T 0 2], [("k"%string, T 0 107)]).
Proof. exact broadcast_example. Qed.
