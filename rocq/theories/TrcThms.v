(** Properties C115 and C116: traced graphs. *)
From Coq Require Import String Ascii Relations Permutation.
From Verif Require Import Prelude GraphModel GraphSpec EngineModel EngineSpec EngineExamples CoarseModel CoarseSpec BuildModel BuildSpec BuildWitness NamModel NamProofs TrcModel TrcSpec TrcValueProofs TrcGraphProofs TrcNameProofs TrcWitness.
Local Open Scope nat_scope.
Local Open Scope list_scope.

(** C115: The graph made of an exported program has one output, whose value for given inputs is what the program
    returns for them: modules within modules are inlined, containers are put together, attributes are read.
    [h] is user code, [f] what the nodes of the graph call.  Partial: programs are [regular_program]: a program may
    return constants or its inputs, or use one-element tuples and results of skipped functions. *)
Theorem C115_value_partial :
  forall X U (h : host X) (s : semantics X U) f atom attribute o root c,
    targets_called h f o -> constants_held h s atom attribute o root -> attributes_shared h attribute o root ->
    captured_run h atom attribute root -> originals_run h atom attribute o root -> regular_program o root ->
  forall positional next g next' vs v,
    build_root o root positional next = Ok (g, next') -> run_program h atom attribute root vs = Ok v ->
    exists r, g_outputs g = [r] /\ value s f g (CoarseSpec.positional g vs) c r v.
Proof. intros X U h s f atom attribute o root c H1 H2 H3 H4 H5 [H6 H7] positional next g next' vs v. exact (root_value h s f atom attribute o root c H1 H2 H3 H4 H5 H7 positional next g next' vs v H6). Qed.
Print Assumptions C115_value_partial.

(** C115: Calling the graph on tensors returns what the program returns, or fails with an error of user code. *)
Theorem C115_called_partial :
  forall X U (h : host X) (s : semantics X U) text iterate (f : nat -> nat -> list (val X) -> list (string * val X) -> result (val X)) (P : U -> Prop) (pl : nat -> nat),
    (forall u c m a k, P u -> call s pl u c m a k = (f c m a k, u)) ->
    (forall u fn m bs u', P u -> optimize s pl u fn m bs = (Ok tt, u') -> P u') -> attributes_agree s ->
  forall atom attribute o root,
    targets_called h f o -> constants_held h s atom attribute o root -> attributes_shared h attribute o root ->
    captured_run h atom attribute root -> originals_run h atom attribute o root ->
  forall positional next g next' order args kwargs vs u v,
    regular_program o root -> build_root o root positional next = Ok (g, next') -> run_program h atom attribute root vs = Ok v ->
    (forall l, Permutation (order l) l) -> NoDup (map fst kwargs) -> P u -> call_ok (map fst (g_inputs g)) args kwargs ->
    Forall2 (fun n v => tensor v /\ bound (map fst (g_inputs g)) args kwargs n (GValue v)) (map fst (g_inputs g)) vs ->
    match snd (snd (forward s text iterate order (mkGm g None) args kwargs (mkWorld pl u))) with
    | Ok r => returned_batches r [v]
    | Err e => user_error s f e
    end.
Proof.
  intros X U h s text iterate f P pl Hc Ho Ha atom attribute o root H1 H2 H3 H4 H5.
  exact (traced_call h s text iterate f P pl Hc Ho Ha atom attribute o root H1 H2 H3 H4 H5).
Qed.
Print Assumptions C115_called_partial.
Example C115_nonvacuous :
  (targets_called w_host w_f w_origin /\ constants_held w_host w_sem w_atom w_attribute w_origin w_root /\ attributes_shared w_host w_attribute w_origin w_root /\
   captured_run w_host w_atom w_attribute w_root /\ originals_run w_host w_atom w_attribute w_origin w_root /\ regular_program w_origin w_root) /\
  build_root w_origin w_root [] 0 = Ok (w_graph, 12) /\ length (g_nodes w_graph) = 9 /\ g_folds w_graph = [7] /\ map fst (g_inputs w_graph) = ["x"%string] /\
  run_program w_host w_atom w_attribute w_root [T 0 5] = Ok w_result /\
  snd (snd (forward w_sem b_text b_iterate idord (mkGm w_graph None) [] [("x"%string, GValue (T 0 5))] (mkWorld (fun _ => 0) tt))) = Ok (One w_result).
Proof. exact w_traced. Qed.
(** C115: A constant among the results is dropped. *)
Theorem C115_constant_refuted :
  run_program w_host w_atom w_attribute p_const [T 0 5] = Ok (Tup ["left"%string; "right"%string] [T 0 6; T 0 7]) /\
  (exists next, build_root w_origin p_const [] 0 = Ok (const_graph, next)) /\
  snd (snd (forward w_sem b_text b_iterate idord (mkGm const_graph None) [GValue (T 0 5)] [] (mkWorld (fun _ => 0) tt))) = Ok (One (Tup ["left"%string; "right"%string] [T 0 6])).
Proof. exact const_dropped. Qed.
Print Assumptions C115_constant_refuted.
(** C115: A program that returns an input is not traced. *)
Theorem C115_input_refuted :
  run_program w_host w_atom w_attribute p_same [T 0 5] = Ok (Tup ["left"%string; "right"%string] [T 0 6; T 0 5]) /\ build_root w_origin p_same [] 0 = Err AssertionError.
Proof. exact input_returned. Qed.
Print Assumptions C115_input_refuted.
(** C115: Nor is one that uses the result of a function that is skipped. *)
Theorem C115_skipped_refuted :
  run_program w_host w_atom w_attribute p_skip [T 0 5] = Ok (Tup ["left"%string; "right"%string] [T 0 6]) /\ build_root w_origin p_skip [] 0 = Err KeyError.
Proof. exact skipped_used. Qed.
Print Assumptions C115_skipped_refuted.
(** C115: A module that returns a tuple of one result seems to return the result. *)
Theorem C115_tuple_refuted :
  run_program w_host w_atom w_attribute p_tuple [T 0 5] = Ok (Tup ["left"%string; "right"%string] [T 0 9]) /\
  (exists next, build_root w_origin p_tuple [] 0 = Ok (tuple_graph, next)) /\
  snd (snd (forward w_sem b_text b_iterate idord (mkGm tuple_graph None) [GValue (T 0 5)] [] (mkWorld (fun _ => 0) tt))) = Err TypeError.
Proof. exact tuple_lost. Qed.
Print Assumptions C115_tuple_refuted.

(** C116: Whatever is traced, the graph can be scheduled: nodes differ, take results of nodes before them only, there are no
    cycles, inputs differ in name and identity; their names are those of the placeholders, as the caller knows them. *)
Theorem C116_well_formed :
  forall o m positional next g next', build_root o m positional next = Ok (g, next') ->
    graph_ok g /\ refs_usable g /\ leaf_inputs g /\ ~ cyclic g /\ NoDup (map fst (g_inputs g)) /\ NoDup (map snd (g_inputs g)) /\
    map fst (g_inputs g) = map (fun k => unmangle k positional) (input_names m) /\ forall X U (s : semantics X U) order, exists p, schedule s order g = Ok p.
Proof. exact traced_ok. Qed.
Print Assumptions C116_well_formed.
(** C116: What the exporter makes of names is undone, other names are kept. *)
Theorem C116_keyword : forall k positional, k <> ""%string -> unmangle ("l_kw_" ++ k ++ "_") positional = k.
Proof. exact unmangle_keyword. Qed.
Print Assumptions C116_keyword.
Theorem C116_positional : forall i positional,
  unmangle ("l_a_" ++ decimal i ++ "_") positional = match nth_error positional i with Some p => p | None => ("arg_" ++ decimal i)%string end.
Proof. exact unmangle_positional. Qed.
Print Assumptions C116_positional.
Theorem C116_other : forall name positional,
  (forall k, k <> ""%string -> name <> ("l_kw_" ++ k ++ "_")%string) -> (forall d, all_digits d = true -> name <> ("l_a_" ++ d ++ "_")%string) -> unmangle name positional = name.
Proof. exact unmangle_other. Qed.
Print Assumptions C116_other.
Example C116_nonvacuous :
  input_names w_root = ["l_kw_x_"%string] /\ map fst (g_inputs w_graph) = ["x"%string] /\ unmangle "l_a_1_" ["a"%string; "b"%string] = "b"%string /\ unmangle "l_a_2_" ["a"%string; "b"%string] = "arg_2"%string /\ unmangle "hidden" ["a"%string] = "hidden"%string.
Proof. refine (conj _ (conj _ (conj _ (conj _ _)))); vm_compute; reflexivity. Qed.
(** C116: Placeholders of different names may be given one name; such a program is not traced. *)
Theorem C116_collision_refuted :
  NoDup (input_names p_twice) /\ run_program w_host w_atom w_attribute p_twice [T 0 5; T 0 6] = Ok (Tup ["left"%string; "right"%string] [T 0 11]) /\ build_root w_origin p_twice [] 0 = Err ValueError.
Proof. exact names_collide. Qed.
Print Assumptions C116_collision_refuted.
(** C116: Nodes need not differ in name: a module called twice gives two nodes of its name. *)
Theorem C116_names_refuted :
  (exists next, build_root w_origin p_again [] 0 = Ok (again_graph, next)) /\ NoDup (map x_name (m_fx p_again)) /\
  exists a b, In a (g_nodes again_graph) /\ In b (g_nodes again_graph) /\ n_name a = "block"%string /\ n_name b = "block"%string /\ n_id a <> n_id b /\ n_target a = n_target b.
Proof. exact called_twice. Qed.
Print Assumptions C116_names_refuted.
