(** Properties C87-C89: building and calling graphs. *)
From Coq Require Import String Ascii Relations Permutation.
From Verif Require Import Prelude GraphModel GraphSpec GraphProofs EngineModel EngineSpec EngineExamples CoarseModel CoarseSpec CoarseValueProofs CoarseBaseProofs CoarseWitness BuildModel BuildSpec BuildProofs BuildTidyProofs BuildCallProofs BuildWitness.
Local Open Scope nat_scope.
Local Open Scope list_scope.

(** C87: A graph called on an iterable of batches (dictionaries, tuples, lists or objects with a value for
    every input) returns, batch by batch, what the graph computes for the values of that batch. It fails only
    if the graph cannot be scheduled, with an error of user code, or if an output depends on no input.
    [f] is what calls return; they may depend on user state only through the property [P] that optimizers preserve.
    Partial: batches are all dictionaries, all tuples or lists, or all objects; string items raise only [KeyError] and
    [TypeError] and agree with attributes; graphs as in C46. *)
Theorem C87_batches_partial :
  forall X U (s : semantics X U) text iterate (f : nat -> nat -> list (val X) -> list (string * val X) -> result (val X)) (P : U -> Prop) (pl : nat -> nat),
    (forall u c m a k, P u -> call s pl u c m a k = (f c m a k, u)) ->
    (forall u fn m bs u', P u -> optimize s pl u fn m bs = (Ok tt, u') -> P u') ->
    attributes_agree s -> plain_items s ->
  forall order g a first bs row0 rows u,
    (forall l, Permutation (order l) l) -> graph_ok g -> refs_usable g -> g_outputs g <> [] ->
    NoDup (map fst (g_inputs g)) -> NoDup (map snd (g_inputs g)) -> P u ->
    iterable iterate a (first :: bs) -> Forall2 (batch_of s (map fst (g_inputs g))) (first :: bs) (row0 :: rows) -> (forall b, In b bs -> same_shape first b) ->
    match snd (snd (forward s text iterate order (mkGm g None) [a] [] (mkWorld pl u))) with
    | Ok r => exists l, returned_batches r l /\ (length l = length (first :: bs) \/ length l = 1) /\
                        forall i row, nth_error (row0 :: rows) i = Some row -> exists v, element l i v /\ graph_output s f g row v
    | Err e => schedule s order g = Err e \/ user_error s f e \/ (e = ValueError /\ bs <> [] /\ exists o, In o (g_outputs g) /\ ~ reads_input g o)
    end.
Proof. intros X U s text iterate f P pl Hc Ho Ha Hp. exact (forward_batches s text iterate f P pl Hc Ho Ha Hp). Qed.
Print Assumptions C87_batches_partial.
Example C87_batches_nonvacuous :
  attributes_agree bxs /\ plain_items bxs /\ (graph_ok gp /\ refs_usable gp /\ g_outputs gp <> [] /\ NoDup (map fst (g_inputs gp)) /\ NoDup (map snd (g_inputs gp))) /\
  exists b1 b2, iterable b_iterate dict_batches [b1; b2] /\ Forall2 (batch_of bxs (map fst (g_inputs gp))) [b1; b2] [[T 0 2; T 0 1]; [T 0 3; T 0 4]] /\ (forall b, In b [b2] -> same_shape b1 b) /\
  snd (snd (forward bxs b_text b_iterate idord (mkGm gp None) [dict_batches] [] w0)) = Ok (PerContext [(0, Single [Tup [] [T 0 2; T 0 1]; Tup [] [T 0 3; T 0 4]])]).
Proof. split; [exact bxs_agree|]. split; [exact bxs_plain|]. split; [exact gp_ok|exact dict_batches_ok]. Qed.

(** C87: What is no single iterable is passed on as it is, and an iterable of tensors is a stream for the one input. *)
Theorem C87_passed_on : forall X U (s : semantics X U) text iterate names args kwargs,
  length args <> 1 \/ kwargs <> [] \/ (exists v, args = [GValue v] /\ tensor v) -> sanitize s text iterate names args kwargs = Ok (args, kwargs).
Proof. intros X U s text iterate. exact (sanitize_passes s text iterate). Qed.
Print Assumptions C87_passed_on.
Theorem C87_stream : forall X U (s : semantics X U) text iterate names a bs,
  iterable iterate a bs -> bs <> [] -> (forall b, In b bs -> tensor b) -> sanitize s text iterate names [a] [] = Ok ([GValue (Lst bs)], []).
Proof. intros X U s text iterate. exact (sanitize_stream s text iterate). Qed.
Print Assumptions C87_stream.

(** C87: Also an iterable of values that are no batches (some input is no key, the length is another, an attribute is missing)
    is a stream for the one input. *)
Theorem C87_other_stream : forall X U (s : semantics X U) text iterate names a first bs,
  iterable iterate a (first :: bs) ->
  match first with
  | Dic l => exists n, In n names /\ ~ In n (map fst l)
  | Tup _ l | Lst l => length l <> length names
  | _ => True
  end ->
  (exists n, In n names /\ getattr s first n = Err AttributeError) ->
  (forall n, In n names -> getattr s first n = Err AttributeError \/ exists v, getattr s first n = Ok v) ->
  sanitize s text iterate names [a] [] = Ok ([GValue (Lst (first :: bs))], []).
Proof. intros X U s text iterate. exact (sanitize_other s text iterate). Qed.
Print Assumptions C87_other_stream.

(** C87: Named tuples with the fields of the inputs are bound by position: fields in another order end up at the wrong inputs. *)
Theorem C87_named_tuple_refuted :
  getattr bxs swapped "x" = Ok (T 0 2) /\ getattr bxs swapped "y" = Ok (T 0 1) /\
  snd (snd (forward bxs b_text b_iterate idord (mkGm gp None) [GValue (Lst [swapped])] [] w0)) = Ok (One (Tup [] [T 0 1; T 0 2])).
Proof. exact namedtuple_refuted. Qed.
Print Assumptions C87_named_tuple_refuted.
(** C87: A tuple given as the value of the only input is taken for several batches, by keyword it is not. *)
Theorem C87_tuple_value_refuted :
  graph_output bxs fx gt [a_pair] (Tup [] [a_pair]) /\
  snd (snd (forward bxs b_text b_iterate idord (mkGm gt None) [GValue a_pair] [] w0)) = Ok (PerContext [(0, Single [Tup [] [T 0 1]; Tup [] [T 0 2]])]) /\
  snd (snd (forward bxs b_text b_iterate idord (mkGm gt None) [] [("x"%string, GValue a_pair)] w0)) = Ok (One (Tup [] [a_pair])).
Proof. exact tuple_value_refuted. Qed.
Print Assumptions C87_tuple_value_refuted.
(** C87: Only the first batch is checked: values of later batches that belong to no input are dropped. *)
Theorem C87_uneven_refuted :
  ~ (exists vs, batch_of bxs (map fst (g_inputs gp)) (Tup [] [T 0 3; T 0 4; T 0 5]) vs) /\
  snd (snd (forward bxs b_text b_iterate idord (mkGm gp None) [GValue (Lst [Tup [] [T 0 1; T 0 2]; Tup [] [T 0 3; T 0 4; T 0 5]])] [] w0)) =
    Ok (PerContext [(0, Single [Tup [] [T 0 1; T 0 2]; Tup [] [T 0 3; T 0 4]])]).
Proof. exact uneven_refuted. Qed.
Print Assumptions C87_uneven_refuted.

(** C88: The references [add_subgraph] returns have the values the subgraph computes for the values of the
    arguments; other references keep their values. *)
Theorem C88_values : forall X U (s : semantics X U) f g fid name sub args kwargs original g' outs inp c vs,
  tidy sub -> add_subgraph g fid name sub args kwargs original = (g', Ok outs) -> argument_values s f g inp c (map fst (g_inputs sub)) args kwargs vs ->
  (forall r v, value s f g inp c r v -> value s f g' inp c r v) /\
  Forall2 (fun o o' => forall v, value s f sub (positional sub vs) c o v -> value s f g' inp c o' v) (g_outputs sub) outs.
Proof. exact @inlined_value. Qed.
Print Assumptions C88_values.
Example C88_values_nonvacuous :
  tidy sub1 /\ add_subgraph g1 5 "s" sub1 args1 kw1 (Some 3) = (g2, Ok outs2) /\
  forall c x y, argument_values exs fx g1 (positional g1 [T 0 x; T 0 y]) c (map fst (g_inputs sub1)) args1 kw1 (b_vals x y) /\
    Forall2 (value exs fx sub1 (positional sub1 (b_vals x y)) c) (g_outputs sub1) [T 0 (2 + (1 + (y + 0) + (x + 0))); T 0 (1 + (y + 0))].
Proof. split; [exact (proj1 (built_invariant _ _ sub1_built))|]. split; [exact g2_eq|]. intros c x y. split; [apply g1_arguments|apply sub1_values]. Qed.

(** C88: It succeeds if and only if the subgraph has outputs, the arguments fit and the nodes are new. *)
Theorem C88_accepted : forall g fid name sub args kwargs original, tidy sub -> NoDup (map fst kwargs) ->
  (exists g' outs, add_subgraph g fid name sub args kwargs original = (g', Ok outs)) <->
  g_outputs sub <> [] /\ call_ok (map fst (g_inputs sub)) args kwargs /\ forall x, In x (ids_of sub) -> ~ In x (ids_of g) /\ (original <> None -> x <> fid).
Proof. exact subgraph_accepted. Qed.
Print Assumptions C88_accepted.
(** C88: Arguments that do not fit are rejected, and the graph is as before. *)
Theorem C88_rejected : forall g fid name sub args kwargs original, NoDup (map fst (g_inputs sub)) -> NoDup (map fst kwargs) ->
  g_outputs sub = [] \/ ~ call_ok (map fst (g_inputs sub)) args kwargs -> add_subgraph g fid name sub args kwargs original = (g, Err ValueError).
Proof. exact subgraph_rejected. Qed.
Print Assumptions C88_rejected.
(** C88: If the subgraph stands for a module, there is a fold for the call of the module with the given arguments, and
    all nodes of the subgraph are in it. *)
Theorem C88_fold : forall g fid name sub args kwargs t g' outs, tidy sub -> add_subgraph g fid name sub args kwargs (Some t) = (g', Ok outs) ->
  In (mkNode fid name t args TorchModule kwargs None None) (g_nodes g') /\ In fid (g_folds g') /\
  (forall n, In n (g_nodes sub) -> exists n', In n' (g_nodes g') /\ n_id n' = n_id n /\ n_name n' = (name ++ "." ++ n_name n)%string /\ n_target n' = n_target n /\ n_op n' = n_op n /\ within g' n' fid).
Proof. exact fold_within. Qed.
Print Assumptions C88_fold.
(** C88: Every graph built by calls that succeed, with new ids and names, is tidy, and the references handed out are references of it. *)
Theorem C88_built : forall g hs, built g hs -> tidy g /\ forall r, In r hs -> well_named g r.
Proof. intros g hs H. destruct (built_invariant g hs H) as (A & B & _). auto. Qed.
Print Assumptions C88_built.
Example C88_built_nonvacuous : built g2 (outs2 ++ [RNode 2 "p"; yin; xin]) /\ g_folds g2 = [5] /\ length (g_nodes g2) = 4.
Proof. split; [exact g2_built|split; reflexivity]. Qed.
(** C88: A subgraph whose nodes are in the graph already is rejected only after the fold was added: the graph is not as before. *)
Theorem C88_twice_refuted :
  tidy g2 /\ tidy sub1 /\ g_outputs sub1 <> [] /\ call_ok (map fst (g_inputs sub1)) args1 kw1 /\
  add_subgraph g2 6 "t" sub1 args1 kw1 (Some 3) = (g3, Err ValueError) /\ In (mkNode 6 "t" 3 args1 TorchModule kw1 None None) (g_nodes g3) /\ In 6 (g_folds g3) /\ g3 <> g2.
Proof. exact twice_refuted. Qed.
Print Assumptions C88_twice_refuted.
(** C55: Nodes of the same name are accepted, and coarsening then takes one for the other: the output changes. *)
Theorem C55_duplicate_names_refuted :
  (exists ga gb gc, add_input (mkGraph [] [] [] []) "x" 0 = Ok ga /\ rfold add_node (g_nodes dup) ga = Ok gb /\ add_output gb [RNode 4 "o"] = (gc, Ok tt) /\ gc = dup) /\
  exists g' subs ts, reduce_resolution idord idord dup dup_specs = Ok (g', subs, ts) /\
    (forall c x, value exs fx dup (positional dup [T 0 x]) c (RNode 4 "o") (T 0 (8 + (1 + (x + 0)) + ((2 + (x + 0)) + 0)))) /\
    exists o, g_outputs g' = [o] /\ forall c x, value exs (fsub subs) g' (positional g' [T 0 x]) c o (T 0 (8 + (2 + (x + 0)) + ((2 + (x + 0)) + 0))).
Proof. exact dup_refuted. Qed.
Print Assumptions C55_duplicate_names_refuted.

(** C89: A graph called on tensors, by position or by name, returns what it computes for these; it fails only if it
    cannot be scheduled or with an error of user code. *)
Theorem C89_values_partial :
  forall X U (s : semantics X U) text iterate (f : nat -> nat -> list (val X) -> list (string * val X) -> result (val X)) (P : U -> Prop) (pl : nat -> nat),
    (forall u c m a k, P u -> call s pl u c m a k = (f c m a k, u)) ->
    (forall u fn m bs u', P u -> optimize s pl u fn m bs = (Ok tt, u') -> P u') -> attributes_agree s ->
  forall order g args kwargs vs u,
    (forall l, Permutation (order l) l) -> graph_ok g -> refs_usable g -> g_outputs g <> [] ->
    NoDup (map fst (g_inputs g)) -> NoDup (map snd (g_inputs g)) -> NoDup (map fst kwargs) -> P u -> call_ok (map fst (g_inputs g)) args kwargs ->
    Forall2 (fun n v => tensor v /\ bound (map fst (g_inputs g)) args kwargs n (GValue v)) (map fst (g_inputs g)) vs ->
    match snd (snd (forward s text iterate order (mkGm g None) args kwargs (mkWorld pl u))) with
    | Ok r => exists v, returned_batches r [v] /\ graph_output s f g vs v
    | Err e => schedule s order g = Err e \/ user_error s f e
    end.
Proof. intros X U s text iterate f P pl Hc Ho Ha. exact (forward_values s text iterate f P pl Hc Ho Ha). Qed.
Print Assumptions C89_values_partial.
Example C89_values_nonvacuous :
  Forall2 (fun n v => tensor v /\ bound (map fst (g_inputs gp)) [GValue (T 0 5)] [("y"%string, GValue (T 0 6))] n (GValue v)) (map fst (g_inputs gp)) [T 0 5; T 0 6] /\
  call_ok (map fst (g_inputs gp)) [GValue (T 0 5)] [("y"%string, GValue (T 0 6))] /\
  snd (snd (forward bxs b_text b_iterate idord (mkGm gp None) [GValue (T 0 5)] [("y"%string, GValue (T 0 6))] w0)) = Ok (One (Tup [] [T 0 5; T 0 6])).
Proof. exact values_ok. Qed.
(** C89: After any history in which inputs and outputs are added before the first call, a call does what it does on
    a graph never called before. *)
Theorem C89_history_partial : forall X U (s : semantics X U) text iterate order l m w, m_program m = None -> ends_first l ->
  forall m' w', steps s text iterate order l m w = (m', w') ->
  forall args kwargs w, snd (forward s text iterate order m' args kwargs w) = snd (forward s text iterate order (mkGm (m_graph m') None) args kwargs w).
Proof. intros X U s text iterate order. exact (history_forward s text iterate order). Qed.
Print Assumptions C89_history_partial.
Example C89_history_nonvacuous :
  ends_first nodes_ops /\ exists m, steps bxs b_text b_iterate idord nodes_ops empty_module w0 = (m, w0) /\ length (g_nodes (m_graph m)) = 2 /\
    snd (snd (forward bxs b_text b_iterate idord m [GValue (T 0 7)] [] w0)) = Ok (One (T 0 8)).
Proof. split; [exact nodes_ops_ok|]. eexists. split; [reflexivity|split; reflexivity]. Qed.
(** C89: A node or a subgraph that is added makes up for any history before. *)
Theorem C89_node_resets : forall X U (s : semantics X U) text iterate order h n l m w,
  (forall m1 w1, steps s text iterate order h m w = (m1, w1) -> ~ In (n_id n) (ids_of (m_graph m1))) -> ends_first l ->
  forall m' w', steps s text iterate order (h ++ AddNode n :: l) m w = (m', w') ->
  forall args kwargs w, snd (forward s text iterate order m' args kwargs w) = snd (forward s text iterate order (mkGm (m_graph m') None) args kwargs w).
Proof. intros X U s text iterate order. exact (node_resets s text iterate order). Qed.
Print Assumptions C89_node_resets.
Theorem C89_subgraph_resets : forall X U (s : semantics X U) text iterate order h fid name sub args kwargs original l m w, g_outputs sub <> [] -> ends_first l ->
  forall m' w', steps s text iterate order (h ++ AddSubgraph fid name sub args kwargs original :: l) m w = (m', w') ->
  forall args kwargs w, snd (forward s text iterate order m' args kwargs w) = snd (forward s text iterate order (mkGm (m_graph m') None) args kwargs w).
Proof. intros X U s text iterate order. exact (subgraph_resets s text iterate order). Qed.
Print Assumptions C89_subgraph_resets.
(** C89: Calls do not change the graph. *)
Theorem C89_graph_kept : forall X U (s : semantics X U) text iterate order m args kwargs w, m_graph (fst (forward s text iterate order m args kwargs w)) = m_graph m.
Proof. intros X U s text iterate order. exact (forward_graph s text iterate order). Qed.
Print Assumptions C89_graph_kept.
(** C89: An output added after a call is not returned, and an input added after a call is not accepted. *)
Theorem C89_stale_refuted :
  let ops := [AddInput "x" 0; AddNode (nd 2 "a" 1 [xin] None); AddNode (nd 3 "b" 2 [RNode 2 "a"] None); AddOutput [RNode 2 "a"]; Forward [GValue (T 0 7)] []; AddOutput [RNode 3 "b"]; AddInput "y" 1] in
  exists m, steps bxs b_text b_iterate idord ops empty_module w0 = (m, w0) /\ g_outputs (m_graph m) = [RNode 2 "a"; RNode 3 "b"] /\ map fst (g_inputs (m_graph m)) = ["x"%string; "y"%string] /\
    snd (snd (forward bxs b_text b_iterate idord m [GValue (T 0 7)] [] w0)) = Ok (One (T 0 8)) /\
    snd (snd (forward bxs b_text b_iterate idord m [GValue (T 0 7); GValue (T 0 1)] [] w0)) = Err TypeError /\
    snd (snd (forward bxs b_text b_iterate idord (mkGm (m_graph m) None) [GValue (T 0 7); GValue (T 0 1)] [] w0)) = Ok (One (Tup [] [T 0 8; T 0 10])).
Proof. exact stale_refuted. Qed.
Print Assumptions C89_stale_refuted.
