(** Theorems about reducing the resolution of graphs (C55). *)
From Coq Require Import String Ascii DecimalString DecimalZ Relations Permutation.
From Verif Require Import Prelude GraphModel GraphSpec EngineModel EngineSpec EngineExamples CoarseModel CoarseSpec CoarseProofs CoarseTotalProofs CoarseExtraProofs CoarseWitness.
Local Open Scope nat_scope.
Local Open Scope list_scope.

(** C55: when [reduce_resolution] returns a graph, it has the inputs of the original one, and each output
    has the value of the same output of the original graph, and no other, if subgraphs are called as
    graphs.  Calling the module of a fold must give what its leaves give.  For spans and groups, what
    nodes take must be tensors, and items of items are left out. *)
Theorem C55_values_partial : forall X U (s : semantics X U) f f' g g' specs subs ts c vs ord ord',
  (forall l, Permutation (ord l) l) -> (forall l, Permutation (ord' l) l) -> tidy g ->
  reduce_resolution ord ord' g specs = Ok (g', subs, ts) ->
  folds_faithful s f g (positional g vs) c -> all_values s f g (positional g vs) c -> with_subgraphs s f g subs f' -> tuple_items s ->
  modules_only specs \/ flat_graph g /\ tensor_arguments s f g (positional g vs) c ->
  map fst (g_inputs g') = map fst (g_inputs g) /\
  Forall2 (fun o o' => forall v, value s f g (positional g vs) c o v -> forall w, value s f' g' (positional g' vs) c o' w <-> w = v) (g_outputs g) (g_outputs g').
Proof. exact same_values. Qed.
Print Assumptions C55_values_partial.
Example C55_values_nonvacuous :
  tidy gr /\ reduce_resolution idord idord gr gr_specs = Ok (gr', gr_subs, gr_ts) /\
  folds_faithful exs fx gr (positional gr gr_in) 0 /\ all_values exs fx gr (positional gr gr_in) 0 /\ with_subgraphs exs fx gr gr_subs (fsub gr_subs) /\ tuple_items exs /\
  flat_graph gr /\ tensor_arguments exs fx gr (positional gr gr_in) 0 /\
  value exs fx gr (positional gr gr_in) 0 (RNode 9 "o") (T 0 85) /\ length (g_nodes gr) = 9 /\ length (g_nodes gr') = 5.
Proof.
  destruct gr_values as (A & B & C). repeat (split; [first [exact gr_tidy|exact gr_reduced|exact C|exact B|exact gr_calls|exact tuples|exact gr_flat|exact A]|]).
  split; [apply (ev_ok fx gr _ 0 50); vm_compute; reflexivity|]. split; reflexivity.
Qed.

(** C55: values are what the engine computes for one batch. *)
Theorem C55_engine_values : forall X U (s : semantics X U) f g c vs r v,
  value s f g (positional g vs) c r v <-> means s f g (fun i l => exists x, l = [x] /\ positional g vs i x) c r [v].
Proof. exact run_values. Qed.
Print Assumptions C55_engine_values.

(** C55: [reduce_resolution] succeeds if the graph has no cycle, every region resolves, regions are apart,
    and folds, spans and groups can be computed in one go. *)
Theorem C55_succeeds_partial : forall g ord ord' specs paths,
  (forall l, Permutation (ord l) l) -> (forall l, Permutation (ord' l) l) -> tidy g -> ~ cyclic g -> orderly_folds g ->
  Forall2 (fun sp P => exists sub, resolve_spec ord ord' g sp = Ok (P, sub)) specs paths -> apart g paths ->
  Forall2 (fun sp P => (exists t, s_region sp = RModule t) \/ orderly g (fun x => In x P) (seen g P)) specs paths ->
  exists g' subs ts, reduce_resolution ord ord' g specs = Ok (g', subs, ts).
Proof. exact reduce_total. Qed.
Print Assumptions C55_succeeds_partial.
Example C55_succeeds_nonvacuous :
  tidy gr /\ ~ cyclic gr /\ orderly_folds gr /\ g_folds gr <> [] /\
  Forall2 (fun sp P => exists sub, resolve_spec idord idord gr sp = Ok (P, sub)) gr_specs gr_paths /\ apart gr gr_paths /\
  Forall2 (fun sp P => (exists t, s_region sp = RModule t) \/ orderly gr (fun x => In x P) (seen gr P)) gr_specs gr_paths.
Proof. split; [exact gr_tidy|]. split; [exact gr_acyclic|]. split; [exact gr_orderly|]. split; [discriminate|]. split; [exact gr_resolved|]. split; [exact gr_apart|exact gr_regions]. Qed.

(** C55: a span of which only the end is read from outside, and a group that some node reads, can be
    computed in one go. *)
Theorem C55_span_in_one_go : forall g P b, tidy g -> (forall x, In x P -> clos_refl_trans nat (feeds g) x b) -> (forall x, seen g P x <-> x = b) ->
  orderly g (fun x => In x P) (seen g P).
Proof. exact span_orderly. Qed.
Print Assumptions C55_span_in_one_go.
Theorem C55_group_in_one_go : forall g P z, tidy g -> node_in g z -> ~ In z P -> (exists x, In x P) -> (forall x, In x P -> feeds g x z) ->
  (forall x x' y, In x P -> In x' P -> feeds g x y -> feeds g x' y) -> orderly g (fun x => In x P) (seen g P).
Proof. exact group_orderly. Qed.
Print Assumptions C55_group_in_one_go.

(** C55: every spec has a target of its own, a node of the new graph with this target has the delegate of
    the spec, and nodes with other targets have none. *)
Theorem C55_delegates : forall ord ord' g specs g' subs ts, reduce_resolution ord ord' g specs = Ok (g', subs, ts) ->
  NoDup ts /\ Forall2 (fun sp t => exists n, In n (g_nodes g') /\ n_target n = t /\ n_delegate n = Some (s_delegate sp)) specs ts /\
  (forall n, In n (g_nodes g') -> ~ In (n_target n) ts -> n_delegate n = None).
Proof. exact reduce_delegates. Qed.
Print Assumptions C55_delegates.
Example C55_delegates_nonvacuous : reduce_resolution idord idord gr gr_specs = Ok (gr', gr_subs, gr_ts) /\ gr_ts = [12; 13; 8] /\ exists n, In n (g_nodes gr') /\ ~ In (n_target n) gr_ts.
Proof. split; [exact gr_reduced|]. split; [reflexivity|]. eexists. split; [left; reflexivity|]. vm_compute. intros [K|[K|[K|[]]]]; discriminate. Qed.

(** C55 is false in general: the item of an item that enters a span becomes another item. Silently, the
    new graph computes something else. *)
Theorem C55_values_refuted : exists (f f' : nat -> nat -> list (val nat) -> list (string * val nat) -> result (val nat)) g specs g' subs ts vs o o' v v',
  tidy g /\ ~ cyclic g /\ g_folds g = [] /\ reduce_resolution idord idord g specs = Ok (g', subs, ts) /\
  all_values exs f g (positional g vs) 0 /\ with_subgraphs exs f g subs f' /\ g_outputs g = [o] /\ g_outputs g' = [o'] /\
  value exs f g (positional g vs) 0 o v /\ value exs f' g' (positional g' vs) 0 o' v' /\ v <> v'.
Proof. exact deep_refuted. Qed.
Print Assumptions C55_values_refuted.

(** C55 is false in general: results of a fold are taken in the order in which its leaves were added, not in
    the order in which its module returns them. *)
Theorem C55_fold_order_refuted : exists (f : nat -> nat -> list (val nat) -> list (string * val nat) -> result (val nat)) g specs g' ts vs n a b va vb,
  tidy g /\ ~ cyclic g /\ modules_only specs /\ reduce_resolution idord idord g specs = Ok (g', [], ts) /\
  all_values exs f g (positional g vs) 0 /\ In n (g_nodes g) /\ g_folds g = [n_id n] /\ exposed_list g (n_id n) [a; b] /\
  value exs f g (positional g vs) 0 (RNode a "") va /\ value exs f g (positional g vs) 0 (RNode b "") vb /\ value exs f g (positional g vs) 0 (RNode (n_id n) (n_name n)) (Tup [] [vb; va]) /\
  exists o o' r r' v v', g_outputs g = o :: r /\ g_outputs g' = o' :: r' /\ value exs f g (positional g vs) 0 o v /\ value exs f g' (positional g' vs) 0 o' v' /\ v <> v'.
Proof. exact swap_refuted. Qed.
Print Assumptions C55_fold_order_refuted.

(** C55 is false in general: an output of the graph that is an item of a node in a span is indexed twice. *)
Theorem C55_output_item_refuted : exists (f f' : nat -> nat -> list (val nat) -> list (string * val nat) -> result (val nat)) g specs g' subs ts vs o o' v,
  tidy g /\ ~ cyclic g /\ g_folds g = [] /\ reduce_resolution idord idord g specs = Ok (g', subs, ts) /\
  all_values exs f g (positional g vs) 0 /\ tensor_arguments exs f g (positional g vs) 0 /\ with_subgraphs exs f g subs f' /\ g_outputs g = [o] /\ g_outputs g' = [o'] /\
  value exs f g (positional g vs) 0 o v /\ forall w, ~ value exs f' g' (positional g' vs) 0 o' w.
Proof. exact outi_refuted. Qed.
Print Assumptions C55_output_item_refuted.

(** C55 is false in general: a span raises a [KeyError] if a node outside of it reads one of its nodes before
    its end is computed. *)
Theorem C55_span_refuted : exists g sp P sub, tidy g /\ ~ cyclic g /\ g_folds g = [] /\ resolve_spec idord idord g sp = Ok (P, Some sub) /\ reduce_resolution idord idord g [sp] = Err KeyError.
Proof. exact cut_refuted. Qed.
Print Assumptions C55_span_refuted.

(** C55 is false in general: a fold and a leaf in it are not seen as overlapping targets, and raise a
    [KeyError]. *)
Theorem C55_nested_refuted : exists g t t' n m, tidy g /\ ~ cyclic g /\ orderly_folds g /\ node_of_target g t = Ok n /\ node_of_target g t' = Ok m /\ n_id n <> n_id m /\ within g m (n_id n) /\
  forall d d', reduce_resolution idord idord g [mkSpec (RModule t) d; mkSpec (RModule t') d'] = Err KeyError.
Proof. exact nested_refuted. Qed.
Print Assumptions C55_nested_refuted.
