(** Specification vocabulary for the rewriting of graphs. *)
From Coq Require Import String Ascii DecimalString DecimalZ Relations.
From Verif Require Import Prelude GraphModel GraphSpec EngineModel EngineSpec CoarseModel.
Local Open Scope nat_scope.
Local Open Scope list_scope.

(** ** Values *)
Section Value.
  Context {X U : Type} (s : semantics X U).
  Variable f : nat -> nat -> list (val X) -> list (string * val X) -> result (val X).
  (** An item of a value, or an attribute if taking the item raises a [KeyError] or [TypeError]. *)
  Inductive attr_value : attr -> val X -> val X -> Prop :=
  | av_item a v w : item s v a = Ok w -> attr_value a v w
  | av_attr k v w : item s v (AStr k) = Err KeyError \/ item s v (AStr k) = Err TypeError -> getattr s v k = Ok w -> attr_value (AStr k) v w.
  (** The value of a reference in a context, given a value for every input (by id): nodes are
      evaluated on the values of their arguments. *)
  Inductive value (g : graph) (inp : nat -> val X -> Prop) (c : nat) : ref -> val X -> Prop :=
  | v_input i n v : inp i v -> value g inp c (RInput i n) v
  | v_const i : value g inp c (RConst i) (constv s i)
  | v_attr r a v w : value g inp c r v -> attr_value a v w -> value g inp c (RAttr r a) w
  | v_node x nm xs ys v : In x (g_nodes g) ->
      Forall2 (value g inp c) (n_args x) xs -> Forall2 (value g inp c) (map snd (n_kwargs x)) ys ->
      f c (n_target x) xs (combine (map fst (n_kwargs x)) ys) = Ok v ->
      value g inp c (RNode (n_id x) nm) v.

  (** The values given to the inputs of a graph, in order. *)
  Definition positional (g : graph) (vs : list (val X)) (id : nat) (v : val X) : Prop :=
    exists i k, nth_error (g_inputs g) i = Some (k, id) /\ nth_error vs i = Some v.

  (** What calling a graph on tensors returns: the value of its output, or the tuple of the values of
      its outputs; all nodes are evaluated. *)
  Definition graph_call (g : graph) (c : nat) (vs : list (val X)) (v : val X) : Prop :=
    length vs = length (g_inputs g) /\ (forall x, In x vs -> exists d t, x = Tensor d t) /\
    (forall n, In n (g_nodes g) -> exists w, value g (positional g vs) c (RNode (n_id n) (n_name n)) w) /\
    exists outs, Forall2 (value g (positional g vs) c) (g_outputs g) outs /\
      v = match outs with [w] => w | _ => Tup [] outs end.
End Value.

(** Items of tuples. *)
Definition tuple_items {X U} (s : semantics X U) : Prop :=
  forall vs i v, nth_error vs i = Some v -> item s (Tup [] vs) (AInt (Z.of_nat i)) = Ok v.

(** ** Graphs *)
Fixpoint has_char (ch : ascii) (t : string) : Prop :=
  match t with EmptyString => False | String x t' => x = ch \/ has_char ch t' end.
(** The reference names an input or a node that is no fold by its own id and name, or is constant,
    or an item of such a reference. *)
Inductive well_named (g : graph) : ref -> Prop :=
| wn_node n : In n (g_nodes g) -> ~ In (n_id n) (g_folds g) -> well_named g (RNode (n_id n) (n_name n))
| wn_input k i : In (k, i) (g_inputs g) -> well_named g (RInput i k)
| wn_const i : well_named g (RConst i)
| wn_attr r a : well_named g r -> well_named g (RAttr r a).
(** Graphs as they are built: ids and names differ, names have no brackets, references are to
    inputs and leaves, outputs are of nodes, the fold a node is in was added before. *)
Record tidy (g : graph) : Prop := mkTidy {
  tidy_ids : graph_ok g;
  tidy_names : NoDup (map n_name (g_nodes g) ++ map fst (g_inputs g));
  tidy_input_ids : NoDup (map snd (g_inputs g));
  tidy_chars : forall n, In n (map n_name (g_nodes g) ++ map fst (g_inputs g)) -> ~ has_char "["%char n;
  tidy_refs : forall n r, In n (g_nodes g) -> In r (call_refs n) -> well_named g r;
  tidy_outputs : forall r, In r (g_outputs g) -> well_named g r /\ exists x, about r x;
  tidy_parents : forall l1 n l2 p, g_nodes g = l1 ++ n :: l2 -> n_parent n = Some p -> In p (map n_id l1) /\ In p (g_folds g) }.

(** Node [x] is inside fold [p]. *)
Inductive within (g : graph) : gnode -> nat -> Prop :=
| within_here n p : n_parent n = Some p -> within g n p
| within_up n q m p : n_parent n = Some q -> In m (g_nodes g) -> n_id m = q -> within g m p -> within g n p.
(** A leaf of the fold that is read by a leaf outside of it, or is an output of the graph. *)
Definition exposed (g : graph) (p x : nat) : Prop :=
  (exists n, In n (g_nodes g) /\ n_id n = x /\ within g n p) /\ is_leaf g x /\
  ((exists m, In m (g_nodes g) /\ is_leaf g (n_id m) /\ ~ within g m p /\ feeds g x (n_id m)) \/
   exists o, In o (g_outputs g) /\ about o x).
(** The exposed leaves in the order in which they were added. *)
Definition exposed_list (g : graph) (p : nat) (l : list nat) : Prop :=
  NoDup l /\ (forall x, In x l <-> exposed g p x) /\ forall x y, before l x y -> before (map n_id (g_nodes g)) x y.

Section Faithful.
  Context {X U : Type} (s : semantics X U).
  Variable f : nat -> nat -> list (val X) -> list (string * val X) -> result (val X).
  (** Calling the module of a fold gives the value of its exposed leaf, or the values of its exposed
      leaves as items. *)
  Definition folds_faithful (g : graph) (inp : nat -> val X -> Prop) (c : nat) : Prop :=
    forall n outs vs, In n (g_nodes g) -> In (n_id n) (g_folds g) -> exposed_list g (n_id n) outs ->
    Forall2 (fun x v => value s f g inp c (RNode x "") v) outs vs ->
    exists w, value s f g inp c (RNode (n_id n) (n_name n)) w /\
      match vs with [v] => w = v | _ => forall i v, nth_error vs i = Some v -> attr_value s (AInt (Z.of_nat i)) w v end.
  (** Every node can be evaluated. *)
  Definition all_values (g : graph) (inp : nat -> val X -> Prop) (c : nat) : Prop :=
    forall n, In n (g_nodes g) -> exists v, value s f g inp c (RNode (n_id n) (n_name n)) v.
  (** Whatever a node takes that is not constant is a tensor. *)
  Definition tensor_arguments (g : graph) (inp : nat -> val X -> Prop) (c : nat) : Prop :=
    forall n r v, In n (g_nodes g) -> In r (call_refs n) -> (forall i, unwrap r <> RConst i) -> value s f g inp c r v -> exists d t, v = Tensor d t.
  (** [f'] behaves as [f] on the targets of the graph and calls the subgraphs. *)
  Definition with_subgraphs (g : graph) (subs : list (nat * graph)) (f' : nat -> nat -> list (val X) -> list (string * val X) -> result (val X)) : Prop :=
    (forall c n a k, In n (g_nodes g) -> f' c (n_target n) a k = f c (n_target n) a k) /\
    forall t sub c vs v, In (t, sub) subs -> graph_call s f sub c vs v -> f' c t vs [] = Ok v.
End Faithful.

(** Not an item of an item, and not an attribute whose name is a number. *)
Definition flat (r : ref) : Prop :=
  match r with
  | RAttr (RAttr _ _) _ => False
  | RAttr _ (AStr t) => NilZero.int_of_string t = None
  | _ => True
  end.
(** Only modules are targeted. *)
Definition modules_only (specs : list subgraph_spec) : Prop := forall sp, In sp specs -> exists t, s_region sp = RModule t.
(** Arguments are no items of items, outputs are no items. *)
Definition flat_graph (g : graph) : Prop :=
  (forall n r, In n (g_nodes g) -> In r (call_refs n) -> flat r) /\
  forall r, In r (g_outputs g) -> exists i n, r = RNode i n.

(** ** When coarsening succeeds *)

(** A member of [P] that a node outside reads, or that is an output of the graph. *)
Definition seen (g : graph) (P : list nat) (x : nat) : Prop :=
  In x P /\ is_leaf g x /\ ((exists m, node_in g m /\ ~ In m P /\ feeds g x m) \/ exists o, In o (g_outputs g) /\ about o x).
(** [P] can be computed in one go, with the results [S]: there is a result, every member contributes to
    one, and whatever reads a member from outside depends on all results. *)
Definition orderly (g : graph) (P S : nat -> Prop) : Prop :=
  (exists x, S x) /\
  (forall x, P x -> exists e, S e /\ clos_refl_trans nat (feeds g) x e) /\
  forall e x y, S e -> P x -> is_leaf g y -> ~ P y -> feeds g x y -> clos_trans nat (feeds g) e y.
(** The leaves in a fold. *)
Definition inside (g : graph) (p x : nat) : Prop := (exists n, In n (g_nodes g) /\ n_id n = x /\ within g n p) /\ is_leaf g x.
(** Folds can be computed in one go, from arguments that leaves in them use. *)
Definition orderly_folds (g : graph) : Prop :=
  forall n, In n (g_nodes g) -> In (n_id n) (g_folds g) ->
    orderly g (inside g (n_id n)) (exposed g (n_id n)) /\
    forall r x, In r (call_refs n) -> about r x -> ~ inside g (n_id n) x /\ exists y, inside g (n_id n) y /\ feeds g x y.
(** The regions have no node in common, and none is in a fold that is part of another. *)
Definition apart (g : graph) (paths : list (list nat)) : Prop :=
  (forall i j P Q x, nth_error paths i = Some P -> nth_error paths j = Some Q -> i <> j -> In x P -> ~ In x Q) /\
  forall P Q x n, In P paths -> In Q paths -> In x P -> In n (g_nodes g) -> In (n_id n) Q -> ~ within g n x.
