(** Specification vocabulary for building and calling graphs. *)
From Coq Require Import String Ascii Relations.
From Verif Require Import Prelude GraphModel GraphSpec EngineModel EngineSpec CoarseModel CoarseSpec BuildModel.
Local Open Scope nat_scope.
Local Open Scope list_scope.

(** ** Building *)
Definition names_of (g : graph) : list string := map n_name (g_nodes g) ++ map fst (g_inputs g).
Definition ids_of (g : graph) : list nat := map n_id (g_nodes g).
(** References made from those the user was handed. *)
Inductive made (hs : list ref) : ref -> Prop :=
| made_handle r : In r hs -> made hs r
| made_const i : made hs (RConst i)
| made_attr r a : made hs r -> made hs (RAttr r a).
(** A name not in use, without brackets. *)
Definition new_name (g : graph) (n : string) : Prop := ~ In n (names_of g) /\ ~ has_char "["%char n.
(** Graphs built by calls that succeed, with the references handed out.  Ids are new, and the user
    chooses names that are not in use. *)
Inductive built : graph -> list ref -> Prop :=
| built_empty : built (mkGraph [] [] [] []) []
| built_input g hs name id g' : built g hs -> add_input g name id = Ok g' -> ~ In id (map snd (g_inputs g)) -> new_name g name -> built g' (RInput id name :: hs)
| built_node g hs n g' : built g hs -> add_node g n = Ok g' -> (forall r, In r (call_refs n) -> made hs r) -> n_parent n = None -> new_name g (n_name n) ->
    built g' (RNode (n_id n) (n_name n) :: hs)
| built_output g hs l g' : built g hs -> add_output g l = (g', Ok tt) -> (forall r, In r l -> made hs r) -> built g' hs
| built_subgraph g hs sub hs' fid name args kwargs original g' outs : built g hs -> built sub hs' -> add_subgraph g fid name sub args kwargs original = (g', Ok outs) ->
    (forall r, In r (args ++ map snd kwargs) -> made hs r) -> NoDup (map fst kwargs) -> ~ In fid (ids_of g) -> ~ In fid (ids_of sub) ->
    name <> ""%string -> ~ has_char "["%char name -> (original <> None -> ~ In name (names_of g)) -> (forall n, In n (g_nodes sub) -> ~ In (name ++ "." ++ n_name n)%string (names_of g)) -> built g' (outs ++ hs).

(** The values of the arguments for the inputs of a subgraph, in the order of these. *)
Definition argument_values {X U} (s : semantics X U) f (g : graph) (inp : nat -> val X -> Prop) (c : nat) (names : list string) (args : list ref) (kwargs : list (string * ref)) (vs : list (val X)) : Prop :=
  Forall2 (fun n v => exists r, bound names args kwargs n r /\ value s f g inp c r v) names vs.

(** ** Calling *)

(** Items of dictionaries, tuples and lists are what is in them. *)
Definition plain_items {X U} (s : semantics X U) : Prop :=
  (forall l k v, NoDup (map fst l) -> In (k, v) l -> item s (Dic l) (AStr k) = Ok v) /\
  forall nm l i v, nth_error l i = Some v -> item s (Tup nm l) (AInt (Z.of_nat i)) = Ok v /\ item s (Lst l) (AInt (Z.of_nat i)) = Ok v.
(** A batch with values for inputs [names]: [batch_of names b vs]. *)
Inductive batch_of {X U} (s : semantics X U) (names : list string) : val X -> list (val X) -> Prop :=
| batch_dict l vs : NoDup (map fst l) -> Forall2 (fun n v => In (n, v) l) names vs -> batch_of s names (Dic l) vs
| batch_tuple nm vs : length vs = length names -> batch_of s names (Tup nm vs) vs
| batch_list vs : length vs = length names -> batch_of s names (Lst vs) vs
| batch_object x f vs : Forall2 (fun n v => getattr s (Obj x f) n = Ok v) names vs -> batch_of s names (Obj x f) vs.
(** The same kind of batch. *)
Definition same_shape {X} (a b : val X) : Prop :=
  match a, b with Dic _, Dic _ => True | Tup _ _, Tup _ _ => True | Lst _, Lst _ => True | Tup _ _, Lst _ => True | Lst _, Tup _ _ => True | Obj _ _, Obj _ _ => True | _, _ => False end.
(** An iterable with these elements. *)
Inductive iterable {X} (iterate : X -> list (string * val X) -> option (list (val X))) : given (X:=X) -> list (val X) -> Prop :=
| it_dataset l : iterable iterate (GDataset l) l
| it_loader l : iterable iterate (GLoader l) l
| it_list l : iterable iterate (GValue (Lst l)) l
| it_tuple nm l : iterable iterate (GValue (Tup nm l)) l
| it_object x f l : iterate x f = Some l -> iterable iterate (GValue (Obj x f)) l.
Definition tensor {X} (v : val X) : Prop := exists d x, v = Tensor d x.

(** String items raise only [KeyError] and [TypeError], and are the attribute of this name if there is one. *)
Definition attributes_agree {X U} (s : semantics X U) : Prop :=
  forall v k, match item s v (AStr k) with Ok w => forall w', getattr s v k = Ok w' -> w' = w | Err e => e = KeyError \/ e = TypeError end.
(** The batches returned for the default context, several outputs as tuples. *)
Inductive returned_batches {X} : returned X -> list (val X) -> Prop :=
| rb_one v : returned_batches (One v) [v]
| rb_single o l : aget Nat.eqb default_context o = Some (Single l) -> returned_batches (PerContext o) l
| rb_multi o rows : aget Nat.eqb default_context o = Some (Multi rows) -> returned_batches (PerContext o) (map (Tup []) rows).
(** The output of the graph for values of its inputs: the value of its output, or the tuple of the values of its outputs. *)
Definition graph_output {X U} (s : semantics X U) f (g : graph) (vs : list (val X)) (v : val X) : Prop :=
  exists outs, Forall2 (value s f g (positional g vs) default_context) (g_outputs g) outs /\ v = match outs with [w] => w | _ => Tup [] outs end.
(** The reference depends on an input. *)
Inductive reads_input (g : graph) : ref -> Prop :=
| ri_input i n : reads_input g (RInput i n)
| ri_attr r a : reads_input g r -> reads_input g (RAttr r a)
| ri_node x nm r : In x (g_nodes g) -> In r (call_refs x) -> reads_input g r -> reads_input g (RNode (n_id x) nm).

(** Inputs and outputs are added before the first call. *)
Definition changes_ends {X} (o : operation X) : Prop := match o with AddInput _ _ | AddOutput _ => True | _ => False end.
Definition is_call {X} (o : operation X) : Prop := match o with Forward _ _ => True | _ => False end.
Definition ends_first {X} (l : list (operation X)) : Prop := forall l1 a l2 b l3, l = l1 ++ a :: l2 ++ b :: l3 -> is_call a -> ~ changes_ends b.
