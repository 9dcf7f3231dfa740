(** Specification vocabulary for graphs and graph algorithms. *)
From Coq Require Import String Ascii Permutation Relations.
From Verif Require Import Prelude GraphModel.
Local Open Scope nat_scope.
Local Open Scope list_scope.

(** A reference is to a node, an item or attribute of a node, an item of such an item and so on. *)
Inductive about : ref -> nat -> Prop :=
| about_node i n : about (RNode i n) i
| about_attr r a i : about r i -> about (RAttr r a) i.
(** Node [b] takes (an item of) the result of node [a] as an argument. *)
Definition feeds (g : graph) (a b : nat) : Prop :=
  exists n r, In n (g_nodes g) /\ n_id n = b /\ (In r (n_args n) \/ exists k, In (k, r) (n_kwargs n)) /\ about r a.
(** Nodes have different ids. *)
Definition graph_ok (g : graph) : Prop := NoDup (map n_id (g_nodes g)).
(** [x] is a node of the graph. *)
Definition node_in (g : graph) (x : nat) : Prop := In x (map n_id (g_nodes g)).
(** [x] is a node of the graph that is no fold. *)
Definition is_leaf (g : graph) (x : nat) : Prop := node_in g x /\ ~ In x (g_folds g).
(** [x] comes before [y] in [l]. *)
Definition before {A} (l : list A) (x y : A) : Prop := exists l1 l2 l3, l = l1 ++ x :: l2 ++ y :: l3.
(** Leaves take input from leaves only. *)
Definition leaf_inputs (g : graph) : Prop := forall a b, is_leaf g b -> feeds g a b -> is_leaf g a.
(** Some leaf depends on itself. *)
Definition cyclic (g : graph) : Prop := exists x, is_leaf g x /\ clos_trans nat (feeds g) x x.

(** A walk along feeding edges from [x] to [y] with the nodes in between; none of [avoid] is left
    once entered, except as the first node. *)
Inductive upstream (g : graph) (stop : option nat) : nat -> nat -> Prop :=
| up_here x : upstream g stop x x
| up_step x y z : feeds g x y -> Some y <> stop -> upstream g stop y z -> upstream g stop x z.

(** Edges of an explicit adjacency map. *)
Definition arrow (e : edge_map) (x y : nat) : Prop := exists l, In (x, l) e /\ In y l.
(** The list is a walk along edges. *)
Inductive walk (e : edge_map) : list nat -> Prop :=
| walk_one x : walk e [x]
| walk_cons x y p : arrow e x y -> walk e (y :: p) -> walk e (x :: y :: p).
(** Every key once, every successor a key. *)
Definition edges_ok (e : edge_map) : Prop :=
  NoDup (map fst e) /\ forall x y, arrow e x y -> In y (map fst e).
