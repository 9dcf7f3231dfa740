(** Which nodes a tree has. *)
From Coq Require Import List Arith Bool.
From Verif Require Import Prelude FltModel.
Import ListNotations.

(** [m] is [n] or below it. *)
Inductive below : node -> node -> Prop :=
| below_self : forall n, below n n
| below_child : forall i k cs c m, In c cs -> below c m -> below (Node i k cs) m.

(** Nodes with one identity are one node. *)
Definition identities (t : node) : Prop := forall m n, below t m -> below t n -> id_of m = id_of n -> m = n.

(** All nodes, parents first, and each as often as it occurs. *)
Fixpoint occurrences (n : node) : list node := match n with Node i k cs => n :: concat (map occurrences cs) end.
(** No node occurs twice. *)
Definition is_tree (t : node) : Prop := NoDup (map id_of (occurrences t)).

(** The nodes that are [d] steps below [n], from left to right. *)
Fixpoint level (d : nat) (n : node) : list node :=
  match d with
  | 0 => [n]
  | S d' => match n with Node _ _ cs => concat (map (level d') cs) end
  end.
(** The first [d] levels. *)
Fixpoint levels (d : nat) (n : node) : list node :=
  match d with 0 => [] | S d' => levels d' n ++ level d' n end.
