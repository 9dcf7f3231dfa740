(** Where warnings belong. *)
From Coq Require Import List Arith Bool.
From Verif Require Import Prelude WrnModel.
Import ListNotations.

Section Spec.
  Variable msg : Type.

  (** Comments can be put before the node. *)
  Definition holds (n : node msg) : bool := match n with Node _ lines _ _ _ keeps => lines && keeps end.
  Definition id_of (n : node msg) : nat := match n with Node id _ _ _ _ _ => id end.

  (** All warnings that are given in a tree, in order. *)
  Fixpoint given (n : node msg) : list msg :=
    match n with Node _ _ before cs after _ => before ++ concat (map given cs) ++ after end.

  (** The warnings given at [n], or below it at nodes that have no other node with comments between. *)
  Fixpoint belongs (n : node msg) : list msg :=
    match n with
    | Node _ _ before cs after _ => before ++ concat (map (fun c => if holds c then [] else belongs c) cs) ++ after
    end.

  (** [m] is [n] or below it. *)
  Inductive below : node msg -> node msg -> Prop :=
  | below_self : forall n, below n n
  | below_child : forall i l b cs a k c m, In c cs -> below c m -> below (Node i l b cs a k) m.
End Spec.
Arguments holds {msg}. Arguments id_of {msg}. Arguments given {msg}. Arguments belongs {msg}. Arguments below {msg}.
