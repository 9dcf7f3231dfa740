(** Finding nodes of syntax trees by type.

    Modelled code: src/fastforward/_autoquant/cst/filter.py:27-50 filter_nodes_by_type. Nodes have an identity,
    by which sets of nodes compare them, a type and children. The generator is modelled by the list of what it
    yields. *)
From Coq Require Import List Arith Bool.
From Verif Require Import Prelude.
Import ListNotations.

Inductive node := Node (id : nat) (kind : nat) (children : list node).
Definition id_of (n : node) : nat := match n with Node i _ _ => i end.
Definition kind_of (n : node) : nat := match n with Node _ k _ => k end.
Definition children_of (n : node) : list node := match n with Node _ _ c => c end.

Fixpoint size (n : node) : nat := match n with Node _ _ c => S (list_sum (map size c)) end.

(** filter.py:45-50: the children that are not seen yet are marked and go to the end of the queue. *)
Fixpoint push (seen : list nat) (cs : list node) : list nat * list node :=
  match cs with
  | [] => (seen, [])
  | c :: r =>
      if existsb (Nat.eqb (id_of c)) seen then push seen r
      else let '(seen', new) := push (id_of c :: seen) r in (seen', c :: new)
  end.

(** filter.py:41-50: the loop; [None]: more steps than [fuel]. *)
Fixpoint walk (fuel : nat) (needle : nat -> bool) (seen : list nat) (queue : list node) : option (list node) :=
  match queue with
  | [] => Some []
  | n :: rest =>
      match fuel with
      | 0 => None
      | S fuel' =>
          let '(seen', new) := push seen (children_of n) in
          match walk fuel' needle seen' (rest ++ new) with
          | Some out => Some (if needle (kind_of n) then n :: out else out)
          | None => None
          end
      end
  end.

(** filter.py:27-50 filter_nodes_by_type *)
Definition filter_nodes_by_type (tree : node) (needle : nat -> bool) : option (list node) :=
  walk (size tree) needle [id_of tree] [tree].
