(** Splitting of assignments into their parts.

    Modelled code: src/fastforward/_autoquant/cst/node_processing.py. Targets and values are
    expressions; everything that is not a tuple or list display is an atom, with a number that stands
    for the name or the source text. *)
From Coq Require Import List Arith Bool.
From Verif Require Import Prelude.
Import ListNotations.

Inductive kind := KTuple | KList.

(** Expressions; an element of a display is marked if it is starred. *)
Inductive expr :=
| Atom (a : nat)
| Seq (k : kind) (l : elems)
with elems :=
| ENil
| ECons (star : bool) (e : expr) (r : elems).

Fixpoint to_list (l : elems) : list (bool * expr) :=
  match l with ENil => [] | ECons s e r => (s, e) :: to_list r end.
Fixpoint of_list (l : list (bool * expr)) : elems :=
  match l with [] => ENil | (s, e) :: r => ECons s e (of_list r) end.
Definition size (l : elems) : nat := length (to_list l).
Definition values (l : elems) : list expr := map snd (to_list l).

(** node_processing.py:83-94 NormalizedAssignment *)
Record part := mkPart { p_targets : list expr; p_value : expr }.

(** node_processing.py:187-192 _indexof_star, as far as it is asked whether there is one. *)
Definition has_star (l : elems) : bool := existsb fst (to_list l).

(** node_processing.py:195-218 unpack_sequence_expression: with include_starred=False, and the elements
    of a display with include_starred=True. The flag is not passed on to the recursive calls. *)
Fixpoint unpack (e : expr) : list expr :=
  match e with Atom a => [Atom a] | Seq _ l => unpack_elems l end
with unpack_elems (l : elems) : list expr :=
  match l with
  | ENil => []
  | ECons s e r => (if s then [] else unpack e) ++ unpack_elems r
  end.
Definition unpack_starred (l : elems) : list expr := flat_map unpack (values l).

(** node_processing.py:97-112 _normalize_assignment, with 115-130 _normalize_seq_to_seq_assignment,
    133-170 _normalize_seq_to_starred_seq_assignment and 173-184 _normalize_item_to_seq_assignment. The
    indices of the code are replaced by a recursion over the elements: [pair] is the loop over two
    sequences, [pair_star] the three steps around the starred element. *)
Fixpoint split (t : expr) (v : expr) {struct t} : list part :=
  match t with
  | Atom _ => [mkPart [t] v]
  | Seq _ ts =>
      match v with
      | Seq _ vs =>
          if has_star ts
          then if size vs <? size ts - 1 then [mkPart (values ts) v]
               else pair_star ts (to_list vs)
          else if size ts =? size vs then pair ts (values vs)
               else [mkPart (values ts) v]
      | Atom _ => [mkPart (unpack_starred ts) v]
      end
  end
with pair (ts : elems) (vs : list expr) {struct ts} : list part :=
  match ts with
  | ENil => []
  | ECons _ t r => match vs with v :: vs' => split t v ++ pair r vs' | [] => [] end
  end
with pair_star (ts : elems) (vs : list (bool * expr)) {struct ts} : list part :=
  match ts with
  | ENil => []
  | ECons true t r =>
      mkPart [t] (Seq KList (of_list (firstn (length vs - size r) vs)))
      :: pair r (map snd (skipn (length vs - size r) vs))
  | ECons false t r =>
      match vs with v :: vs' => split t (snd v) ++ pair_star r vs' | [] => [] end
  end.

(** node_processing.py:16-80 normalize_assignments: several targets and, unless it is a declaration, a
    value. *)
Definition normalize (targets : list expr) (value : option expr) : list part :=
  match value with
  | None => []
  | Some v => flat_map (fun t => split t v) targets
  end.
