(** Texts that are joined, and sequences that are cut. *)
From Coq Require Import Ascii List Arith.
From Verif Require Import Prelude.
Import ListNotations.

(** [s] is the texts with an empty line between them. *)
Inductive with_empty_lines : list (list ascii) -> list ascii -> Prop :=
| wel_none : with_empty_lines [] []
| wel_one : forall t, with_empty_lines [t] t
| wel_more : forall t l s, l <> [] -> with_empty_lines l s ->
    with_empty_lines (t :: l) (t ++ ascii_of_nat 10 :: ascii_of_nat 10 :: s).

(** [t] is cut in pieces of length [n], and a rest that is too short is dropped. *)
Definition cut {A : Type} (n : nat) (t : list A) (pieces : list (list A)) : Prop :=
  Forall (fun p => length p = n) pieces /\ exists rest, t = concat pieces ++ rest /\ length rest < n.
