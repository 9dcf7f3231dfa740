(** What a dotted name refers to. *)
From Coq Require Import Ascii List Arith Bool.
From Verif Require Import Prelude QnrModel.
Import ListNotations.

(** Names with dots between them. *)
Inductive dotted : list (list ascii) -> list ascii -> Prop :=
| dotted_one p : ~ In "."%char p -> dotted [p] p
| dotted_more p l s : ~ In "."%char p -> dotted l s -> dotted (p :: l) (p ++ "."%char :: s).

Section Spec.
  Variable object : Type.
  Variable load : list ascii -> loaded object.
  Variable attr : object -> list ascii -> option object.

  (** Attributes one after the other. *)
  Inductive path : object -> list (list ascii) -> object -> Prop :=
  | path_nil o : path o [] o
  | path_cons o x p l q : attr o x = Some p -> path p l q -> path o (x :: l) q.

  (** [a] is the longest beginning of [a ++ b] that is not unknown as a module. *)
  Definition longest (a b : list (list ascii)) (r : loaded object) : Prop :=
    r <> NotFound
    /\ (exists s, dotted a s /\ load s = r)
    /\ forall c d s, b = c ++ d -> c <> [] -> dotted (a ++ c) s -> load s = NotFound.
End Spec.
Arguments path {object}. Arguments longest {object}.
