(** C163: warnings in generated code. *)
From Coq Require Import List Arith Bool Lia Permutation.
From Verif Require Import Prelude WrnModel WrnSpec WrnProofs.
Import ListNotations.

(** ** C163 *)

(** For a tree whose root can have comments and keeps its type: every warning that is given is in the comments,
    once for each time it is given, and there are no others.
    Missing: roots that change their type, for which it is false. *)
Theorem C163_no_warning_is_lost_partial : forall (msg : Type) (n : node msg), holds n = true ->
  exists out, visit n [] = Ok ([], out) /\ Permutation (given n) (concat (map snd out)).
Proof.
  intros msg n H. exists (comments msg n). split; [now apply visit_root|]. rewrite (given_split msg n). unfold up. now rewrite H.
Qed.
Print Assumptions C163_no_warning_is_lost_partial.

(** A warning is put before the innermost node around it that can have comments and keeps its type, the last
    one first. *)
Theorem C163_place_partial : forall (msg : Type) (n : node msg), holds n = true ->
  exists out, visit n [] = Ok ([], out)
  /\ forall i ws, In (i, ws) out <-> exists m, below n m /\ holds m = true /\ i = id_of m /\ ws = rev (belongs m).
Proof. intros msg n H. exists (comments msg n). split; [now apply visit_root|]. apply comments_in. Qed.
Print Assumptions C163_place_partial.

(** If the outermost node is replaced by one of another type its warnings are lost, without an error. *)
Theorem C163_replaced_root_refuted : exists n : node nat, given n = [7] /\ visit n [] = Ok ([], []).
Proof. exists (Node 0 true [7] [] [] false). split; reflexivity. Qed.
Print Assumptions C163_replaced_root_refuted.

(** A warning outside of nodes that can have comments is an error. *)
Theorem C163_no_place : forall (msg : Type) i m before cs after keeps,
  visit (Node i false (m :: before) cs after keeps : node msg) [] = Err RuntimeError.
Proof. reflexivity. Qed.
Print Assumptions C163_no_place.

(** A function with an expression, and a statement that is replaced. *)
Example C163_nonvacuous :
  let tree := Node 0 true [] [Node 1 false [5] [] [6] true; Node 2 true [7] [Node 3 true [8] [] [] true] [] false] [9] true in
  holds tree = true /\ given tree = [5; 6; 7; 8; 9] /\ visit tree [] = Ok ([], [(3, [8]); (0, [9; 7; 6; 5])]).
Proof. repeat split. Qed.
