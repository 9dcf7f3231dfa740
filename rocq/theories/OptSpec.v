(** Vocabulary for C106: what a table of operators gives. *)
From Coq Require Import String.
From Verif Require Import Prelude OpsModel OptModel.
Local Open Scope nat_scope.
Local Open Scope list_scope.

(** The name under which [fastforward.nn.functional] has the function of an operator. *)
Definition function_name (o : operator) : string := String.append "fastforward.nn.functional." (o_identifier o).
(** [e'] is [e], with the function of that name if none was given. *)
Definition completes (import : string -> option nat) (resolve_dispatch : bool) (e e' : entry) : Prop :=
  e_op e' = e_op e /\ e_fallback e' = e_fallback e /\
  match e_dispatch e with
  | Some d => e_dispatch e' = Some d
  | None => if resolve_dispatch then exists d, import (function_name (e_op e)) = Some d /\ e_dispatch e' = Some d else e_dispatch e' = None
  end.
(** [k] is one of these functions. *)
Definition among (import : string -> option nat) (l : list string) (k : nat) : Prop := exists a, In a l /\ import a = Some k.
Definition found (r : result (list entry)) : list entry := match r with Ok l => l | Err _ => [] end.
(** Names of the torch function of a row. *)
Definition row_names (row : spec * string * list string) : list string := snd (fst row) :: snd row.
(** The same operators are registered for both functions. *)
Definition shares (t : table) (k f : nat) : Prop := exists l, get t (KObj k) = Ok l /\ get t (KObj f) = Ok l.
