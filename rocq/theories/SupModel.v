(** Calls of methods of parent classes in generated methods.

    Modelled code: src/fastforward/_autoquant/convert.py:24-84 _AnchorBareSuperCalls, _owner_class_name and
    _rewrite_super_calls. Expressions are names, attributes, calls with positional arguments and other
    operations on subexpressions; names are numbers. *)
From Coq Require Import List Arith Bool.
From Verif Require Import Prelude.
Import ListNotations.

Definition super_name : nat := 0.

Inductive expr :=
| Name (x : nat)
| Attr (e : expr) (a : nat)
| Call (f : expr) (args : list expr)
| Op (o : nat) (args : list expr).

(** convert.py:31-59 leave_Call; the parts of the call are changed already. *)
Definition leave_call (owner self : nat) (f : expr) (args : list expr) : expr :=
  match f with
  | Attr (Call (Name s) []) m =>
      if s =? super_name then Call (Attr (Call (Name s) [Name owner; Name self]) m) args else Call f args
  | _ => Call f args
  end.
Fixpoint anchor (owner self : nat) (e : expr) : expr :=
  match e with
  | Name x => Name x
  | Attr e' a => Attr (anchor owner self e') a
  | Call f args => leave_call owner self (anchor owner self f) (map (anchor owner self) args)
  | Op o args => Op o (map (anchor owner self) args)
  end.

(** convert.py:62-66 _owner_class_name, for the parts of the qualified name. *)
Definition owner_class_name (parts : list nat) : option nat :=
  match rev parts with _ :: c :: _ => Some c | _ => None end.

(** convert.py:69-84 _rewrite_super_calls *)
Definition rewrite_super_calls (is_method : bool) (instance_var : option nat) (parts : list nat) (e : expr) : expr :=
  match instance_var with
  | Some self =>
      if is_method then match owner_class_name parts with Some owner => anchor owner self e | None => e end else e
  | None => e
  end.
