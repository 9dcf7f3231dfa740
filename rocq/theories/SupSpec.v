(** What expressions with super() mean. *)
From Coq Require Import List Arith Bool.
From Verif Require Import Prelude SupModel.
Import ListNotations.

Section Meaning.
  Variables value cls : Type.
  (** Attributes, calls and other operations are arbitrary; exceptions are values. *)
  Variable attr : value -> nat -> value.
  Variable call : value -> list value -> value.
  Variable op : nat -> list value -> value.
  (** super(c, v): the methods of [v] after class [c]. *)
  Variable super_of : cls -> value -> value.
  Variable env : nat -> value.

  (** [cell]: the class whose body the code is in; [first]: the first argument of the method. super()
      without arguments takes these. *)
  Fixpoint meaning (cell : cls) (first : value) (e : expr) : value :=
    match e with
    | Name x => env x
    | Attr e' a => attr (meaning cell first e') a
    | Call f args =>
        match f, args with
        | Name 0, [] => super_of cell first
        | _, _ => call (meaning cell first f) (map (meaning cell first) args)
        end
    | Op o args => op o (map (meaning cell first) args)
    end.
End Meaning.
Arguments meaning {value cls}.

(** super() is used only to call methods: super().m(...). *)
Fixpoint only_calls_methods (e : expr) : bool :=
  match e with
  | Name _ => true
  | Attr e' _ => only_calls_methods e'
  | Call f args =>
      match f with
      | Attr (Call (Name 0) []) _ => forallb only_calls_methods args
      | Name 0 => match args with [] => false | _ => forallb only_calls_methods args end
      | _ => only_calls_methods f && forallb only_calls_methods args
      end
  | Op _ args => forallb only_calls_methods args
  end.
(** super() without arguments does not occur. *)
Fixpoint no_bare_super (e : expr) : bool :=
  match e with
  | Name _ => true
  | Attr e' _ => no_bare_super e'
  | Call f args =>
      match f with
      | Name 0 => match args with [] => false | _ => forallb no_bare_super args end
      | _ => no_bare_super f && forallb no_bare_super args
      end
  | Op _ args => forallb no_bare_super args
  end.
