(** Vocabulary for C97, C98 and C99: scopes of quantizers, histories of references, clashes of names. *)
From Coq Require Import String Ascii.
From Verif Require Import Prelude NamModel.
Local Open Scope nat_scope.
Local Open Scope list_scope.

(** Quantizers of all methods of a class are attributes of the same object; those of any other function are its
    parameters. *)
Inductive same_scope : context -> context -> Prop :=
| same_object m f g : same_scope (InMethod m f) (InMethod m g)
| same_function f : same_scope (InFunction f) (InFunction f)
| nowhere : same_scope NoContext NoContext.

(** Making references and asking for their names. *)
Inductive op := Make (c : context) (x : string) | Ask (ref : nat).
Fixpoint run (prefix : string) (ops : list op) (col : list meta) : list (nat * option string) :=
  match ops with
  | [] => []
  | Make c x :: ops' => run prefix ops' (create_reference c x col)
  | Ask r :: ops' =>
      match disambiguate_reference prefix r col with
      | Some (x, col') => (r, Some x) :: run prefix ops' col'
      | None => (r, None) :: run prefix ops' col
      end
  end.
Definition makes (l : list (context * string)) : list op := map (fun p => Make (fst p) (snd p)) l.
Definition asks (l : list nat) : list op := map Ask l.
(** No name begins with the prefix, and none is another name of the scope with an underscore and a number. *)
Definition clear (prefix : string) (l : list (context * string)) : Prop :=
  (forall c x, In (c, x) l -> String.prefix prefix x = false) /\
  (forall c d x y n, In (c, x) l -> In (d, y) l -> same_scope c d -> x <> (y ++ "_" ++ decimal n)%string).

(** A call that means the same for any values of names: what names and keywords it has. *)
Fixpoint keywords (e : expr) : list string :=
  match e with
  | Name _ => []
  | Attr e _ => keywords e
  | Call f args => keywords f ++ flat_map (fun p => match fst p with Some k => [k] | None => [] end ++ keywords (snd p)) args
  end.
(** Values of expressions for values of names, attributes and calls. *)
Section Value.
  Context {V : Type} (attribute : string -> V -> V) (call : V -> list (option string * V) -> V).
  Fixpoint value (env : string -> V) (e : expr) : V :=
    match e with
    | Name x => env x
    | Attr e a => attribute a (value env e)
    | Call f args => call (value env f) (map (fun p => (fst p, value env (snd p))) args)
    end.
End Value.
