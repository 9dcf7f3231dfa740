(** What names refer to when a module is executed. *)
From Coq Require Import List Arith Bool.
From Verif Require Import Prelude MemModel.
Import ListNotations.

(** A name is bound to a function or to a class with its own names. *)
Inductive binding := Function (id : nat) | ClassObject (id : nat) (names : list (nat * binding)).

Fixpoint lookup (n : nat) (d : list (nat * binding)) : option binding :=
  match d with [] => None | (k, b) :: r => if n =? k then Some b else lookup n r end.

(** Executing a statement: the newest binding of a name comes first. [taken c]: the first part of [If c] is
    executed. *)
Fixpoint execute (taken : nat -> bool) (s : stmt) (names : list (nat * binding)) : list (nat * binding) :=
  match s with
  | Def n i _ => (n, Function i) :: names
  | Class n i body => (n, ClassObject i (fold_left (fun d t => execute taken t d) body [])) :: names
  | If c a b => if taken c then fold_left (fun d t => execute taken t d) a names else fold_left (fun d t => execute taken t d) b names
  | Other => names
  end.
Definition run (taken : nat -> bool) (m : list stmt) : list (nat * binding) := fold_left (fun d t => execute taken t d) m [].

(** The definition that a dotted name refers to. *)
Fixpoint refers (names : list (nat * binding)) (p : list nat) : option nat :=
  match p with
  | [] => None
  | n :: q =>
      match lookup n names with
      | None => None
      | Some (Function i) => match q with [] => Some i | _ => None end
      | Some (ClassObject i inner) => match q with [] => Some i | _ => refers inner q end
      end
  end.

(** No conditions, and no class is followed by another definition of its name in the same module or class.
    Functions can be defined several times. *)
Definition names_of (s : stmt) : list nat := match s with Def n _ _ | Class n _ _ => [n] | _ => [] end.
Inductive plain : list stmt -> Prop :=
| plain_body : forall l,
    (forall before n i body after, l = before ++ Class n i body :: after -> ~ In n (concat (map names_of after))) ->
    (forall c a b, ~ In (If c a b) l) -> (forall n i body, In (Class n i body) l -> plain body) -> plain l.
