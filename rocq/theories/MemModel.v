(** Definitions that are found in source files.

    Modelled code: src/fastforward/_autoquant/pysource/source_context.py:205-239 the members of _ModuleSource and
    :300-329 _SymbolVisitor. A module is a list of statements; names are numbers, and a dotted name is the list of
    its parts, which have no dots. Definitions have an identity, which stands for their syntax tree. [If] stands
    for every statement of which one of two parts is executed. *)
From Coq Require Import List Arith Bool.
From Verif Require Import Prelude.
Import ListNotations.

Inductive stmt :=
| Def (name : nat) (id : nat) (body : list stmt)
| Class (name : nat) (id : nat) (body : list stmt)
| If (condition : nat) (first second : list stmt)
| Other.

(** source_context.py:300-329: what the visitor records, in order; [context] is the names of the classes around.
    Functions are recorded and not entered. *)
Fixpoint symbols (context : list nat) (s : stmt) : list (list nat * nat) :=
  match s with
  | Def n i _ => [(context ++ [n], i)]
  | Class n i body => (context ++ [n], i) :: concat (map (symbols (context ++ [n])) body)
  | If _ a b => concat (map (symbols context) a) ++ concat (map (symbols context) b)
  | Other => []
  end.

Definition path_eqb (a b : list nat) : bool := if list_eq_dec Nat.eq_dec a b then true else false.
(** Reading a dict that was filled in this order: the last value counts. *)
Fixpoint get (p : list nat) (d : list (list nat * nat)) : option nat :=
  match d with
  | [] => None
  | (q, i) :: r => match get p r with Some j => Some j | None => if path_eqb p q then Some i else None end
  end.

(** source_context.py:221-227 and :233-239 member_cst: the definition of a member; [None]:
    SourceContextMemberError. The module itself, the empty name, has the identity [module_id]. *)
Definition member (module_id : nat) (m : list stmt) (p : list nat) : option nat :=
  get p (([], module_id) :: concat (map (symbols []) m)).
