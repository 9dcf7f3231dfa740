(** Models how autoquant finds the imports of generated code: fastforward/_autoquant/pysource/scope.py
    [_resolve_relative_module_name], [_RequiredSymbolsVisitor] and [ImportSymbol].
    Dotted names are the lists of their parts. *)
From Coq Require Import String Ascii.
From Verif Require Import Prelude.
Local Open Scope nat_scope.
Local Open Scope list_scope.

(** 331-353; [target = []] is [None] or the empty string *)
Definition resolve_relative (root : list string) (levels : nat) (target : list string) : list string :=
  match levels with
  | 0 => target
  | S up =>
      let package := if 1 <? length root then removelast root else root in
      let resolved := match up with 0 => package | _ => firstn (length package - up) package end in
      let resolved := match resolved with [] => package | _ => resolved end in
      resolved ++ target
  end.

(** What a module binds, one record per alias: [import target as asname], [from ...module import name as
    asname] and definitions (assignments, functions, classes).  Star imports bind nothing libcst knows. *)
Inductive binding :=
| Import (target : list string) (asname : option string)
| FromImport (levels : nat) (module : list string) (name : string) (asname : option string)
| Define (name : string).

(** 17-23 [ImportSymbol]; a name may be dotted if [module] is [None] *)
Record symbol := mkSymbol { y_name : list string; y_asname : option string; y_module : option (list string) }.

(** Expressions: all that matters are names and attributes; [Parts] has subexpressions *)
Inductive expr := Name (x : string) | Attr (e : expr) (a : string) | Parts (l : list expr).

(** libcst's scopes: [import a.b] records a.b and a *)
Definition prefixes (t : list string) : list (list string) := map (fun n => firstn n t) (seq 1 (length t)).
Definition recorded (b : binding) : list (list string) :=
  match b with
  | Import t None => prefixes t
  | Import _ (Some x) | FromImport _ _ _ (Some x) => [[x]]
  | FromImport _ _ x None | Define x => [[x]]
  end.
Fixpoint path_eqb (a b : list string) : bool :=
  match a, b with [], [] => true | x :: a', y :: b' => String.eqb x y && path_eqb a' b' | _, _ => false end.
Definition records (s : list string) (b : binding) : bool := existsb (path_eqb s) (recorded b).

(** 361-375 [_importable_attribute_parts] *)
Fixpoint parts (e : expr) : list string :=
  match e with Name x => [x] | Attr e a => parts e ++ [a] | Parts _ => [] end.

Section Visitor.
  (** [locals] are the names of the function's own scope: itself, its parameters and local variables; its
      scope contains the builtins too *)
  Variables (this : list string) (outer : list binding) (locals builtins : string -> bool).

  (** 214-233 [_record_symbol_from_import_node] and 192-212 *)
  Definition symbols_of (s : list string) (b : binding) : list symbol :=
    match b with
    | Import t None => if path_eqb t s then [mkSymbol t None None] else []
    | Import t (Some x) => if path_eqb [x] s then [mkSymbol t (Some x) None] else []
    | FromImport n m x a =>
        let local := match a with Some y => y | None => x end in
        if path_eqb [local] s then [mkSymbol [x] a (Some (resolve_relative this n m))] else []
    | Define x => [mkSymbol s None (Some this)]
    end.
  (** 192-212 [_record_import_symbol] *)
  Definition record_import (s : list string) : bool * list symbol :=
    match s with
    | [] => (false, [])
    | x :: _ =>
        if locals x || builtins x then (false, [])
        else if existsb (records s) outer then (true, flat_map (symbols_of s) (filter (records s) outer)) else (false, [])
    end.
  (** 239-254 [visit_Name], [visit_Attribute] *)
  Fixpoint visit (e : expr) : list symbol :=
    match e with
    | Name x => snd (record_import [x])
    | Attr v a => match record_import (parts v ++ [a]) with (true, l) => l | (false, _) => visit v end
    | Parts l => flat_map visit l
    end.
End Visitor.

(** ** pybuilder/builder.py:76-97 [import_statements] *)
Definition symbol_dec (a b : symbol) : {a = b} + {a <> b}.
Proof. repeat decide equality. Defined.
Definition dotted (p : list string) : string := String.concat "." p.
Definition key (y : symbol) : list string :=
  [match y_module y with Some m => dotted m | None => "" end; dotted (y_name y); match y_asname y with Some x => x | None => "" end]%string.
Fixpoint key_leb (a b : list string) : bool :=
  match a, b with
  | [], _ => true
  | _, [] => false
  | x :: a', y :: b' => match String.compare x y with Lt => true | Gt => false | Eq => key_leb a' b' end
  end.
Fixpoint insert (y : symbol) (l : list symbol) : list symbol :=
  match l with [] => [y] | z :: l' => if key_leb (key y) (key z) then y :: l else z :: insert y l' end.
(** Imports of all functions and classes of the generated module, which share one namespace *)
Definition import_statements (required : list (list symbol)) : list symbol :=
  fold_right insert [] (nodup symbol_dec (concat required)).
