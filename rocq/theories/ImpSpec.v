(** Vocabulary for C65 and C94: what Python binds names to. *)
From Coq Require Import String Ascii.
From Verif Require Import Prelude ImpModel.
Local Open Scope nat_scope.
Local Open Scope list_scope.

(** importlib: the package of a package is the package itself, of another module what is left of its last dot.
    [None] is an [ImportError]. *)
Definition package_of (name : list string) (is_package : bool) : list string := if is_package then name else removelast name.
Definition python_resolves (name : list string) (is_package : bool) (level : nat) (target : list string) : option (list string) :=
  match level with
  | 0 => Some target
  | S up => let p := package_of name is_package in
            if length p <? level then None else Some (firstn (length p - up) p ++ target)
  end.

(** What a name stands for. *)
Inductive thing := Module (path : list string) | Member (module : list string) (name : string).
(** What a binding of the source module binds: [import a.b] binds [a]. *)
Definition binds (this : list string) (is_package : bool) (b : binding) (x : string) (t : thing) : Prop :=
  match b with
  | Import p None => exists p', p = x :: p' /\ t = Module [x]
  | Import p (Some y) => x = y /\ t = Module p
  | FromImport n m y a => x = match a with Some z => z | None => y end /\ exists m', python_resolves this is_package n m = Some m' /\ t = Member m' y
  | Define y => x = y /\ t = Member this y
  end.
(** What an import of the generated code binds. *)
Definition brings (y : symbol) (x : string) (t : thing) : Prop :=
  match y_module y, y_asname y with
  | None, None => exists p, y_name y = x :: p /\ t = Module [x]
  | None, Some z => x = z /\ t = Module (y_name y)
  | Some m, a => exists n, y_name y = [n] /\ x = match a with Some z => z | None => n end /\ t = Member m n
  end.

(** Names an expression reads. *)
Fixpoint reads (x : string) (e : expr) : Prop :=
  match e with Name y => x = y | Attr e _ => reads x e | Parts l => fold_right or False (map (reads x) l) end.
(** [a.b.c], as against [f(x).b.c] *)
Fixpoint chain (e : expr) : option (list string) :=
  match e with Name x => Some [x] | Attr e a => option_map (fun p => p ++ [a]) (chain e) | Parts _ => None end.
(** First attribute of what is no chain: [b] in [f(x).b.c]. *)
Fixpoint first_attribute (e : expr) : option string :=
  match e with
  | Name _ => None
  | Attr e a => match e with Parts _ => Some a | _ => first_attribute e end
  | Parts _ => None
  end.
(** No attribute of what is no name is called like something the module binds. *)
Fixpoint attributes_apart (bound : string -> Prop) (e : expr) : Prop :=
  match e with
  | Name _ => True
  | Attr v a => attributes_apart bound v /\ match chain v with Some _ => True | None => forall b, first_attribute (Attr v a) = Some b -> ~ bound b end
  | Parts l => fold_right and True (map (attributes_apart bound) l)
  end.
(** The maximal chains of an expression. *)
Fixpoint chains (e : expr) : list (list string) :=
  match e with
  | Name x => [[x]]
  | Attr v a => match chain v with Some p => [p ++ [a]] | None => chains v end
  | Parts l => flat_map chains l
  end.
Definition bound_name (b : binding) : option string :=
  match b with
  | Import p None => hd_error p
  | Import _ (Some x) | FromImport _ _ _ (Some x) | FromImport _ _ x None | Define x => Some x
  end.
Definition bound (module : list binding) (x : string) : Prop := exists b, In b module /\ bound_name b = Some x.
(** Relative imports Python accepts, in a module that is no package. *)
Definition resolvable (this : list string) (b : binding) : Prop :=
  match b with FromImport n m _ _ => n = 0 \/ n < length this | _ => True end.
(** What a name stands for after imports: the last one counts. *)
Definition stands_for (imports : list symbol) (x : string) (t : thing) : Prop :=
  exists before y after, imports = (before ++ y :: after)%list /\ brings y x t /\ forall z t', In z after -> ~ brings z x t'.
