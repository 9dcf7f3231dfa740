(** Vocabulary for the theorems about pattern rules. *)
From Coq Require Import String ZArith.
From Verif Require Import Prelude PatModel.
Local Open Scope nat_scope.
Local Open Scope list_scope.

(** The captures of a pattern or replacement *)
Fixpoint captures (n : node) : list string :=
  match n with
  | Name _ (Cap x) => [x]
  | Name _ (Id _) => []
  | Node _ _ cs => (fix go (l : list node) := match l with [] => [] | c :: l' => captures c ++ go l' end) cs
  end.
(** A pattern or replacement with nodes for its captures *)
Fixpoint instance (sigma : string -> node) (n : node) : node :=
  match n with
  | Name _ (Cap x) => sigma x
  | Name par (Id a) => Name par (Id a)
  | Node par k cs => Node par k ((fix go (l : list node) := match l with [] => [] | c :: l' => instance sigma c :: go l' end) cs)
  end.
(** Source code has no captures. *)
Definition source (n : node) : Prop := captures n = [].

(** A line that holds one small statement *)
Definition in_line (n : node) : Prop := exists par c, n = Node par "SimpleStatementLine" [c].
(** A replacement that is not a capture alone: an expression or a statement; a line of one statement
    holds a small statement. *)
Definition usable (kind_sort : string -> sort) (n : node) : Prop :=
  match n with
  | Name _ (Cap _) => False
  | Name _ (Id _) => True
  | Node _ k cs => kind_sort k <> Part /\
      forall c, k = "SimpleStatementLine"%string -> cs = [c] -> exists par k' cs', c = Node par k' cs' /\ kind_sort k' = Small
  end.

(** One rewrite by one of the rules *)
Definition rewrites (kind_sort : string -> sort) (rules : list rule) (a b : node) : Prop :=
  exists r, In r rules /\ apply kind_sort r a = Ok (Some b).
Inductive star {A} (R : A -> A -> Prop) : A -> A -> Prop :=
| star_refl a : star R a a
| star_step a b c : R a b -> star R b c -> star R a c.

(** The qualified name of a scope begins with the parts of [o]. *)
Definition dotted (s : string) : list string := QmModel.split_dots EmptyString s.
Definition full_name (module_ : string) (scopes : list string) : list string :=
  (if String.eqb module_ EmptyString then [] else dotted module_) ++ scopes.
Definition within (o : string) (module_ : string) (scopes : list string) : Prop :=
  exists rest, full_name module_ scopes = dotted o ++ rest.

(** [scopes] is the chain of definitions around some position in [n] (that of a definition does
    not count its own). *)
Inductive position : node -> list string -> Prop :=
| pos_here n : position n []
| pos_in par k cs c s : In c cs -> position c s ->
    position (Node par k cs) (match defines (Node par k cs) with Some x => x :: s | None => s end).

(** The rules that apply at a position *)
Definition active (module_ : string) (scopes : list string) (rules : list rule) (r : rule) : Prop :=
  In r rules /\ forall o, on r = Some o -> within o module_ scopes.
(** Visiting the part [n] of a module that stands in the scopes [scopes] ends with [x]. *)
Definition yields (kind_sort : string -> sort) (key : node -> string) (module_ : string) (scopes : list string)
    (rules : list rule) (n : node) (x : result node) : Prop :=
  exists fuel, transform kind_sort key fuel module_ (filter (fun r => applicable (on r) module_) rules) scopes n = Some x.
(** The rule without its restriction *)
Definition everywhere (r : rule) : rule := mkRule (pattern r) (replacement r) None.

(** ** Expressions: their text, and how Python reads it *)
(** Tokens of sums, products and calls *)
Inductive token := TId (x : ident) | TPlus | TTimes | TOpen | TClose | TComma.
Fixpoint wrap (n : nat) (l : list token) : list token :=
  match n with 0 => l | S n' => TOpen :: wrap n' l ++ [TClose] end.
Fixpoint commas (ls : list (list token)) : list token :=
  match ls with [] => [] | [l] => l | l :: ls' => l ++ TComma :: commas ls' end.
(** The text of an expression: the operators of libcst's "+" and "*" are written between their
    operands, other nodes are calls of the function their class names. Parentheses are those of
    the tree. *)
Fixpoint text (n : node) : list token :=
  match n with
  | Name par x => wrap par [TId x]
  | Node par k cs =>
      let ts := (fix go (l : list node) := match l with [] => [] | c :: l' => text c :: go l' end) cs in
      wrap par (match String.eqb k "+", String.eqb k "*", ts with
                | true, _, [a; b] => a ++ TPlus :: b
                | _, true, [a; b] => a ++ TTimes :: b
                | _, _, _ => TId (Id k) :: TOpen :: commas ts ++ [TClose]
                end)
  end.
(** Python's grammar of such expressions: [reads l ts n] if the tokens [ts] are read as [n] at
    level [l] (sum: term ("+" term)*, term: atom ("*" atom)*, both to the left). *)
Inductive level := Sum | Term | Atom.
Inductive reads : level -> list token -> node -> Prop :=
| read_name x : reads Atom [TId x] (Name 0 x)
| read_call k ls cs : k <> "+"%string -> k <> "*"%string ->
    Forall2 (reads Sum) ls cs -> reads Atom (TId (Id k) :: TOpen :: commas ls ++ [TClose]) (Node 0 k cs)
| read_paren_name ts par x : reads Sum ts (Name par x) -> reads Atom (TOpen :: ts ++ [TClose]) (Name (S par) x)
| read_paren ts par k cs : reads Sum ts (Node par k cs) -> reads Atom (TOpen :: ts ++ [TClose]) (Node (S par) k cs)
| read_atom ts n : reads Atom ts n -> reads Term ts n
| read_times a b x y : reads Term a x -> reads Atom b y -> reads Term (a ++ TTimes :: b) (Node 0 "*" [x; y])
| read_term ts n : reads Term ts n -> reads Sum ts n
| read_plus a b x y : reads Sum a x -> reads Term b y -> reads Sum (a ++ TPlus :: b) (Node 0 "+" [x; y]).
(** The text of the tree is read back as the tree. *)
Definition faithful (n : node) : Prop := reads Sum (text n) n.
(** The value of an expression of names, sums and products *)
Fixpoint value (env : string -> Z) (n : node) : Z :=
  match n with
  | Name _ (Id x) | Name _ (Cap x) => env x
  | Node _ k cs =>
      let vs := (fix go (l : list node) := match l with [] => [] | c :: l' => value env c :: go l' end) cs in
      if String.eqb k "+" then fold_right Z.add 0%Z vs else if String.eqb k "*" then fold_right Z.mul 1%Z vs else 0%Z
  end.
(** An expression that can stand anywhere *)
Definition closed (n : node) : Prop := reads Atom (text n) n.
