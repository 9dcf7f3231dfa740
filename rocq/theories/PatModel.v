(** Models [src/fastforward/_autoquant/cst/pattern.py]: pattern rules that match and rewrite
    syntax trees, and the transformer that applies them to a module. *)
From Coq Require Import String Ascii.
From Verif Require Import Prelude.
From Verif Require QmModel.
Local Open Scope nat_scope.
Local Open Scope list_scope.

(** A name is an identifier of the program or (in patterns and replacements, 287-308
    [_parse_pattern]) a capture: an identifier with the capture prefix. *)
Inductive ident := Id (s : string) | Cap (s : string).
(** libcst nodes: a name, or a node of some class with children (a string for a field that is not
    a node is a child without children). Expressions carry the parentheses written around them:
    [par] is their number, 0 for other nodes. Whitespace, comments, headers and footers are left
    out: patterns do not look at them (207-216 and 259-262). *)
Inductive node := Name (par : nat) (x : ident) | Node (par : nat) (k : string) (cs : list node).

(** ** Matching *)
(** 202-267 [_convert_to_matcher] and libcst's matching: a capture matches any node, also with the
    parentheses around it (the parentheses around the capture in the pattern are not looked at,
    218-220); other nodes match nodes of the same class with the same number of parentheses
    whose children match. The dictionaries of captures are merged in the order of the fields. *)
Fixpoint pmatch (p n : node) {struct p} : option (list (string * node)) :=
  match p with
  | Name _ (Cap x) => Some [(x, n)]
  | Name par (Id a) =>
      match n with
      | Name par' (Id b) => if (par =? par') && String.eqb a b then Some [] else None
      | _ => None
      end
  | Node par k ps =>
      match n with
      | Node par' k' ns =>
          if (par =? par') && String.eqb k k' then
            (fix go (ps ns : list node) : option (list (string * node)) :=
               match ps, ns with
               | [], [] => Some []
               | p :: ps', n :: ns' =>
                   match pmatch p n with
                   | None => None
                   | Some a => match go ps' ns' with None => None | Some b => Some (a ++ b) end
                   end
               | _, _ => None
               end) ps ns
          else None
      | _ => None
      end
  end.
(** The value a dictionary merged from these holds: the last one *)
Fixpoint capture (x : string) (l : list (string * node)) : option node :=
  match l with
  | [] => None
  | (y, n) :: l' => match capture x l' with
                    | Some m => Some m
                    | None => if String.eqb x y then Some n else None
                    end
  end.

(** 311-327 [_CaptureTransformer]: a name with the capture prefix is replaced, with the
    parentheses around it. *)
Fixpoint substitute (caps : list (string * node)) (r : node) : result node :=
  match r with
  | Name _ (Cap x) => match capture x caps with Some n => Ok n | None => Err KeyError end
  | Name par (Id a) => Ok (Name par (Id a))
  | Node par k cs =>
      let? cs' := (fix go (cs : list node) : result (list node) :=
                     match cs with
                     | [] => Ok []
                     | c :: cs' => let? d := substitute caps c in let? ds := go cs' in Ok (d :: ds)
                     end) cs in
      Ok (Node par k cs')
  end.

(** Which of libcst's abstract classes a class belongs to *)
Inductive sort := Expression | Small | Statement | Part.

Record rule := mkRule { pattern : node; replacement : node; on : option string }.

Section Rules.
  Variable kind_sort : string -> sort.
  (** The text of a node (109-115, 166-172 [_node_key]) *)
  Variable key : node -> string.
  Definition sort_of (n : node) : sort := match n with Name _ _ => Expression | Node _ k _ => kind_sort k end.

  (** 40-84 [PatternRule.apply]: [None] when it returns the node it was given. *)
  Definition captures_of (p n : node) : option (list (string * node)) :=
    match pmatch p n with
    | Some c => Some c
    | None => match n with
              | Node _ k [c] => if String.eqb k "SimpleStatementLine" then pmatch p c else None
              | _ => None
              end
    end.
  Definition apply (r : rule) (n : node) : result (option node) :=
    match captures_of (pattern r) n with
    | None => Ok None
    | Some caps =>
        let? m := substitute caps (replacement r) in
        match sort_of n with
        | Small =>
            match sort_of m with
            | Expression => Ok (Some (Node 0 "Expr" [m]))
            | Statement => match m with
                           | Node _ k [c] => if String.eqb k "SimpleStatementLine" then Ok (Some c) else Ok None
                           | _ => Ok None
                           end
            | _ => Ok (Some m)
            end
        | Statement =>
            match sort_of m with
            | Expression => Ok (Some (Node 0 "SimpleStatementLine" [Node 0 "Expr" [m]]))
            | Small => Ok (Some (Node 0 "SimpleStatementLine" [m]))
            | _ => Ok (Some m)
            end
        | _ => Ok (Some m)
        end
    end.

  (** 153-162: the scope of a position, and whether a rule applies there *)
  Definition scope_parts (module_ : string) (scopes : list string) : list string :=
    (if String.eqb module_ EmptyString then [] else QmModel.split_dots EmptyString module_) ++ scopes.
  Fixpoint parts_eqb (a b : list string) : bool :=
    match a, b with
    | [], [] => true
    | x :: a', y :: b' => String.eqb x y && parts_eqb a' b'
    | _, _ => false
    end.
  Definition scope_matches (module_ : string) (scopes : list string) (o : option string) : bool :=
    match o with
    | None => true
    | Some s => let ps := QmModel.split_dots EmptyString s in
                parts_eqb (firstn (length ps) (scope_parts module_ scopes)) ps
    end.

  (** 174-199 [_apply_rules]; each round of the loop takes one unit of fuel, [None] when it has not
      stopped by then. [scopes] is the scope stack, outermost first. *)
  Fixpoint loop (fuel : nat) (module_ : string) (scopes : list string) (rules : list rule)
      (idx : nat) (n : node) (seen : list string) : option (result node) :=
    match fuel with
    | 0 => None
    | S fuel' =>
        match nth_error rules idx with
        | None => Some (Ok n)
        | Some r =>
            if negb (scope_matches module_ scopes (on r)) then loop fuel' module_ scopes rules (S idx) n seen
            else match apply r n with
                 | Err e => Some (Err e)
                 | Ok None => loop fuel' module_ scopes rules (S idx) n seen
                 | Ok (Some m) =>
                     if existsb (String.eqb (key m)) seen
                     then loop fuel' module_ scopes rules (S idx) n seen
                     else loop fuel' module_ scopes rules 0 m (key m :: seen)
                 end
        end
    end.
  Definition apply_rules (fuel : nat) (module_ : string) (scopes : list string) (rules : list rule) (n : node)
    : option (result node) := loop fuel module_ scopes rules 0 n [key n].

  (** 135-151: the name a class or function definition pushes on the scope stack *)
  Definition defines (n : node) : option string :=
    match n with
    | Node _ k (Name _ (Id x) :: _) => if String.eqb k "ClassDef" || String.eqb k "FunctionDef" then Some x else None
    | _ => None
    end.
  (** 117-163: the visit of a tree. The children of a definition are visited in its scope; the rules
      are applied to the definition itself after its scope has been popped (164-167). *)
  Fixpoint transform (fuel : nat) (module_ : string) (rules : list rule) (scopes : list string) (n : node)
    : option (result node) :=
    match n with
    | Name _ _ => apply_rules fuel module_ scopes rules n
    | Node par k cs =>
        let inner := match defines n with Some x => scopes ++ [x] | None => scopes end in
        match (fix go (cs : list node) : option (result (list node)) :=
                 match cs with
                 | [] => Some (Ok [])
                 | c :: cs' =>
                     match transform fuel module_ rules inner c with
                     | None => None
                     | Some (Err e) => Some (Err e)
                     | Some (Ok d) => match go cs' with
                                      | None => None
                                      | Some (Err e) => Some (Err e)
                                      | Some (Ok ds) => Some (Ok (d :: ds))
                                      end
                     end
                 end) cs with
        | None => None
        | Some (Err e) => Some (Err e)
        | Some (Ok cs') => apply_rules fuel module_ scopes rules (Node par k cs')
        end
    end.

  (** 118-123 [_applicable_in_module] *)
  Definition applicable (o : option string) (module_ : string) : bool :=
    match o with
    | None => true
    | Some s =>
        if String.eqb module_ EmptyString then true
        else if negb (existsb (Ascii.eqb "."%char) (list_ascii_of_string s)) then true
        else String.prefix module_ s || String.prefix s module_
    end.
  (** 125-133: [module.visit(PatternRuleTransformer(rules, module_qualified_name))] *)
  Definition visit_module (fuel : nat) (module_ : string) (rules : list rule) (n : node) : option (result node) :=
    transform fuel module_ (filter (fun r => applicable (on r) module_) rules) [] n.
End Rules.
