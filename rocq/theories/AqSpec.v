(** Vocabulary for C90-C93: when prepared code does what the source code does. *)
From Coq Require Import String Ascii.
From Verif Require Import Prelude AqModel.
Local Open Scope nat_scope.
Local Open Scope list_scope.

(** ** Same behaviour up to temporaries *)
Definition temporary (x : string) : Prop := exists r, x = ("_tmp_" ++ r)%string.
Definition alike {V} (rho rho' : env V) : Prop := forall x, ~ temporary x -> rho x = rho' x.
Definition alike_state {V U} (st st' : state V U) : Prop := alike (fst st) (fst st') /\ snd st = snd st'.
(** Same end, value, variables and state of the world; if one raises, so does the other, maybe another exception. *)
Definition same_end {V U} (o o' : out V U) : Prop :=
  match o, o' with
  | Next st, Next st' | Broke st, Broke st' | Again st, Again st' => alike_state st st'
  | Returned v u, Returned v' u' => v = v' /\ u = u'
  | Raised _ _, Raised _ _ => True
  | Endless, Endless => True
  | _, _ => False
  end.

(** All names of a program. *)
Definition names_opt (o : option expr) : list string := match o with Some e => names e | None => [] end.
Definition names_small (m : small) : list string :=
  match m with
  | Assign ts v => flat_map names ts ++ names v
  | AugAssign t _ v => names t ++ names v
  | Expr e => names e
  | Return e => names_opt e
  | Assert t m => names t ++ names_opt m
  | Raise e c => names e ++ names_opt c
  | Pass | Break | Continue => []
  end.
Fixpoint names_stmt (p : stmt) : list string :=
  match p with
  | Line l | Suite l => flat_map names_small l
  | If t b o => names t ++ flat_map names_stmt b ++ flat_map names_stmt o
  | While t b => names t ++ flat_map names_stmt b
  | For t it b => names t ++ names it ++ flat_map names_stmt b
  end.
Definition no_temporaries (p : list stmt) : Prop := forall x, In x (flat_map names_stmt p) -> ~ temporary x.

(** ** Candidates outside conditional expressions and comprehensions *)
Fixpoint loose (e : expr) : bool :=
  match e with
  | Name _ | Lit _ | IfExp _ _ _ | Comp _ _ => false
  | Node _ l => existsb loose l
  | Boolean _ a b => loose a || loose b
  | Lambda _ b => loose b
  | Walrus _ e => loose e
  | Cand _ => true
  end.
(** the same for a whole value, which may be a candidate itself *)
Definition loose_value (e : expr) : bool := match e with Cand e => loose e | _ => loose e end.
Definition loose_opt (o : option expr) : bool := match o with Some e => loose e | None => false end.
Definition loose_small (m : small) : bool :=
  match m with
  | Assign ts v => existsb loose ts || loose_value v
  | AugAssign t _ v => loose t || loose_value v
  | Expr e | Return (Some e) => loose_value e
  | Assert t m => loose t || loose_opt m
  | Raise e c => loose_value e || loose_opt c
  | Return None | Pass | Break | Continue => false
  end.
(** Every candidate of a line is the whole value of its statement, or in a conditional expression
    or comprehension. *)
Fixpoint isolated (p : stmt) : bool :=
  match p with
  | Line l => forallb (fun m => negb (loose_small m)) l
  | Suite _ => true
  | If _ b o => forallb isolated b && forallb isolated o
  | While _ b | For _ _ b => forallb isolated b
  end.
(** The temporaries assigned by lines of a program. *)
Definition assigned_small (m : small) : list string :=
  match m with Assign [Name x] _ => [x] | _ => [] end.
Fixpoint assigned (p : stmt) : list string :=
  match p with
  | Line l | Suite l => flat_map assigned_small l
  | If _ b o => flat_map assigned b ++ flat_map assigned o
  | While _ b | For _ _ b => flat_map assigned b
  end.
(** Lines with one statement, and no one-line suites. *)
Fixpoint one_per_line (p : stmt) : bool :=
  match p with
  | Line l => length l =? 1
  | Suite _ => false
  | If _ b o => forallb one_per_line b && forallb one_per_line o
  | While _ b | For _ _ b => forallb one_per_line b
  end.

(** ** When the order of evaluation is kept *)

(** The result depends on the operands only, and nothing else changes. *)
Definition stable_kind {V U} (s : semantics V U) (k : kind) : Prop := forall vs, exists r, forall u, apply s k vs u = (r, u).
Section Order.
  Variable stable : kind -> bool.
  (** What stays of an expression, once its candidates are moved, is stable. *)
  Fixpoint settled (e : expr) : bool :=
    match e with
    | Name _ | Lit _ | Lambda _ _ | Cand _ => true
    | Node k l => stable k && forallb settled l
    | _ => false
    end.
  (** All of an expression is stable. *)
  Fixpoint calm (e : expr) : bool :=
    match e with
    | Name _ | Lit _ | Lambda _ _ => true
    | Node k l => stable k && forallb calm l
    | Cand e => calm e
    | _ => false
    end.
  (** What is evaluated before a candidate that moves is settled. *)
  Fixpoint in_order (l : list expr) : bool :=
    match l with
    | [] => true
    | e :: l' => (negb (existsb loose l') || settled e) && in_order l'
    end.
  (** ... and no candidate moves out of a lambda or the second operand of [and] or [or]. *)
  Fixpoint ordered (e : expr) : bool :=
    match e with
    | Name _ | Lit _ | IfExp _ _ _ | Comp _ _ => true
    | Node _ l => forallb ordered l && in_order l
    | Boolean _ a b => ordered a && negb (loose b)
    | Lambda _ b => negb (loose b)
    | Walrus _ e => ordered e
    | Cand e => ordered e
    end.
  Fixpoint no_walrus (e : expr) : bool :=
    match e with
    | Name _ | Lit _ | Comp _ _ | Lambda _ _ => true
    | Node _ l => forallb no_walrus l
    | Boolean _ a b => no_walrus a && no_walrus b
    | IfExp t a b => no_walrus t && no_walrus a && no_walrus b
    | Walrus _ _ => false
    | Cand e => no_walrus e
    end.
  Definition no_walrus_opt (o : option expr) : bool := match o with Some e => no_walrus e | None => true end.
  Definition no_walrus_small (m : small) : bool :=
    match m with
    | Assign ts v => forallb no_walrus ts && no_walrus v
    | AugAssign t _ v => no_walrus t && no_walrus v
    | Expr e => no_walrus e
    | Return e => no_walrus_opt e
    | Assert t m => no_walrus t && no_walrus_opt m
    | Raise e c => no_walrus e && no_walrus_opt c
    | Pass | Break | Continue => true
    end.
  (** Candidates move out of the target of an assignment only if this is one attribute or item and
      the assigned value is stable; none moves out of the message of [assert] or the cause of [raise]. *)
  Definition ordered_small (m : small) : bool :=
    match m with
    | Assign ts v =>
        if existsb loose ts
        then match ts with
             | [Node (Attribute _) l] | [Node Subscript l] => forallb ordered l && in_order l && calm v && ordered v
             | _ => false
             end
        else ordered v
    | Expr e | Return (Some e) => ordered e
    | Assert t m => ordered t && negb (loose_opt m)
    | Raise e c => ordered e && negb (loose_opt c)
    | AugAssign _ _ _ => negb (loose_small m)
    | Return None | Pass | Break | Continue => true
    end.
  Fixpoint ordered_stmt (p : stmt) : bool :=
    match p with
    | Line [m] => negb (loose_small m) || (ordered_small m && no_walrus_small m)
    | Line l => forallb (fun m => negb (loose_small m)) l
    | Suite _ => true
    | If _ b o => forallb ordered_stmt b && forallb ordered_stmt o
    | While _ b | For _ _ b => forallb ordered_stmt b
    end.
End Order.

(** ** Augmented assignments *)

(** The target of every augmented assignment is a variable, or an attribute or item of a stable
    expression, and its operand assigns no variables. *)
Definition simple_augment (stable : kind -> bool) (m : small) : bool :=
  match m with
  | AugAssign (Name _) _ _ => true
  | AugAssign (Node (Attribute _) l) _ v | AugAssign (Node Subscript l) _ v => forallb (calm stable) l && no_walrus v
  | AugAssign _ _ _ => false
  | _ => true
  end.
Fixpoint every (f : small -> bool) (p : stmt) : bool :=
  match p with
  | Line l | Suite l => forallb f l
  | If _ b o => forallb (every f) b && forallb (every f) o
  | While _ b | For _ _ b => forallb (every f) b
  end.

(** ** Marking *)

(** Calls are candidates, except of [super] and of the functions left alone; operators are, unless
    all operands are built from literals. *)
Fixpoint of_literals (e : expr) : bool :=
  match e with
  | Lit _ => true
  | Node (Unary _) l | Node (Binary _) l => forallb of_literals l
  | _ => false
  end.
(** The dotted name something is called by; calls and subscripts go by the name of what they are of. *)
Inductive called : expr -> string -> Prop :=
| c_name x : called (Name x) x
| c_global x l : called (Node (Global x) l) x
| c_attribute v l a n : called v n -> called (Node (Attribute a) (v :: l)) (n ++ "." ++ a)%string
| c_call f l ks n : called f n -> called (Node (Call ks) (f :: l)) n
| c_subscript v l n : called v n -> called (Node Subscript (v :: l)) n.
Definition left_alone (f : expr) : Prop :=
  f = Name "super" \/ (exists l, f = Node (Global "super") l) \/
  exists n, called f n /\ In n ["torch.utils.checkpoint.checkpoint"; "torch.overrides.handle_torch_function"; "torch.compiler.is_exporting"; "torch._check_with"]%string.
Definition candidate (k : kind) (l : list expr) : Prop :=
  match k with
  | Call _ => ~ exists f l', l = f :: l' /\ left_alone f
  | Binary _ | Unary _ => exists e, In e l /\ of_literals e = false
  | _ => False
  end.
Inductive marked : expr -> expr -> Prop :=
| m_name x : marked (Name x) (Name x)
| m_lit c : marked (Lit c) (Lit c)
| m_cand k l l' : candidate k l -> Forall2 marked l l' -> marked (Node k l) (Cand (Node k l'))
| m_node k l l' : ~ candidate k l -> Forall2 marked l l' -> marked (Node k l) (Node k l')
| m_boolean o a b a' b' : marked a a' -> marked b b' -> marked (Boolean o a b) (Boolean o a' b')
| m_if t a b t' a' b' : marked t t' -> marked a a' -> marked b b' -> marked (IfExp t a b) (IfExp t' a' b')
| m_comp f l l' : Forall2 marked l l' -> marked (Comp f l) (Comp f l')
| m_lambda ps b b' : marked b b' -> marked (Lambda ps b) (Lambda ps b')
| m_walrus x e e' : marked e e' -> marked (Walrus x e) (Walrus x e').
(** Source code has no candidates. *)
Fixpoint source (e : expr) : bool :=
  match e with
  | Name _ | Lit _ => true
  | Node _ l | Comp _ l => forallb source l
  | Boolean _ a b => source a && source b
  | IfExp t a b => source t && source a && source b
  | Lambda _ b => source b
  | Walrus _ e => source e
  | Cand _ => false
  end.

(** Valid assignment targets. *)
Fixpoint target (t : expr) : bool :=
  match t with
  | Name _ => true
  | Node (Attribute _) _ | Node Subscript _ => true
  | Node Tuple l | Node ListDisplay l => forallb target l
  | _ => false
  end.
Definition valid_targets (m : small) : bool := match m with Assign ts _ => forallb target ts | _ => true end.
(** Augmented assignments to variables, attributes and items. *)
Definition augments (m : small) : bool :=
  match m with AugAssign (Name _) _ _ | AugAssign (Node (Attribute _) _) _ _ | AugAssign (Node Subscript _) _ _ => true | _ => false end.

(** The operator in [x op= y]. *)
Definition meant (o : augop) : binop :=
  match o with
  | AddAssign => Add | SubtractAssign => Subtract | MultiplyAssign => Multiply | MatrixMultiplyAssign => MatrixMultiply | DivideAssign => Divide
  | FloorDivideAssign => FloorDivide | ModuloAssign => Modulo | PowerAssign => Power
  | BitAndAssign => BitAnd | BitOrAssign => BitOr | BitXorAssign => BitXor | LeftShiftAssign => LeftShift | RightShiftAssign => RightShift
  end.
