(** Models how autoquant prepares source code: fastforward/_autoquant/cst/passes.py
    [ConvertSemicolonJoinedStatements], [ExpandAugAssign], [MarkReplacementCandidates] and
    [IsolateReplacementCandidates], in the order of _autoquant/autoquant.py:383-398
    [default_preprocessing_passes], together with what Python does with the code.
    [RemoveRedundantParentheses] and [WrapAssignments] change layout and node classes only and are
    the identity on these trees. *)
From Coq Require Import String Ascii DecimalString.
From Verif Require Import Prelude.
Local Open Scope nat_scope.
Local Open Scope list_scope.

(** ** Syntax *)

(** libcst's binary and augmented operators *)
Inductive binop := Add | Subtract | Multiply | Divide | FloorDivide | Modulo | Power | LeftShift | RightShift | BitAnd | BitOr | BitXor | MatrixMultiply.
Inductive augop := AddAssign | SubtractAssign | MultiplyAssign | DivideAssign | FloorDivideAssign | ModuloAssign | PowerAssign
  | LeftShiftAssign | RightShiftAssign | BitAndAssign | BitOrAssign | BitXorAssign | MatrixMultiplyAssign.

(** Nodes whose parts are all evaluated from left to right.  [Call ks] has the function and the
    arguments, [ks] are the keywords; [Subscript] the value and the indices; [Global x] is a name
    that is no local variable; [Other] stands for dictionaries, sets, formatted strings, slices,
    starred elements, single comparisons, [await] and so on; [yield] is left out. *)
Inductive kind :=
| Call (keywords : list (option string)) | Binary (o : binop) | Unary (o : nat) | Attribute (a : string) | Subscript
| Tuple | ListDisplay | Global (x : string) | Other (n : nat).

(** Expressions.  [Lit] are literals that are no collections; [Boolean true] is [and]; [Comp] are
    comprehensions and generator expressions with all their parts; [Walrus] is [x := e]; [Cand] is
    the node [ReplacementCandidate].  Chained comparisons are left out. *)
Inductive expr :=
| Name (x : string)
| Lit (c : nat)
| Node (k : kind) (l : list expr)
| Boolean (both : bool) (a b : expr)
| IfExp (t a b : expr)
| Comp (form : nat) (l : list expr)
| Lambda (ps : list string) (b : expr)
| Walrus (x : string) (e : expr)
| Cand (e : expr).

(** Small statements.  Annotations are left out: [x: T = e] is an assignment, [x: T] is [Pass]. *)
Inductive small :=
| Assign (ts : list expr) (v : expr)
| AugAssign (t : expr) (o : augop) (v : expr)
| Expr (e : expr)
| Return (e : option expr)
| Assert (t : expr) (msg : option expr)
| Raise (e : expr) (cause : option expr)
| Pass | Break | Continue.

(** Statements.  [Line] is [SimpleStatementLine]; [Suite], as the only statement of a body, is
    [SimpleStatementSuite].  [else] of loops, [with], [try], [match] and nested definitions are left
    out. *)
Inductive stmt :=
| Line (l : list small)
| Suite (l : list small)
| If (t : expr) (b o : list stmt)
| While (t : expr) (b : list stmt)
| For (t it : expr) (b : list stmt).

(** ** Names *)
Fixpoint names (e : expr) : list string :=
  match e with
  | Name x => [x]
  | Lit _ => []
  | Node _ l | Comp _ l => flat_map names l
  | Boolean _ a b => names a ++ names b
  | IfExp t a b => names t ++ names a ++ names b
  | Lambda ps b => ps ++ names b
  | Walrus x e => x :: names e
  | Cand e => names e
  end.
(** candidates as the expressions they wrap: [ReplacementCandidate._codegen_impl], cst/nodes.py:117-118 *)
Fixpoint erase (e : expr) : expr :=
  match e with
  | Name x => Name x
  | Lit c => Lit c
  | Node k l => Node k (map erase l)
  | Boolean o a b => Boolean o (erase a) (erase b)
  | IfExp t a b => IfExp (erase t) (erase a) (erase b)
  | Comp f l => Comp f (map erase l)
  | Lambda ps b => Lambda ps (erase b)
  | Walrus x e => Walrus x (erase e)
  | Cand e => erase e
  end.

(** ** What Python does *)

(** Values and the state of the world outside the local variables are arbitrary, and so is what
    operators, calls, attributes, global names and so on do with them.  Comprehensions and lambdas
    depend on their code and on the local variables they mention (these are captured by value). *)
Record semantics (V U : Type) := mkSemantics {
  literal : nat -> V;
  apply : kind -> list V -> U -> result V * U;
  inplace : augop -> V -> V -> U -> result V * U;
  truth : V -> U -> result bool * U;
  store : kind -> list V -> V -> U -> result unit * U;
  unpack : nat -> V -> U -> result (list V) * U;
  comprehend : nat -> list expr -> list (option V) -> U -> result V * U;
  close : list string -> expr -> list (option V) -> V;
  iterator : V -> U -> result V * U;
  next : V -> U -> result (option V) * U;
  failure : option V -> exn;   (* [assert] *)
  thrown : V -> option V -> exn }.
Arguments literal {V U}. Arguments apply {V U}. Arguments inplace {V U}. Arguments truth {V U}. Arguments store {V U}.
Arguments unpack {V U}. Arguments comprehend {V U}. Arguments close {V U}. Arguments iterator {V U}. Arguments next {V U}.
Arguments failure {V U}. Arguments thrown {V U}.

Section Python.
  Context {V U : Type} (s : semantics V U).

  (** the local variables *)
  Definition env := string -> option V.
  Definition state : Type := env * U.
  Definition update (rho : env) (x : string) (v : V) : env := fun y => if String.eqb x y then Some v else rho y.

  Definition bind {A B} (m : result A * state) (k : A -> state -> result B * state) : result B * state :=
    match m with (Ok a, st) => k a st | (Err e, st) => (Err e, st) end.
  (** what does not touch the local variables *)
  Definition lift {A} (f : U -> result A * U) (st : state) : result A * state :=
    let '(r, u) := f (snd st) in (r, (fst st, u)).

  Fixpoint eval (e : expr) (st : state) {struct e} : result V * state :=
    match e with
    | Name x => (match fst st x with Some v => Ok v | None => Err UnboundLocalError end, st)
    | Lit c => (Ok (literal s c), st)
    | Node k l =>
        bind ((fix evals (l : list expr) (st : state) : result (list V) * state :=
                 match l with
                 | [] => (Ok [], st)
                 | e :: l' => bind (eval e st) (fun v st => bind (evals l' st) (fun vs st => (Ok (v :: vs), st)))
                 end) l st)
          (fun vs st => lift (apply s k vs) st)
    | Boolean both a b =>
        bind (eval a st) (fun v st => bind (lift (truth s v) st) (fun t st => if Bool.eqb t both then eval b st else (Ok v, st)))
    | IfExp t a b =>
        bind (eval t st) (fun v st => bind (lift (truth s v) st) (fun t st => if t then eval a st else eval b st))
    | Comp f l => lift (comprehend s f (map erase l) (map (fst st) (flat_map names l))) st
    | Lambda ps b => (Ok (close s ps (erase b) (map (fst st) (names b))), st)
    | Walrus x e => bind (eval e st) (fun v st => (Ok v, (update (fst st) x v, snd st)))
    | Cand e => eval e st
    end.
  Fixpoint evals (l : list expr) (st : state) : result (list V) * state :=
    match l with
    | [] => (Ok [], st)
    | e :: l' => bind (eval e st) (fun v st => bind (evals l' st) (fun vs st => (Ok (v :: vs), st)))
    end.

  (** assignment to one target *)
  Fixpoint assign (t : expr) (v : V) (st : state) {struct t} : result unit * state :=
    match t with
    | Name x => (Ok tt, (update (fst st) x v, snd st))
    | Node k l =>
        match k with
        | Tuple | ListDisplay =>
            bind (lift (unpack s (length l) v) st)
              (fun vs st =>
                 (fix each (l : list expr) (vs : list V) (st : state) : result unit * state :=
                    match l, vs with
                    | [], _ | _, [] => (Ok tt, st)
                    | t :: l', v :: vs' => bind (assign t v st) (fun _ st => each l' vs' st)
                    end) l vs st)
        | Attribute _ | Subscript => bind (evals l st) (fun vs st => lift (store s k vs v) st)
        | _ => (Err UserException, st)
        end
    | _ => (Err UserException, st)
    end.
  Fixpoint assigns (ts : list expr) (v : V) (st : state) : result unit * state :=
    match ts with
    | [] => (Ok tt, st)
    | t :: ts' => bind (assign t v st) (fun _ st => assigns ts' v st)
    end.
  (** augmented assignment: the parts of the target are evaluated once *)
  Definition augment (t : expr) (o : augop) (v : expr) (st : state) : result unit * state :=
    match t with
    | Name x =>
        bind (eval t st) (fun a st => bind (eval v st) (fun b st => bind (lift (inplace s o a b) st) (fun r st =>
          (Ok tt, (update (fst st) x r, snd st)))))
    | Node (Attribute _ as k) l | Node (Subscript as k) l =>
        bind (evals l st) (fun vs st => bind (lift (apply s k vs) st) (fun a st => bind (eval v st) (fun b st =>
          bind (lift (inplace s o a b) st) (fun r st => lift (store s k vs r) st))))
    | _ => (Err UserException, st)
    end.

  (** How a statement ends: [Next] goes on with the next statement, [Endless] is a loop that ran for
      the given number of rounds. *)
  Inductive out := Next (st : state) | Broke (st : state) | Again (st : state) | Returned (v : option V) (u : U) | Raised (e : exn) (u : U) | Endless.
  Definition ends (r : result unit * state) : out :=
    match r with (Ok _, st) => Next st | (Err e, st) => Raised e (snd st) end.
  Definition on {A} (r : result A * state) (k : A -> state -> out) : out :=
    match r with (Ok a, st) => k a st | (Err e, st) => Raised e (snd st) end.

  Definition exec_small (m : small) (st : state) : out :=
    match m with
    | Assign ts v => on (eval v st) (fun v st => ends (assigns ts v st))
    | AugAssign t o v => ends (augment t o v st)
    | Expr e => on (eval e st) (fun _ st => Next st)
    | Return None => Returned None (snd st)
    | Return (Some e) => on (eval e st) (fun v st => Returned (Some v) (snd st))
    | Assert t msg =>
        on (eval t st) (fun v st => on (lift (truth s v) st) (fun b st =>
          if b then Next st
          else match msg with
               | None => Raised (failure s None) (snd st)
               | Some e => on (eval e st) (fun v st => Raised (failure s (Some v)) (snd st))
               end))
    | Raise e cause =>
        on (eval e st) (fun v st =>
          match cause with
          | None => Raised (thrown s v None) (snd st)
          | Some c => on (eval c st) (fun w st => Raised (thrown s v (Some w)) (snd st))
          end)
    | Pass => Next st
    | Break => Broke st
    | Continue => Again st
    end.
  Definition andthen (o : out) (k : state -> out) : out := match o with Next st => k st | _ => o end.
  Fixpoint exec_smalls (l : list small) (st : state) : out :=
    match l with [] => Next st | m :: l' => andthen (exec_small m st) (exec_smalls l') end.

  (** [round] is [None] if the loop is over *)
  Fixpoint loop (fuel : nat) (round : state -> option out * state) (st : state) : out :=
    match fuel with
    | O => Endless
    | S fuel' =>
        match round st with
        | (None, st) => Next st
        | (Some (Next st'), _) | (Some (Again st'), _) => loop fuel' round st'
        | (Some (Broke st'), _) => Next st'
        | (Some o, _) => o
        end
    end.
  Definition while_round (t : state -> result V * state) (body : state -> out) (st : state) : option out * state :=
    match bind (t st) (fun v st => lift (truth s v) st) with
    | (Err e, st) => (Some (Raised e (snd st)), st)
    | (Ok true, st) => (Some (body st), st)
    | (Ok false, st) => (None, st)
    end.
  Definition for_round (target : V -> state -> result unit * state) (it : V) (body : state -> out) (st : state) : option out * state :=
    match lift (next s it) st with
    | (Err e, st) => (Some (Raised e (snd st)), st)
    | (Ok None, st) => (None, st)
    | (Ok (Some v), st) => match target v st with
                           | (Err e, st) => (Some (Raised e (snd st)), st)
                           | (Ok _, st) => (Some (body st), st)
                           end
    end.

  Variable fuel : nat.
  Fixpoint exec (p : stmt) (st : state) {struct p} : out :=
    match p with
    | Line l | Suite l => exec_smalls l st
    | If t b o =>
        on (bind (eval t st) (fun v st => lift (truth s v) st)) (fun c st =>
          (fix block (l : list stmt) (st : state) : out := match l with [] => Next st | p :: l' => andthen (exec p st) (block l') end) (if c then b else o) st)
    | While t b =>
        loop fuel (while_round (eval t)
          ((fix block (l : list stmt) (st : state) : out := match l with [] => Next st | p :: l' => andthen (exec p st) (block l') end) b)) st
    | For t it b =>
        on (bind (eval it st) (fun v st => lift (iterator s v) st)) (fun i st =>
          loop fuel (for_round (assign t) i
            ((fix block (l : list stmt) (st : state) : out := match l with [] => Next st | p :: l' => andthen (exec p st) (block l') end) b)) st)
    end.
  Fixpoint run (l : list stmt) (st : state) : out := match l with [] => Next st | p :: l' => andthen (exec p st) (run l') end.
End Python.
Arguments env V : clear implicits. Arguments state V U : clear implicits. Arguments out V U : clear implicits.

(** ** passes.py:119-168 [ConvertSemicolonJoinedStatements] *)
Fixpoint split_stmt (p : stmt) : list stmt :=
  match p with
  | Line [m] => [Line [m]]
  | Line l => map (fun m => Line [m]) l
  | Suite l => map (fun m => Line [m]) l
  | If t b o => [If t (flat_map split_stmt b) (flat_map split_stmt o)]
  | While t b => [While t (flat_map split_stmt b)]
  | For t it b => [For t it (flat_map split_stmt b)]
  end.
Definition split : list stmt -> list stmt := flat_map split_stmt.

(** ** passes.py:171-223 [ExpandAugAssign] *)

(** 171-185 [_AUG_OP_TO_BINARY_OP] *)
Definition binary_of (o : augop) : binop :=
  match o with
  | AddAssign => Add | SubtractAssign => Subtract | MultiplyAssign => Multiply | DivideAssign => Divide | FloorDivideAssign => FloorDivide
  | ModuloAssign => Modulo | PowerAssign => Power | LeftShiftAssign => LeftShift | RightShiftAssign => RightShift
  | BitAndAssign => BitAnd | BitOrAssign => BitOr | BitXorAssign => BitXor | MatrixMultiplyAssign => MatrixMultiply
  end.
(** 202-223 *)
Definition expand_small (m : small) : small :=
  match m with
  | AugAssign t o v =>
      match t with
      | Name _ | Node (Attribute _) _ | Node Subscript _ => Assign [t] (Node (Binary (binary_of o)) [t; v])
      | _ => m
      end
  | _ => m
  end.
Fixpoint map_stmt (f : small -> small) (g : expr -> expr) (p : stmt) : stmt :=
  match p with
  | Line l => Line (map f l)
  | Suite l => Suite (map f l)
  | If t b o => If (g t) (map (map_stmt f g) b) (map (map_stmt f g) o)
  | While t b => While (g t) (map (map_stmt f g) b)
  | For t it b => For (g t) (g it) (map (map_stmt f g) b)
  end.
Definition expand : list stmt -> list stmt := map (map_stmt expand_small (fun e => e)).

(** ** passes.py:274-325 [MarkReplacementCandidates] *)

(** cst/nodes.py:236-254 [is_simple_literal] *)
Fixpoint simple_literal (e : expr) : bool :=
  match e with
  | Lit _ => true
  | Node (Unary _) l | Node (Binary _) l => forallb simple_literal l
  | _ => false
  end.
(** libcst's [get_full_name_for_node] *)
Fixpoint full_name (e : expr) : option string :=
  match e with
  | Name x | Node (Global x) _ => Some x
  | Node (Attribute a) (v :: _) => match full_name v with Some n => Some (n ++ "." ++ a)%string | None => None end
  | Node (Call _) (f :: _) => full_name f
  | Node Subscript (v :: _) => full_name v
  | _ => None
  end.
(** _autoquant/bypass.py:28-35 and 87-95 *)
Definition bypass_names : list string :=
  ["torch.utils.checkpoint.checkpoint"; "torch.overrides.handle_torch_function"; "torch.compiler.is_exporting"; "torch._check_with"]%string.
Definition bypassed (f : expr) : bool :=
  match full_name f with Some n => existsb (String.eqb n) bypass_names | None => false end.
Definition is_super (f : expr) : bool :=
  match f with Name x | Node (Global x) _ => String.eqb x "super" | _ => false end.

(** 284-319: [leave_Call] looks at the call as it was, the others at the marked operands *)
Fixpoint mark (e : expr) : expr :=
  match e with
  | Name x => Name x
  | Lit c => Lit c
  | Node k l =>
      let l' := map mark l in
      match k with
      | Call _ => match l with
                  | f :: _ => if is_super f || bypassed f then Node k l' else Cand (Node k l')
                  | [] => Cand (Node k l')
                  end
      | Binary _ | Unary _ => if forallb simple_literal l' then Node k l' else Cand (Node k l')
      | _ => Node k l'
      end
  | Boolean o a b => Boolean o (mark a) (mark b)
  | IfExp t a b => IfExp (mark t) (mark a) (mark b)
  | Comp f l => Comp f (map mark l)
  | Lambda ps b => Lambda ps (mark b)
  | Walrus x e => Walrus x (mark e)
  | Cand e => Cand (mark e)
  end.
Definition mark_small (m : small) : small :=
  match m with
  | Assign ts v => Assign (map mark ts) (mark v)
  | AugAssign t o v => AugAssign (mark t) o (mark v)
  | Expr e => Expr (mark e)
  | Return e => Return (option_map mark e)
  | Assert t m => Assert (mark t) (option_map mark m)
  | Raise e c => Raise (mark e) (option_map mark c)
  | Pass => Pass | Break => Break | Continue => Continue
  end.
Definition mark_all : list stmt -> list stmt := map (map_stmt mark_small mark).

(** ** passes.py:505-710 [IsolateReplacementCandidates] *)

(** 664-665 *)
Definition tmp (n : nat) : string := ("_tmp_" ++ NilZero.string_of_uint (Nat.to_uint n))%string.

(** 628-692 [leave_ReplacementCandidate] at a place where candidates are moved: what is moved, in
    order, what stays, and the counter.  Conditional expressions and comprehensions
    ([_SKIP_ISOLATION_NODES], 528) keep their candidates. *)
Fixpoint isolate (e : expr) (n : nat) {struct e} : list (string * expr) * expr * nat :=
  match e with
  | Name _ | Lit _ | IfExp _ _ _ | Comp _ _ => ([], e, n)
  | Node k l =>
      let '(ins, l', n') :=
        (fix isolates (l : list expr) (n : nat) : list (string * expr) * list expr * nat :=
           match l with
           | [] => ([], [], n)
           | e :: l' => let '(i, e', n) := isolate e n in let '(is, l', n) := isolates l' n in (i ++ is, e' :: l', n)
           end) l n in
      (ins, Node k l', n')
  | Boolean o a b => let '(i, a', n) := isolate a n in let '(j, b', n) := isolate b n in (i ++ j, Boolean o a' b', n)
  | Lambda ps b => let '(i, b', n) := isolate b n in (i, Lambda ps b', n)
  | Walrus x e => let '(i, e', n) := isolate e n in (i, Walrus x e', n)
  | Cand e => let '(i, e', n) := isolate e n in (i ++ [(tmp n, Cand e')], Name (tmp n), S n)
  end.
Fixpoint isolates (l : list expr) (n : nat) : list (string * expr) * list expr * nat :=
  match l with
  | [] => ([], [], n)
  | e :: l' => let '(i, e', n) := isolate e n in let '(is, l', n) := isolates l' n in (i ++ is, e' :: l', n)
  end.
(** 643-657: a candidate that is the whole value of an assignment, [return], [raise] or expression statement stays *)
Definition isolate_top (e : expr) (n : nat) : list (string * expr) * expr * nat :=
  match e with
  | Cand e => let '(i, e', n) := isolate e n in (i, Cand e', n)
  | _ => isolate e n
  end.
Definition isolate_opt (o : option expr) (n : nat) : list (string * expr) * option expr * nat :=
  match o with None => ([], None, n) | Some e => let '(i, e', n) := isolate e n in (i, Some e', n) end.
Definition isolate_small (m : small) (n : nat) : list (string * expr) * small * nat :=
  match m with
  | Assign ts v => let '(i, ts', n) := isolates ts n in let '(j, v', n) := isolate_top v n in (i ++ j, Assign ts' v', n)
  | AugAssign t o v => let '(i, t', n) := isolate t n in let '(j, v', n) := isolate_top v n in (i ++ j, AugAssign t' o v', n)
  | Expr e => let '(i, e', n) := isolate_top e n in (i, Expr e', n)
  | Return None => ([], m, n)
  | Return (Some e) => let '(i, e', n) := isolate_top e n in (i, Return (Some e'), n)
  | Assert t msg => let '(i, t', n) := isolate t n in let '(j, m', n) := isolate_opt msg n in (i ++ j, Assert t' m', n)
  | Raise e c => let '(i, e', n) := isolate_top e n in let '(j, c', n) := isolate_opt c n in (i ++ j, Raise e' c', n)
  | Pass | Break | Continue => ([], m, n)
  end.
Fixpoint isolate_smalls (l : list small) (n : nat) : list (string * expr) * list small * nat :=
  match l with
  | [] => ([], [], n)
  | m :: l' => let '(i, m', n) := isolate_small m n in let '(is, l', n) := isolate_smalls l' n in (i ++ is, m' :: l', n)
  end.
(** 592-626 [_resolve_insertions] *)
Definition insertion (i : string * expr) : stmt := Line [Assign [Name (fst i)] (snd i)].

(** 664-694: candidates outside a [SimpleStatementLine] stay, but count *)
Definition counted (e : expr) (n : nat) : nat := snd (isolate e n).
Fixpoint isolate_stmt (p : stmt) (n : nat) {struct p} : list stmt * nat :=
  match p with
  | Line l => let '(ins, l', n) := isolate_smalls l n in (map insertion ins ++ [Line l'], n)
  | Suite l => ([Suite l], snd (isolate_smalls l n))
  | If t b o =>
      let '(b', n) := (fix block (l : list stmt) (n : nat) : list stmt * nat :=
                         match l with [] => ([], n) | p :: l' => let '(q, n) := isolate_stmt p n in let '(r, n) := block l' n in (q ++ r, n) end) b (counted t n) in
      let '(o', n) := (fix block (l : list stmt) (n : nat) : list stmt * nat :=
                         match l with [] => ([], n) | p :: l' => let '(q, n) := isolate_stmt p n in let '(r, n) := block l' n in (q ++ r, n) end) o n in
      ([If t b' o'], n)
  | While t b =>
      let '(b', n) := (fix block (l : list stmt) (n : nat) : list stmt * nat :=
                         match l with [] => ([], n) | p :: l' => let '(q, n) := isolate_stmt p n in let '(r, n) := block l' n in (q ++ r, n) end) b (counted t n) in
      ([While t b'], n)
  | For t it b =>
      let '(b', n) := (fix block (l : list stmt) (n : nat) : list stmt * nat :=
                         match l with [] => ([], n) | p :: l' => let '(q, n) := isolate_stmt p n in let '(r, n) := block l' n in (q ++ r, n) end) b (counted it (counted t n)) in
      ([For t it b'], n)
  end.
Fixpoint isolate_block (l : list stmt) (n : nat) : list stmt * nat :=
  match l with [] => ([], n) | p :: l' => let '(q, n) := isolate_stmt p n in let '(r, n) := isolate_block l' n in (q ++ r, n) end.
(** 548 *)
Definition isolate_all (l : list stmt) : list stmt := fst (isolate_block l 1).

(** autoquant.py:383-398 *)
Definition preprocess (l : list stmt) : list stmt := isolate_all (mark_all (expand (split l))).
