(** What sharing of repeated quantizer calls should do. *)
From Coq Require Import List Arith Bool.
From Verif Require Import Prelude DdpModel.
Import ListNotations.

(** ** Running a function *)

(** The values, what operators and quantizers return, what a value is as a condition and which items a
    loop over it sees. Operators and quantizers may raise; they have no other effect. *)
Record world := mkWorld {
  val : Type;
  op : nat -> val -> val -> option val;
  quant : nat -> val -> option val;
  truth : val -> bool;
  items : val -> list val }.

Section Run.
Variable w : world.

(** The variables that have a value. Reading another one fails. *)
Definition env := name -> option (val w).
Definition same_name (x y : name) : bool :=
  match x, y with User a, User b | Tmp a, Tmp b => a =? b | _, _ => false end.
Definition set_var (g : env) (x : name) (v : val w) : env :=
  fun y => if same_name y x then Some v else g y.

Fixpoint eval (g : env) (e : expr) : option (val w) :=
  match e with
  | EVar x => g x
  | EOp f a b => match eval g a with
                 | Some u => match eval g b with Some v => op w f u v | None => None end
                 | None => None
                 end
  | EQuant q a => match eval g a with Some u => quant w q u | None => None end
  | ECond a c b => match eval g c with
                   | Some u => if truth w u then eval g a else eval g b
                   | None => None
                   end
  end.

Fixpoint loop {V G} (step : V -> G -> option G) (vs : list V) (g : G) : option G :=
  match vs with
  | [] => Some g
  | v :: r => match step v g with Some g' => loop step r g' | None => None end
  end.

(** Running gives the variables afterwards, or nothing if an exception is raised. *)
Fixpoint run_stmt (s : stmt) (g : env) : option env :=
  match s with
  | SAsg x e => match eval g e with Some v => Some (set_var g x v) | None => None end
  | SIf e b o => match eval g e with
                 | Some v => if truth w v then run b g else run_orelse o g
                 | None => None
                 end
  | SFor x e b => match eval g e with
                  | Some v => loop (fun i g => run b (set_var g x i)) (items w v) g
                  | None => None
                  end
  end
with run_orelse (o : orelse) (g : env) : option env :=
  match o with
  | ONone => Some g
  | OElse b => run b g
  | OElif e b o' => match eval g e with
                    | Some v => if truth w v then run b g else run_orelse o' g
                    | None => None
                    end
  end
with run (b : block) (g : env) : option env :=
  match b with
  | BNil => Some g
  | BCons s r => match run_stmt s g with Some g' => run r g' | None => None end
  end.

(** The variables of the original program have the same values; both raise or none does. *)
Definition same_variables (g h : env) : Prop := forall n, g (User n) = h (User n).
Definition same_outcome (a b : option env) : Prop :=
  match a, b with
  | Some g, Some h => same_variables g h
  | None, None => True
  | _, _ => False
  end.
End Run.

(** ** What is in a function *)

(** The quantizer calls in an expression. *)
Fixpoint calls_in (e : expr) : list (nat * expr) :=
  match e with
  | EVar _ => []
  | EOp _ a b => calls_in a ++ calls_in b
  | EQuant q a => (q, a) :: calls_in a
  | ECond a c b => calls_in a ++ calls_in c ++ calls_in b
  end.

(** The tests of the elif parts of a conditional. *)
Fixpoint elif_tests (o : orelse) : list expr :=
  match o with
  | ONone | OElse _ => []
  | OElif e _ o' => e :: elif_tests o'
  end.

(** The expression a statement starts with, and the expressions of a statement that are not in one of
    its blocks. *)
Definition main_expr (s : stmt) : expr :=
  match s with SAsg _ e | SIf e _ _ | SFor _ e _ => e end.
Definition own_tests (s : stmt) : list expr :=
  match s with SIf _ _ o => elif_tests o | _ => [] end.
Definition own_exprs (s : stmt) : list expr := main_expr s :: own_tests s.

Definition own_calls (s : stmt) : list (nat * expr) := flat_map calls_in (own_exprs s).
Definition calls_of (b : block) : list (nat * expr) := flat_map own_calls (to_list b).

(** All blocks, the outermost first. *)
Fixpoint blocks_stmt (s : stmt) : list block :=
  match s with
  | SAsg _ _ => []
  | SIf _ b o => (b :: inner b) ++ blocks_orelse o
  | SFor _ _ b => b :: inner b
  end
with blocks_orelse (o : orelse) : list block :=
  match o with
  | ONone => []
  | OElse b => b :: inner b
  | OElif _ b o' => (b :: inner b) ++ blocks_orelse o'
  end
with inner (b : block) : list block :=
  match b with BNil => [] | BCons s r => blocks_stmt s ++ inner r end.
Definition blocks (b : block) : list block := b :: inner b.

(** The variables of an expression, and those a statement may assign. *)
Fixpoint vars (e : expr) : list name :=
  match e with
  | EVar x => [x]
  | EOp _ a b => vars a ++ vars b
  | EQuant _ a => vars a
  | ECond a c b => vars a ++ vars c ++ vars b
  end.

Fixpoint assigned (s : stmt) : list name :=
  match s with
  | SAsg x _ => [x]
  | SIf _ b o => assigned_block b ++ assigned_orelse o
  | SFor x _ b => x :: assigned_block b
  end
with assigned_orelse (o : orelse) : list name :=
  match o with
  | ONone => []
  | OElse b => assigned_block b
  | OElif _ b o' => assigned_block b ++ assigned_orelse o'
  end
with assigned_block (b : block) : list name :=
  match b with BNil => [] | BCons s r => assigned s ++ assigned_block r end.

(** ** Conditions *)

(** No variable is called [_tmp_n]. *)
Definition user_name (x : name) : Prop := match x with User _ => True | Tmp _ => False end.
Definition no_temporaries (f : block) : Prop :=
  forall b s, In b (blocks f) -> In s (to_list b) ->
    (forall x, In x (assigned s) -> user_name x)
    /\ (forall e x, In e (own_exprs s) -> In x (vars e) -> user_name x).

(** The argument of a quantizer call contains no quantizer call. *)
Definition flat (f : block) : Prop :=
  forall b c, In b (blocks f) -> In c (calls_of b) -> calls_in (snd c) = [].

(** Between two equal calls of one block, nothing they read is assigned. *)
Definition stable (f : block) : Prop :=
  forall b pre s1 mid s2 post c x,
    In b (blocks f) -> to_list b = pre ++ s1 :: mid ++ s2 :: post ->
    In c (own_calls s1) -> In c (own_calls s2) -> In x (vars (snd c)) ->
    ~ In x (flat_map assigned (s1 :: mid)).

(** No quantizer call is made under a condition within a statement. *)
Fixpoint unconditional (e : expr) : Prop :=
  match e with
  | EVar _ => True
  | EOp _ a b => unconditional a /\ unconditional b
  | EQuant _ a => unconditional a
  | ECond a c b => calls_in a = [] /\ unconditional c /\ calls_in b = []
  end.
Definition strict (f : block) : Prop :=
  forall b s, In b (blocks f) -> In s (to_list b) ->
    unconditional (main_expr s) /\ (forall e, In e (own_tests s) -> calls_in e = []).
