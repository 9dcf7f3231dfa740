(** What a function with quantizers should compute. *)
From Coq Require Import List Arith Bool.
From Verif Require Import Prelude NlbModel.
Import ListNotations.

(** ** Running a function *)

(** The values, what an attribute of a value is, what operators return, what a value is as a condition
    and which items a loop over it sees. *)
Record world := mkWorld {
  val : Type;
  attr : val -> nat -> option val;
  op : nat -> list val -> option val;
  truth : val -> bool;
  items : val -> list val }.

Section Run.
Variable w : world.
(** What a quantizer does to a value, by number. *)
Variable qz : nat -> val w -> val w.
(** What an occurrence that wants a quantized value reads, given the value of the expression. *)
Variable wanted : expr -> val w -> val w.

(** The variables that have a value. Reading another one fails. *)
Definition env := nat -> option (val w).
Definition set_var (g : env) (x : nat) (v : val w) : env := fun y => if y =? x then Some v else g y.

Definition eval_expr (g : env) (e : expr) : option (val w) :=
  match g (fst e) with Some v => attr w v (snd e) | None => None end.

Definition eval_arg (g : env) (a : arg) : option (val w) :=
  match a with
  | AName x => g x
  | AAttr e => eval_expr g e
  | AUse _ e => option_map (wanted e) (eval_expr g e)
  end.

Fixpoint eval_args (g : env) (l : list arg) : option (list (val w)) :=
  match l with
  | [] => Some []
  | a :: l' => match eval_arg g a with
               | Some v => option_map (cons v) (eval_args g l')
               | None => None
               end
  end.

Definition eval_call (g : env) (c : call) : option (val w) :=
  match eval_args g (snd c) with Some vs => op w (fst c) vs | None => None end.

Fixpoint loop {V G} (step : V -> G -> option G) (vs : list V) (g : G) : option G :=
  match vs with
  | [] => Some g
  | v :: r => match step v g with Some g' => loop step r g' | None => None end
  end.

(** Running a statement gives the variables afterwards, or nothing if an exception is raised. *)
Fixpoint run_stmt (st : stmt) (g : env) {struct st} : option env :=
  match st with
  | SDoc => Some g
  | SAsg x c => match eval_call g c with Some v => Some (set_var g x v) | None => None end
  | SQuant t q e => match eval_expr g e with
                    | Some v => Some (set_var g t (qz q v))
                    | None => None
                    end
  | SIf c b o => match eval_call g c with
                 | Some v => if truth w v then run_block b g else run_orelse o g
                 | None => None
                 end
  | SFor x c b => match eval_call g c with
                  | Some v => loop (fun i g => run_block b (set_var g x i)) (items w v) g
                  | None => None
                  end
  end
with run_block (b : block) (g : env) {struct b} : option env :=
  match b with
  | Blk _ l => (fix go (l : list stmt) (g : env) : option env :=
                  match l with
                  | [] => Some g
                  | s :: r => match run_stmt s g with Some g' => go r g' | None => None end
                  end) l g
  end
with run_orelse (o : orelse) (g : env) {struct o} : option env :=
  match o with
  | ONone => Some g
  | OElse b => run_block b g
  | OElif c b o' => match eval_call g c with
                    | Some v => if truth w v then run_block b g else run_orelse o' g
                    | None => None
                    end
  end.
End Run.

(** ** What is in a function *)

Definition arg_uses (a : arg) : list (nat * expr) := match a with AUse u e => [(u, e)] | _ => [] end.
Definition call_uses (c : call) : list (nat * expr) := flat_map arg_uses (snd c).

(** The occurrences that want a quantized value. *)
Fixpoint uses (st : stmt) {struct st} : list (nat * expr) :=
  match st with
  | SDoc => []
  | SAsg _ c => call_uses c
  | SQuant _ _ _ => []
  | SIf c b o => call_uses c ++ uses_block b ++ uses_orelse o
  | SFor _ c b => call_uses c ++ uses_block b
  end
with uses_block (b : block) {struct b} : list (nat * expr) :=
  match b with Blk _ l => flat_map uses l end
with uses_orelse (o : orelse) {struct o} : list (nat * expr) :=
  match o with
  | ONone => []
  | OElse b => uses_block b
  | OElif c b o' => call_uses c ++ uses_block b ++ uses_orelse o'
  end.

(** All blocks, the outermost first. *)
Fixpoint blocks_stmt (st : stmt) {struct st} : list block :=
  match st with
  | SDoc | SAsg _ _ | SQuant _ _ _ => []
  | SIf _ b o => blocks b ++ blocks_orelse o
  | SFor _ _ b => blocks b
  end
with blocks (b : block) {struct b} : list block :=
  b :: match b with Blk _ l => flat_map blocks_stmt l end
with blocks_orelse (o : orelse) {struct o} : list block :=
  match o with
  | ONone => []
  | OElse b => blocks b
  | OElif _ b o' => blocks b ++ blocks_orelse o'
  end.

(** The variables that are assigned. *)
Fixpoint stores (st : stmt) {struct st} : list nat :=
  match st with
  | SDoc => []
  | SAsg x _ => [x]
  | SQuant t _ _ => [t]
  | SIf _ b o => stores_block b ++ stores_orelse o
  | SFor x _ b => x :: stores_block b
  end
with stores_block (b : block) {struct b} : list nat :=
  match b with Blk _ l => flat_map stores l end
with stores_orelse (o : orelse) {struct o} : list nat :=
  match o with
  | ONone => []
  | OElse b => stores_block b
  | OElif _ b o' => stores_block b ++ stores_orelse o'
  end.

(** No conditional of the function has an [elif]. *)
Fixpoint no_elif (st : stmt) {struct st} : bool :=
  match st with
  | SDoc | SAsg _ _ | SQuant _ _ _ => true
  | SIf _ b o => no_elif_block b && no_elif_orelse o
  | SFor _ _ b => no_elif_block b
  end
with no_elif_block (b : block) {struct b} : bool :=
  match b with Blk _ l => forallb no_elif l end
with no_elif_orelse (o : orelse) {struct o} : bool :=
  match o with ONone => true | OElse b => no_elif_block b | OElif _ _ _ => false end.

(** The blocks of the function are different syntax nodes. *)
Definition distinct_blocks (f : block) : Prop := NoDup (map block_id (blocks f)).

(** Both runs fail, or both end with the same values of all variables but those in [hidden]. *)
Definition same_outcome {V : Type} (hidden : nat -> Prop) (a b : option (nat -> option V)) : Prop :=
  match a, b with
  | Some g, Some h => forall x, ~ hidden x -> g x = h x
  | None, None => True
  | _, _ => False
  end.

(** ** Inserting statements *)

(** The statements of [gap i] right before the statement at position [i], those of the last gap at the
    end. *)
Fixpoint weave {A} (gap : nat -> list A) (i : nat) (body : list A) : list A :=
  match body with
  | [] => gap i
  | s :: r => gap i ++ s :: weave gap (S i) r
  end.

(** A statement that assigns [t] goes right before the first statement that mentions [t], though not
    before a docstring; if no statement mentions [t], it goes to the end. *)
Definition goes_to {A} (load : A -> list nat) (doc : bool) (body : list A) (t i : nat) : Prop :=
  ((forall s, In s body -> ~ In t (load s)) /\ i = length body)
  \/ (exists j s, nth_error body j = Some s /\ In t (load s)
        /\ (forall k s', k < j -> nth_error body k = Some s' -> ~ In t (load s'))
        /\ i = if doc then Nat.max j 1 else j).

(** ** Conditions on a function and its variables *)

(** The variables made for quantized values are new, and different expressions have different ones. *)
Definition new_names (ident : expr -> nat) (f : block) : Prop :=
  (forall u u' e e', In (u, e) (uses_block f) -> In (u', e') (uses_block f) ->
     ident e = ident e' -> e = e')
  /\ (forall u e, In (u, e) (uses_block f) ->
        ~ In (ident e) (loads_block f) /\ ~ In (ident e) (stores_block f)).

(** The function does not assign the variables whose attributes are quantized. *)
Definition fixed_bases (f : block) : Prop :=
  forall u e, In (u, e) (uses_block f) -> ~ In (fst e) (stores_block f).

(** All expressions that are quantized somewhere can be read when the function starts. *)
Definition available (w : world) (g : env w) (f : block) : Prop :=
  forall u e, In (u, e) (uses_block f) -> exists v, eval_expr w g e = Some v.

(** The variables that only the rewritten function has. *)
Definition made (ident : expr -> nat) (f : block) (x : nat) : Prop :=
  exists u e, In (u, e) (uses_block f) /\ x = ident e.

(** ** Branches *)

(** The occurrences outside of all branches of conditionals, and the outermost branches. *)
Fixpoint direct (st : stmt) : list (nat * expr) :=
  match st with
  | SDoc | SQuant _ _ _ => []
  | SAsg _ c => call_uses c
  | SIf c _ _ => call_uses c
  | SFor _ c (Blk _ l) => call_uses c ++ flat_map direct l
  end.
Definition direct_block (b : block) : list (nat * expr) := flat_map direct (block_body b).

Fixpoint branches (st : stmt) : list block :=
  match st with
  | SDoc | SQuant _ _ _ | SAsg _ _ => []
  | SIf _ b (OElse b') => [b; b']
  | SIf _ b _ => [b]
  | SFor _ _ (Blk _ l) => flat_map branches l
  end.
Definition branches_block (b : block) : list block := flat_map branches (block_body b).
