(** Where quantizers of non-local expressions go in a function with branches and loops, and the
    rewritten function.

    Modelled code: src/fastforward/_autoquant/cst/quantizer_analysis/annotator.py and transformer.py.
    A non-local expression is an attribute of a variable, such as [self.weight]; other expressions
    that are not plain names, the subscripts and displays that are quantized in place, and the later
    removal of repeated quantizer calls are not modelled. Statements are assignments of the result of
    an operator, docstrings, conditionals and for loops; there is no return, break, while, with or
    nested function. One-line suites do not exist here: an earlier pass turns them into indented
    blocks (passes.py:119-170). Names, attributes and operators are numbers. *)
From Coq Require Import List Arith Bool.
From Verif Require Import Prelude.
Import ListNotations.

(** A non-local expression: the variable and the attribute read from it. Two expressions have the
    same source text exactly if they are equal. *)
Definition expr := (nat * nat)%type.
Definition expr_eqb (a b : expr) : bool := (fst a =? fst b) && (snd a =? snd b).

(** An argument of an operator. [AUse u e] is the occurrence [u] of the expression [e] in a place that
    wants a quantized value; [u] stands for the identity of the syntax node. *)
Inductive arg :=
| AName (x : nat)
| AAttr (e : expr)
| AUse (u : nat) (e : expr).

Definition call := (nat * list arg)%type.

(** Statements. [SQuant t q e] is the inserted [t = self.quantizer_q(e)]. The number of a block is the
    identity of its syntax node. *)
Inductive stmt :=
| SDoc
| SAsg (x : nat) (c : call)
| SQuant (t q : nat) (e : expr)
| SIf (test : call) (body : block) (els : orelse)
| SFor (x : nat) (it : call) (body : block)
with block :=
| Blk (id : nat) (body : list stmt)
with orelse :=
| ONone
| OElse (b : block)
| OElif (test : call) (body : block) (els : orelse).

Definition block_id (b : block) : nat := let 'Blk i _ := b in i.
Definition block_body (b : block) : list stmt := let 'Blk _ l := b in l.

(** ** Recording *)

(** A dictionary from source texts to the recorded nodes, in order of insertion. *)
Definition recorded := list (expr * list nat).

(** annotator.py:173-177 _NonLocalBranchScope. The active scope is left to the recursion below. *)
Inductive scope := Scope (blk : nat) (children : list scope) (rec : recorded).

Definition fresh (blk : nat) : scope := Scope blk [] [].
Definition add_child (s c : scope) : scope := let 'Scope b ch r := s in Scope b (ch ++ [c]) r.

(** A defaultdict of lists: append at the entry, or make it. *)
Fixpoint extend (r : recorded) (e : expr) (us : list nat) : recorded :=
  match r with
  | [] => [(e, us)]
  | (e', us') :: r' => if expr_eqb e' e then (e', us' ++ us) :: r' else (e', us') :: extend r' e us
  end.

(** annotator.py:264-273 record. *)
Definition record (s : scope) (u : nat) (e : expr) : scope :=
  let 'Scope b ch r := s in Scope b ch (extend r e [u]).

(** annotator.py:551-561 and 727-739: the arguments of a call in order. *)
Fixpoint rec_args (s : scope) (l : list arg) : scope :=
  match l with
  | [] => s
  | AUse u e :: l' => rec_args (record s u e) l'
  | _ :: l' => rec_args s l'
  end.

(** annotator.py:379-413 evaluate_IndentedBlock, 419-449 evaluate_If, 563-596 evaluate_For, as far as
    the recording of non-local expressions goes. Every [inner_scope] makes a child of the active scope
    (annotator.py:180-206). The else branch of a conditional that is itself a conditional ([elif]) is
    entered as a scope of that conditional, and its evaluation then makes another scope of the same
    conditional inside (annotator.py:434-439 and 425-429). A loop body is visited twice. *)
Fixpoint rec_stmt (s : scope) (st : stmt) {struct st} : scope :=
  match st with
  | SDoc => s
  | SAsg _ c => rec_args s (snd c)
  | SQuant _ _ _ => s
  | SIf c b o => rec_orelse (add_child (rec_args s (snd c)) (rec_block (fresh (block_id b)) b)) o
  | SFor _ c b => rec_block (rec_block (rec_args s (snd c)) b) b
  end
with rec_block (s : scope) (b : block) {struct b} : scope :=
  match b with
  | Blk _ l => (fix go (s : scope) (l : list stmt) : scope :=
                  match l with [] => s | st :: l' => go (rec_stmt s st) l' end) s l
  end
with rec_orelse (s : scope) (o : orelse) {struct o} : scope :=
  match o with
  | ONone => s
  | OElse b => add_child s (rec_block (fresh (block_id b)) b)
  | OElif c b o' =>
      add_child s (rec_orelse (add_child (rec_args (fresh (block_id b)) (snd c))
                                         (rec_block (fresh (block_id b)) b)) o')
  end.

(** annotator.py:368-372: the function's body is the outermost scope. *)
Definition record_function (f : block) : scope := rec_block (fresh (block_id f)) f.

(** ** Resolving *)

(** annotator.py:68-82 QuantizationAnnotation. The target is the identifier made from the expression. *)
Record annotation := mkAnn { an_expr : expr; an_id : nat; an_uses : list nat }.

(** annotator.py:102-117 _NLBResolveContext: the quantizer ids, where the id of a text is its position,
    and the annotations in the order in which they are made. *)
Record ctx := mkCtx { c_ids : list expr; c_anns : list (nat * annotation) }.

Fixpoint pos (e : expr) (l : list expr) : option nat :=
  match l with
  | [] => None
  | e' :: l' => if expr_eqb e' e then Some 0 else option_map S (pos e l')
  end.

(** annotator.py:119-154 add_annotation_for_block; [setdefault(code, len(ids))]. *)
Definition add_annotation (c : ctx) (blk : nat) (e : expr) (us : list nat) : ctx :=
  match us with
  | [] => c
  | _ =>
      match pos e (c_ids c) with
      | Some q => mkCtx (c_ids c) (c_anns c ++ [(blk, mkAnn e q us)])
      | None => mkCtx (c_ids c ++ [e]) (c_anns c ++ [(blk, mkAnn e (length (c_ids c)) us)])
      end
  end.

Definition add_all (c : ctx) (blk : nat) (r : recorded) : ctx :=
  fold_left (fun c p => add_annotation c blk (fst p) (snd p)) r c.

Definition has (e : expr) (r : recorded) : bool := existsb (fun p => expr_eqb (fst p) e) r.

(** annotator.py:248: the texts that every child hands up. *)
Definition common (maps : list recorded) (e : expr) : bool := forallb (has e) maps.

Definition scope_block (s : scope) : nat := let 'Scope b _ _ := s in b.

(** annotator.py:250-255: the entries of one child. *)
Definition settle_child (cm : expr -> bool) (blk : nat) (m : recorded) (st : recorded * ctx)
  : recorded * ctx :=
  fold_left (fun (st : recorded * ctx) p =>
               if cm (fst p) then (extend (fst st) (fst p) (snd p), snd st)
               else (fst st, add_annotation (snd st) blk (fst p) (snd p))) m st.

Definition settle (cm : expr -> bool) (l : list (nat * recorded)) (st : recorded * ctx)
  : recorded * ctx :=
  fold_left (fun st p => settle_child cm (fst p) (snd p) st) l st.

(** annotator.py:221-262 _resolve below the root. The loop over the children threads the context. *)
Fixpoint hoist (s : scope) (c : ctx) {struct s} : recorded * ctx :=
  match s with
  | Scope _ ch r =>
      let '(maps, c1) :=
        (fix go (l : list scope) (c : ctx) : list (nat * recorded) * ctx :=
           match l with
           | [] => ([], c)
           | k :: l' => let '(m, c1) := hoist k c in
                        let '(ms, c2) := go l' c1 in ((scope_block k, m) :: ms, c2)
           end) ch c in
      match ch with
      | [] => (r, c1)
      | _ => settle (common (map snd maps)) maps (r, c1)
      end
  end.

(** annotator.py:208-219 resolve and the root case of _resolve. *)
Definition resolve (s : scope) : ctx :=
  let '(r, c) := hoist s (mkCtx [] []) in add_all c (scope_block s) r.

Definition annotate (f : block) : list (nat * annotation) := c_anns (resolve (record_function f)).

(** ** Rewriting *)

(** annotator.py:217-219 and 374-377: the annotations of a block are a set; two annotations are equal
    if their targets and their quantizer ids are, whatever their uses are, and a set keeps the
    first. transformer.py:166-172 sorts them. *)
Definition ann_eqb (ident : expr -> nat) (a b : annotation) : bool :=
  (ident (an_expr a) =? ident (an_expr b)) && (an_id a =? an_id b).

Definition ann_leb (ident : expr -> nat) (a b : annotation) : bool :=
  (ident (an_expr a) <? ident (an_expr b))
  || ((ident (an_expr a) =? ident (an_expr b)) && (an_id a <=? an_id b)).

Fixpoint dedup (ident : expr -> nat) (seen l : list annotation) : list annotation :=
  match l with
  | [] => []
  | a :: l' => if existsb (ann_eqb ident a) seen then dedup ident seen l'
               else a :: dedup ident (a :: seen) l'
  end.

Fixpoint insert_by {A} (leb : A -> A -> bool) (x : A) (l : list A) : list A :=
  match l with
  | [] => [x]
  | y :: l' => if leb x y then x :: l else y :: insert_by leb x l'
  end.

(** A stable sort. *)
Fixpoint sort_by {A} (leb : A -> A -> bool) (l : list A) : list A :=
  match l with [] => [] | x :: l' => insert_by leb x (sort_by leb l') end.

Definition of_block (ident : expr -> nat) (anns : list (nat * annotation)) (blk : nat)
  : list annotation :=
  sort_by (ann_leb ident)
    (dedup ident [] (map snd (filter (fun p => fst p =? blk) anns))).

Definition mem (x : nat) (l : list nat) : bool := existsb (Nat.eqb x) l.

(** transformer.py:428-436 on_leave: a use that is recorded for replacement becomes the target. *)
Definition rw_arg (ident : expr -> nat) (repl : list nat) (a : arg) : arg :=
  match a with
  | AUse u e => if mem u repl then AName (ident e) else a
  | _ => a
  end.
Definition rw_call (ident : expr -> nat) (repl : list nat) (c : call) : call :=
  (fst c, map (rw_arg ident repl) (snd c)).

(** transformer.py:589-650 _BlockScopeNameLoadFinder: all names a statement mentions other than as
    the target of an assignment. The names of operators and of the quantizer and its owner in an
    inserted statement are left out. The names of attributes count. Nothing else is a target here: the
    variable of a for loop is not excluded. *)
Definition arg_names (a : arg) : list nat :=
  match a with AName x => [x] | AAttr e => [fst e; snd e] | AUse _ e => [fst e; snd e] end.
Definition call_names (c : call) : list nat := flat_map arg_names (snd c).

Fixpoint loads (st : stmt) {struct st} : list nat :=
  match st with
  | SDoc => []
  | SAsg _ c => call_names c
  | SQuant _ _ e => [fst e; snd e]
  | SIf c b o => call_names c ++ loads_block b ++ loads_orelse o
  | SFor x c b => x :: call_names c ++ loads_block b
  end
with loads_block (b : block) {struct b} : list nat :=
  match b with Blk _ l => flat_map loads l end
with loads_orelse (o : orelse) {struct o} : list nat :=
  match o with
  | ONone => []
  | OElse b => loads_block b
  | OElif c b o' => call_names c ++ loads_block b ++ loads_orelse o'
  end.

Section Insert.
Variable A : Type.
Variable load : A -> list nat.

(** transformer.py:653-660 _first_use_index_in_block. *)
Fixpoint first_use (body : list A) (t : nat) : option nat :=
  match body with
  | [] => None
  | s :: r => if mem t (load s) then Some 0 else option_map S (first_use r t)
  end.

(** transformer.py:525-540: the position of one new statement; [off] is 1 after a docstring. *)
Definition insert_index (off : nat) (body : list A) (t : nat) : nat :=
  match first_use body t with Some i => Nat.max i off | None => length body end.

(** transformer.py:559-562: the new statements that come before the statement at position [i]. *)
Fixpoint take_due (i : nat) (new : list (nat * A)) : list A * list (nat * A) :=
  match new with
  | [] => ([], [])
  | (k, s) :: r => if k <=? i then let '(d, rest) := take_due i r in (s :: d, rest) else ([], new)
  end.

(** transformer.py:556-570: the merge. *)
Fixpoint merge_new (i : nat) (body : list A) (new : list (nat * A)) : list A :=
  match body with
  | [] => map snd new
  | s :: r => let '(d, rest) := take_due i new in d ++ s :: merge_new (S i) r rest
  end.

(** transformer.py:480-573 _insert_dependency_aware_quantize_statements. The new statements come with
    the names they assign. *)
Definition insert_statements (doc : bool) (body : list A) (new : list (nat * A)) : list A :=
  match body with
  | [] => []
  | _ =>
      let off := if doc then 1 else 0 in
      merge_new 0 body
        (sort_by (fun a b => fst a <=? fst b)
           (map (fun p => (insert_index off body (fst p), snd p)) new))
  end.
End Insert.
Arguments first_use {A}. Arguments insert_index {A}. Arguments take_due {A}.
Arguments merge_new {A}. Arguments insert_statements {A}.

(** transformer.py:455-464 _has_docstring. *)
Definition has_doc (l : list stmt) : bool := match l with SDoc :: _ => true | _ => false end.

(** transformer.py:245-262 visit_IndentedBlock: all uses are replaced by the target. *)
Definition replaced (anns : list annotation) : list nat := flat_map an_uses anns.

Definition new_statement (ident : expr -> nat) (a : annotation) : nat * stmt :=
  (ident (an_expr a), SQuant (ident (an_expr a)) (an_id a) (an_expr a)).

(** transformer.py:245-290 and 428-448: a block is entered before its statements are rewritten and left
    afterwards; the replacements that have been recorded stay. The test of a conditional is rewritten
    before its body, and the body before the else branch. *)
Fixpoint rw_stmt (ident : expr -> nat) (anns : list (nat * annotation)) (repl : list nat) (st : stmt)
  {struct st} : stmt * list nat :=
  match st with
  | SDoc => (SDoc, repl)
  | SAsg x c => (SAsg x (rw_call ident repl c), repl)
  | SQuant t q e => (SQuant t q e, repl)
  | SIf c b o =>
      let c' := rw_call ident repl c in
      let '(b', r1) := rw_block ident anns repl b in
      let '(o', r2) := rw_orelse ident anns r1 o in (SIf c' b' o', r2)
  | SFor x c b =>
      let c' := rw_call ident repl c in
      let '(b', r1) := rw_block ident anns repl b in (SFor x c' b', r1)
  end
with rw_block (ident : expr -> nat) (anns : list (nat * annotation)) (repl : list nat) (b : block)
  {struct b} : block * list nat :=
  match b with
  | Blk i l =>
      let mine := of_block ident anns i in
      let '(l', r') :=
        (fix go (repl : list nat) (l : list stmt) : list stmt * list nat :=
           match l with
           | [] => ([], repl)
           | s :: r => let '(s', r1) := rw_stmt ident anns repl s in
                       let '(l', r2) := go r1 r in (s' :: l', r2)
           end) (replaced mine ++ repl) l in
      (Blk i (insert_statements loads (has_doc l') l' (map (new_statement ident) mine)), r')
  end
with rw_orelse (ident : expr -> nat) (anns : list (nat * annotation)) (repl : list nat) (o : orelse)
  {struct o} : orelse * list nat :=
  match o with
  | ONone => (ONone, repl)
  | OElse b => let '(b', r1) := rw_block ident anns repl b in (OElse b', r1)
  | OElif c b o' =>
      let c' := rw_call ident repl c in
      let '(b', r1) := rw_block ident anns repl b in
      let '(o'', r2) := rw_orelse ident anns r1 o' in (OElif c' b' o'', r2)
  end.

(** The rewritten function. *)
Definition rewrite (ident : expr -> nat) (f : block) : block :=
  fst (rw_block ident (annotate f) [] f).
