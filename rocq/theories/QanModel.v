(** Model of the analysis that decides where automatic quantization inserts quantizers, and of the
    places where the transformer then puts them.
    Sources: src/fastforward/_autoquant/cst/quantizer_analysis/scope.py,
    src/fastforward/_autoquant/cst/quantizer_analysis/annotator.py and
    src/fastforward/_autoquant/cst/quantizer_analysis/transformer.py.

    Variables and CST nodes are numbers (node identity). Left out: comprehensions, nested
    functions, the lists of uses that annotations carry, and arguments that are neither names nor
    literals nor calls (they go to the non-local analysis, NlbModel). *)
From Verif Require Import Prelude.

(** An argument of a quantized call. annotator.py:728-746 tells names, calls, literals and other
    expressions apart; only names matter here. *)
Inductive arg := AName (x : nat) | ANoName.

(** A QuantizedCall (nodes.py:123-142). [returns] is None when the call has no operator, else
    whether the operator returns a quantized value; [bound] is what
    annotator.py:_iter_quantized_arguments (818-850) yields when it has one: every argument with
    the `quantized` flag of the parameter it is bound to (binding itself is modelled in OpsModel). *)
Record qcall := mkCall { returns : option bool; bound : list (arg * bool) }.

(** An expression is a quantized call, or any other expression: then only the quantized calls in
    it, in evaluation order, matter. Quantized calls are not nested in arguments of one another
    (passes.IsolateReplacementCandidates runs before). *)
Inductive expr := EPlain (cs : list qcall) | EQuant (c : qcall).

(** Statements. An assignment carries its node and its normalized parts
    (node_processing.py:normalize_assignments): targets, None for a target that is no name, and
    value. A with item carries its node, the names bound and the context expression. Loops say
    whether they have an else clause. An orelse is absent, an else block or an elif. *)
Inductive stmt :=
| SExpr (e : expr)
| SAssign (p : nat) (parts : list (list (option nat) * expr))
| SIf (e : expr) (b : block) (o : orelse)
| SFor (p : nat) (xs : list nat) (e : expr) (b : block) (els : bool)
| SWhile (e : expr) (b : block) (els : bool)
| SWith (items : list (nat * list nat * expr)) (b : block)
| STry (b : block) (hs : blocks) (els : block) (fin : block)
| SReturn (es : list expr)
| SRaise (es : list expr)
| SContinue
| SBreak
with block := BNil | BCons (s : stmt) (b : block)
with orelse := ONone | OElse (b : block) | OElif (e : expr) (b : block) (o : orelse)
with blocks := HNil | HCons (b : block) (hs : blocks).

(** A parameter: its node, its name, and whether it is one of `params.params` (keyword-only and
    star parameters are not). *)
Record param := mkParam { p_node : nat; p_name : nat; p_plain : bool }.
Record func := mkFunc { params : list param; body : block }.

(** scope.py:16-21 _Assignment with QuantizationMetadata: objects, shared between scopes. *)
Record obj := mkObj { o_name : nat; o_prod : nat; o_q : bool }.

(** scope.py:25-35: a dict from names to dicts from producers to (identities of) objects. *)
Definition asgs := list (nat * list (nat * nat)).

Inductive reason := Return | Break | Raise.

(** scope.py:249-281 Scope. A parent is the next scope on the stack. A breaking scope keeps its
    assignments and whether it is a looping branch: scope.py:341-344 copies all other fields, and a
    looping scope that breaks is then an element of the very list it carries. *)
Record scope := mkScope {
  s_asgs : asgs; s_loop : bool; s_rep : bool; s_term : option reason; s_breaking : list (asgs * bool) }.

Record state := mkState { heap : list obj; anns : list (nat * nat); scopes : list scope }.

Definition empty_scope (loop rep : bool) := mkScope [] loop rep None [].
Definition with_asgs (s : scope) (a : asgs) := mkScope a (s_loop s) (s_rep s) (s_term s) (s_breaking s).
Definition with_term (s : scope) (t : option reason) := mkScope (s_asgs s) (s_loop s) (s_rep s) t (s_breaking s).
Definition with_rep (s : scope) (r : bool) := mkScope (s_asgs s) (s_loop s) r (s_term s) (s_breaking s).
Definition add_breaking (s : scope) (b : asgs * bool) :=
  mkScope (s_asgs s) (s_loop s) (s_rep s) (s_term s) (s_breaking s ++ [b]).

(** Reading and setting a dict entry. *)
Fixpoint get (x : nat) (a : asgs) : list (nat * nat) :=
  match a with [] => [] | (y, l) :: a' => if x =? y then l else get x a' end.
Fixpoint put (x : nat) (l : list (nat * nat)) (a : asgs) : asgs :=
  match a with
  | [] => [(x, l)]
  | (y, l') :: a' => if x =? y then (y, l) :: a' else (y, l') :: put x l a'
  end.
Fixpoint find_prod (p : nat) (l : list (nat * nat)) : option nat :=
  match l with [] => None | (q, o) :: l' => if p =? q then Some o else find_prod p l' end.

Definition obj_q (h : list obj) (o : nat) : bool :=
  match nth_error h o with Some ob => o_q ob | None => false end.
Fixpoint set_q (h : list obj) (o : nat) (q : bool) : list obj :=
  match h, o with
  | [], _ => []
  | ob :: h', 0 => mkObj (o_name ob) (o_prod ob) q :: h'
  | ob :: h', S o' => ob :: set_q h' o' q
  end.

(** scope.py:348-359 Scope.__getitem__: the assignments of this scope, then those of its parents. *)
Definition lookup (st : state) (x : nat) : list (nat * nat) :=
  flat_map (fun s => get x (s_asgs s)) (scopes st).

Definition set_active (st : state) (s : scope) : state :=
  mkState (heap st) (anns st) (match scopes st with [] => [s] | _ :: r => s :: r end).
Definition active (st : state) : scope := hd (empty_scope false false) (scopes st).

(** scope.py:295-306 and 38-62 record_assignment, with update_metadata of scope.py:439-442. *)
Definition record (x p : nat) (q : bool) (st : state) : result state :=
  let s := active st in
  match s_term s with
  | Some _ => Err RuntimeError
  | None =>
      match find_prod p (get x (s_asgs s)) with
      | Some o => Ok (mkState (set_q (heap st) o (obj_q (heap st) o || q)) (anns st) (scopes st))
      | None =>
          let o := length (heap st) in
          Ok (set_active (mkState (heap st ++ [mkObj x p q]) (anns st) (scopes st))
                (with_asgs s (put x [(p, o)] (s_asgs s))))
      end
  end.

Fixpoint record_all (xs : list nat) (p : nat) (q : bool) (st : state) : result state :=
  match xs with
  | [] => Ok st
  | x :: xs' => let? st1 := record x p q st in record_all xs' p q st1
  end.

(** annotator.py:526-549 record_assignment: targets that are no names are not recorded. *)
Definition names (ts : list (option nat)) : list nat :=
  flat_map (fun t => match t with Some x => [x] | None => [] end) ts.

(** scope.py:210-229 _Assignments.merge_, for one entry and for all of them. A status that both
    sides have must be equal on both (scope.py:449-452). *)
Definition merge_one (h : list obj) (x p o : nat) (a : asgs) : result asgs :=
  match find_prod p (get x a) with
  | None => Ok (put x (get x a ++ [(p, o)]) a)
  | Some o' => if Bool.eqb (obj_q h o') (obj_q h o) then Ok a else Err RuntimeError
  end.
Fixpoint merge_var (h : list obj) (x : nat) (l : list (nat * nat)) (a : asgs) : result asgs :=
  match l with
  | [] => Ok a
  | (p, o) :: l' => let? a1 := merge_one h x p o a in merge_var h x l' a1
  end.
Fixpoint merge_asgs (h : list obj) (a b : asgs) : result asgs :=
  match b with
  | [] => Ok a
  | (x, l) :: b' => let? a1 := merge_var h x l a in merge_asgs h a1 b'
  end.

(** scope.py:391-418 _merge. Merging a breaking scope that is itself the loop's scope does not end:
    its list of breaking scopes contains itself. *)
Fixpoint merge_breaking (h : list obj) (a : asgs) (bs : list (asgs * bool)) : result asgs :=
  match bs with
  | [] => Ok a
  | (b, self_ref) :: bs' =>
      let? a1 := merge_asgs h a b in
      if self_ref then Err RecursionError else merge_breaking h a1 bs'
  end.
Definition merge_scopes (h : list obj) (s t : scope) : result asgs :=
  let? a := merge_asgs h (s_asgs s) (s_asgs t) in
  if s_loop t then merge_breaking h a (s_breaking t) else Ok a.

Definition leaves (t : option reason) : bool :=
  match t with Some Return | Some Raise => true | _ => false end.

(** scope.py:361-389 merge, not in place: the merged scope. *)
Definition merge (h : list obj) (s t : scope) : result scope :=
  match leaves (s_term s), leaves (s_term t) with
  | true, true => Ok (empty_scope false false)
  | false, true => Ok s
  | true, false => Ok t
  | false, false => let? a := merge_scopes h s t in Ok (with_asgs s a)
  end.

(** The same with inplace=True on the active scope: what the active scope is afterwards. *)
Definition merge_inplace (t : scope) (st : state) : result state :=
  let s := active st in
  if leaves (s_term s) || leaves (s_term t) then Ok st
  else let? a := merge_scopes (heap st) s t in Ok (set_active st (with_asgs s a)).

(** scope.py:231-242 and 420-430 overwrite: whole entries are replaced. *)
Fixpoint overwrite_asgs (a b : asgs) : asgs :=
  match b with [] => a | (x, l) :: b' => overwrite_asgs (put x l a) b' end.
Definition overwrite (t : scope) (st : state) : state :=
  set_active st (with_asgs (active st) (overwrite_asgs (s_asgs (active st)) (s_asgs t))).

(** scope.py:329-346: the breaking scope is attached to the nearest looping scope. *)
Fixpoint attach (b : asgs * bool) (ss : list scope) : option (list scope) :=
  match ss with
  | [] => None
  | s :: ss' =>
      if s_loop s then Some (add_breaking s b :: ss')
      else match attach b ss' with Some r => Some (s :: r) | None => None end
  end.

(** scope.py:308-346 terminate. *)
Definition terminate (r : reason) (st : state) : result state :=
  let st1 := set_active st (with_term (active st) (Some r)) in
  match r with
  | Break =>
      let s := active st1 in
      let? ss := (if s_rep s
                  then match attach (s_asgs s, s_loop s) (scopes st1) with
                       | Some ss => Ok ss | None => Err RuntimeError end
                  else Ok (scopes st1)) in
      let st2 := mkState (heap st1) (anns st1) ss in
      Ok (set_active st2 (with_asgs (active st2) []))
  | _ => Ok st1
  end.

(** annotator.py:308-340 enter_scope. *)
Definition push (loop : bool) (st : state) : state :=
  mkState (heap st) (anns st) (empty_scope loop (s_rep (active st)) :: scopes st).
Definition pop (st : state) : state := mkState (heap st) (anns st) (tl (scopes st)).

(** annotator.py:747-766 _ensure_quantized_var: annotate the producer of every assignment found
    that is not quantized. Annotations are compared by target and quantizer id (annotator.py:78-80),
    so a set of pairs of a node and a target. *)
Definition add_ann (a : nat * nat) (l : list (nat * nat)) : list (nat * nat) :=
  if existsb (fun b => (fst a =? fst b) && (snd a =? snd b)) l then l else l ++ [a].
Definition ensure_one (x : nat) (po : nat * nat) (st : state) : state :=
  if obj_q (heap st) (snd po) then st
  else mkState (set_q (heap st) (snd po) true) (add_ann (fst po, x) (anns st)) (scopes st).
Definition ensure (x : nat) (st : state) : state :=
  fold_left (fun s po => ensure_one x po s) (lookup st x) st.

(** annotator.py:551-561 evaluate_QuantizedCall. *)
Definition eval_call (c : qcall) (st : state) : state :=
  match returns c with
  | None => st
  | Some _ =>
      fold_left (fun s ab => match ab with (AName x, true) => ensure x s | _ => s end) (bound c) st
  end.
Definition eval_expr (e : expr) (st : state) : state :=
  match e with
  | EPlain cs => fold_left (fun s c => eval_call c s) cs st
  | EQuant c => eval_call c st
  end.
Definition eval_exprs (es : list expr) (st : state) : state := fold_left (fun s e => eval_expr e s) es st.

(** annotator.py:496-524 _process_assignment. *)
Definition process (p : nat) (part : list (option nat) * expr) (st : state) : result state :=
  match snd part with
  | EPlain _ => record_all (names (fst part)) p false st
  | EQuant c =>
      match fst part with
      | [t] => record_all (names [t]) p (match returns c with Some b => b | None => false end) st
      | _ => Err NotImplementedError
      end
  end.
Fixpoint process_all (p : nat) (parts : list (list (option nat) * expr)) (st : state) : result state :=
  match parts with
  | [] => Ok st
  | a :: parts' => let? st1 := process p a st in process_all p parts' st1
  end.

(** annotator.py:628-641 evaluate_With: the context expressions are not visited. *)
Fixpoint eval_items (items : list (nat * list nat * expr)) (st : state) : result state :=
  match items with
  | [] => Ok st
  | (p, xs, _) :: items' => let? st1 := record_all xs p false st in eval_items items' st1
  end.

(** annotator.py:799-815 _if_node_is_exhaustive. *)
Fixpoint exhaustive (o : orelse) : bool :=
  match o with ONone => false | OElse _ => true | OElif _ _ o' => exhaustive o' end.

Definition set_rep (r : bool) (st : state) : state := set_active st (with_rep (active st) r).

(** annotator.py:591-596 and 615-626: the second visit of a loop body, with repeated evaluation. *)
Definition again (visit : state -> result state) (st : state) : result state :=
  match s_term (active st) with
  | Some _ => Ok st
  | None =>
      let r := s_rep (active st) in
      let? st1 := visit (set_rep true st) in
      Ok (set_rep r st1)
  end.

(** annotator.py:419-449 evaluate_If, given what evaluates the body and the orelse. *)
Definition eval_if (e : expr) (run : state -> result state) (run_else : option (state -> result state))
    (exh : bool) (st : state) : result state :=
  let? st1 := run (push false (eval_expr e st)) in
  match run_else with
  | None => merge_inplace (active st1) (pop st1)
  | Some run2 =>
      let? st2 := run2 (push false (pop st1)) in
      let? m := merge (heap st2) (active st1) (active st2) in
      if exh then Ok (overwrite m (pop st2)) else merge_inplace m (pop st2)
  end.

(** annotator.py:451-476 (Try), 478-494 (assignments), 563-596 (For), 598-626
    (While), 628-641 (With) and 379-413 (blocks: return, continue, break and raise end them). *)
Fixpoint eval_stmt (s : stmt) (st : state) {struct s} : result state :=
  match s with
  | SExpr e => Ok (eval_expr e st)
  | SAssign p parts => process_all p parts (eval_exprs (map snd parts) st)
  | SIf e b o =>
      eval_if e (eval_block b) (match o with ONone => None | _ => Some (eval_orelse o) end) (exhaustive o) st
  | SFor p xs e b els =>
      if els then Err NotImplementedError else
      let visit := fun st0 => let? st1 := record_all xs p false st0 in eval_block b st1 in
      let? st1 := visit (push true (eval_expr e st)) in
      let? st2 := again visit st1 in
      merge_inplace (active st2) (pop st2)
  | SWhile e b els =>
      if els then Err NotImplementedError else
      let? st1 := eval_block b (push true (eval_expr e st)) in
      let? st2 := again (fun st0 => eval_block b (eval_expr e st0)) st1 in
      merge_inplace (active st2) (pop st2)
  | SWith items b => let? st1 := eval_items items st in eval_block b st1
  | STry b hs els fin =>
      let? st1 := eval_block b (push false st) in
      let? (t, st2) := eval_handlers (active st1) hs (pop st1) in
      let? st3 := eval_block els (push false st2) in
      let? _ := merge (heap st3) t (active st3) in
      let? st4 := eval_block fin (push false (pop st3)) in
      Ok (pop st4)
  | SReturn es | SRaise es => Ok (eval_exprs es st)
  | SContinue | SBreak => Ok st
  end
with eval_orelse (o : orelse) (st : state) {struct o} : result state :=
  match o with
  | ONone => Ok st
  | OElse b => eval_block b st
  | OElif e b o' =>
      eval_if e (eval_block b) (match o' with ONone => None | _ => Some (eval_orelse o') end) (exhaustive o') st
  end
with eval_block (b : block) (st : state) {struct b} : result state :=
  match b with
  | BNil => Ok st
  | BCons s b' =>
      match s with
      | SReturn es => terminate Return (eval_exprs es st)
      | SRaise es => terminate Raise (eval_exprs es st)
      | SContinue => Ok st
      | SBreak => terminate Break st
      | _ => let? st1 := eval_stmt s st in eval_block b' st1
      end
  end
with eval_handlers (t : scope) (hs : blocks) (st : state) {struct hs} : result (scope * state) :=
  match hs with
  | HNil => Ok (t, st)
  | HCons b hs' =>
      let? st1 := eval_block b (push false st) in
      let? t1 := merge (heap st1) t (active st1) in
      eval_handlers t1 hs' (pop st1)
  end.

(** annotator.py:368-377 and 415-417: a function, parameters first. The annotations are the places
    where quantizers go. *)
Fixpoint record_params (ps : list param) (st : state) : result state :=
  match ps with
  | [] => Ok st
  | p :: ps' => let? st1 := record (p_name p) (p_node p) false st in record_params ps' st1
  end.
Definition init : state := push false (mkState [] [] [empty_scope false false]).
Definition analyze (f : func) : result (list (nat * nat)) :=
  let? st := record_params (params f) init in
  let? st' := eval_block (body f) st in
  Ok (anns st').
