(** What it means that quantizers are where they are needed: executions of the rewritten function.
    Independent of the analysis; only the syntax of QanModel is used. *)
From Verif Require Import Prelude QanModel.

(** A variable is unbound, or bound to a value: the node that bound it and whether the value is
    quantized. *)
Definition env := nat -> option (nat * bool).
Definition set (x : nat) (v : nat * bool) (r : env) : env := fun y => if y =? x then Some v else r y.

(** [places] are the pairs (node, variable) behind which the rewritten function quantizes. *)
Definition quantized_here (places : list (nat * nat)) (p x : nat) : bool :=
  existsb (fun b => (p =? fst b) && (x =? snd b)) places.

Section Run.
  Variable places : list (nat * nat).

  (** A call is fine if every argument that its operator wants quantized and that is a local
      variable is quantized. *)
  Definition arg_ok (r : env) (ab : arg * bool) : bool :=
    match ab with
    | (AName x, true) => match r x with Some (_, q) => q | None => true end
    | _ => true
    end.
  Definition call_ok (r : env) (c : qcall) : bool :=
    match returns c with None => true | Some _ => forallb (arg_ok r) (bound c) end.
  Definition expr_ok (r : env) (e : expr) : bool :=
    match e with EPlain cs => forallb (call_ok r) cs | EQuant c => call_ok r c end.

  (** Only an operator that returns quantized values gives a quantized value by itself. *)
  Definition gives_quantized (e : expr) : bool :=
    match e with EQuant c => match returns c with Some b => b | None => false end | EPlain _ => false end.

  Fixpoint bind_all (xs : list nat) (p : nat) (q : bool) (r : env) : env :=
    match xs with
    | [] => r
    | x :: xs' => bind_all xs' p q (set x (p, q || quantized_here places p x) r)
    end.
  (** The variables among the targets of an assignment. *)
  Definition bound_names (ts : list (option nat)) : list nat :=
    flat_map (fun t => match t with Some x => [x] | None => [] end) ts.
  Fixpoint bind_parts (p : nat) (parts : list (list (option nat) * expr)) (r : env) : env :=
    match parts with
    | [] => r
    | (ts, e) :: parts' => bind_parts p parts' (bind_all (bound_names ts) p (gives_quantized e) r)
    end.
  (** The rewritten with statement quantizes a variable only if it is the item's only name
      (transformer.py:346-361). *)
  Definition bind_item (p : nat) (xs : list nat) (r : env) : env :=
    match xs with
    | [x] => bind_all [x] p false r
    | _ => fold_left (fun r x => set x (p, false) r) xs r
    end.
  (** Only plain parameters are quantized (transformer.py:217-232). *)
  Fixpoint bind_params (ps : list param) (r : env) : env :=
    match ps with
    | [] => r
    | p :: ps' => bind_params ps' (set (p_name p) (p_node p, p_plain p && quantized_here places (p_node p) (p_name p)) r)
    end.

  (** How a piece of code ends. [Fault]: an operator got a value that is not quantized where it
      wants a quantized one. *)
  Inductive outcome := Norm (r : env) | Broke (r : env) | Continued (r : env) | Raised (r : env) | Returned | Fault.
  Definition abrupt (o : outcome) : Prop := match o with Norm _ => False | _ => True end.

  (** The head of a loop: a for loop binds its variables anew, a while loop tests. *)
  Inductive head := HFor (p : nat) (xs : list nat) | HWhile (e : expr).
  Definition head_ok (r : env) (h : head) : bool := match h with HFor _ _ => true | HWhile e => expr_ok r e end.
  Definition head_bind (h : head) (r : env) : env := match h with HFor p xs => bind_all xs p false r | HWhile _ => r end.

  (** All executions: every branch may be taken, every loop may run any number of times. *)
  Inductive run_stmt : env -> stmt -> outcome -> Prop :=
  | R_expr r e : expr_ok r e = true -> run_stmt r (SExpr e) (Norm r)
  | R_expr_fault r e : expr_ok r e = false -> run_stmt r (SExpr e) Fault
  | R_assign r p parts : forallb (expr_ok r) (map snd parts) = true ->
      run_stmt r (SAssign p parts) (Norm (bind_parts p parts r))
  | R_assign_fault r p parts : forallb (expr_ok r) (map snd parts) = false -> run_stmt r (SAssign p parts) Fault
  | R_if_fault r e b o : expr_ok r e = false -> run_stmt r (SIf e b o) Fault
  | R_if_true r e b o out : expr_ok r e = true -> run_block r b out -> run_stmt r (SIf e b o) out
  | R_if_false r e b o out : expr_ok r e = true -> run_orelse r o out -> run_stmt r (SIf e b o) out
  | R_for_fault r p xs e b els : expr_ok r e = false -> run_stmt r (SFor p xs e b els) Fault
  | R_for r p xs e b els out : expr_ok r e = true -> run_loop r (HFor p xs) b out -> run_stmt r (SFor p xs e b els) out
  | R_while r e b els out : run_loop r (HWhile e) b out -> run_stmt r (SWhile e b els) out
  | R_with r items b out : run_with r items b out -> run_stmt r (SWith items b) out
  | R_try r b hs els fin r1 r2 out : run_block r b (Norm r1) -> run_block r1 els (Norm r2) -> run_block r2 fin out ->
      run_stmt r (STry b hs els fin) out
  | R_try_handled r b hs els fin r1 r2 out : run_block r b (Raised r1) -> run_handler r1 hs (Norm r2) -> run_block r2 fin out ->
      run_stmt r (STry b hs els fin) out
  | R_try_fault r b hs els fin : run_block r b Fault -> run_stmt r (STry b hs els fin) Fault
  | R_return r es : forallb (expr_ok r) es = true -> run_stmt r (SReturn es) Returned
  | R_return_fault r es : forallb (expr_ok r) es = false -> run_stmt r (SReturn es) Fault
  | R_raise r es : forallb (expr_ok r) es = true -> run_stmt r (SRaise es) (Raised r)
  | R_raise_fault r es : forallb (expr_ok r) es = false -> run_stmt r (SRaise es) Fault
  | R_continue r : run_stmt r SContinue (Continued r)
  | R_break r : run_stmt r SBreak (Broke r)
  with run_block : env -> block -> outcome -> Prop :=
  | R_nil r : run_block r BNil (Norm r)
  | R_cons r s b r1 out : run_stmt r s (Norm r1) -> run_block r1 b out -> run_block r (BCons s b) out
  | R_stop r s b out : run_stmt r s out -> abrupt out -> run_block r (BCons s b) out
  with run_orelse : env -> orelse -> outcome -> Prop :=
  | R_none r : run_orelse r ONone (Norm r)
  | R_else r b out : run_block r b out -> run_orelse r (OElse b) out
  | R_elif_fault r e b o : expr_ok r e = false -> run_orelse r (OElif e b o) Fault
  | R_elif_true r e b o out : expr_ok r e = true -> run_block r b out -> run_orelse r (OElif e b o) out
  | R_elif_false r e b o out : expr_ok r e = true -> run_orelse r o out -> run_orelse r (OElif e b o) out
  with run_loop : env -> head -> block -> outcome -> Prop :=
  | R_done r h b : head_ok r h = true -> run_loop r h b (Norm r)
  | R_head_fault r h b : head_ok r h = false -> run_loop r h b Fault
  | R_step r h b r1 out : head_ok r h = true -> run_block (head_bind h r) b (Norm r1) -> run_loop r1 h b out -> run_loop r h b out
  | R_step_continue r h b r1 out : head_ok r h = true -> run_block (head_bind h r) b (Continued r1) -> run_loop r1 h b out -> run_loop r h b out
  | R_step_break r h b r1 : head_ok r h = true -> run_block (head_bind h r) b (Broke r1) -> run_loop r h b (Norm r1)
  | R_step_stop r h b out : head_ok r h = true -> run_block (head_bind h r) b out ->
      match out with Returned | Raised _ | Fault => True | _ => False end -> run_loop r h b out
  with run_with : env -> list (nat * list nat * expr) -> block -> outcome -> Prop :=
  | R_body r b out : run_block r b out -> run_with r [] b out
  | R_item_fault r p xs e items b : expr_ok r e = false -> run_with r ((p, xs, e) :: items) b Fault
  | R_item r p xs e items b out : expr_ok r e = true -> run_with (bind_item p xs r) items b out -> run_with r ((p, xs, e) :: items) b out
  with run_handler : env -> blocks -> outcome -> Prop :=
  | R_first r b hs out : run_block r b out -> run_handler r (HCons b hs) out
  | R_next r b hs out : run_handler r hs out -> run_handler r (HCons b hs) out.
End Run.

(** The rewritten function can hand a value that is not quantized to an operator that wants it
    quantized. *)
Definition can_fault (places : list (nat * nat)) (f : func) : Prop :=
  run_block places (bind_params places (params f) (fun _ => None)) (body f) Fault.

(** What binds variables in a function: nodes, variables, and whether the value is quantized by itself. *)
Definition part_binds (p : nat) (part : list (option nat) * expr) : list (nat * nat * bool) :=
  map (fun x => (p, x, gives_quantized (snd part))) (bound_names (fst part)).
Fixpoint stmt_binds (s : stmt) : list (nat * nat * bool) :=
  match s with
  | SAssign p parts => flat_map (part_binds p) parts
  | SIf _ b o => block_binds b ++ orelse_binds o
  | SFor p xs _ b _ => map (fun x => (p, x, false)) xs ++ block_binds b
  | SWhile _ b _ => block_binds b
  | SWith items b => flat_map (fun it => map (fun x => (fst (fst it), x, false)) (snd (fst it))) items ++ block_binds b
  | STry b hs els fin => block_binds b ++ blocks_binds hs ++ block_binds els ++ block_binds fin
  | _ => []
  end
with block_binds (b : block) : list (nat * nat * bool) :=
  match b with BNil => [] | BCons s b' => stmt_binds s ++ block_binds b' end
with orelse_binds (o : orelse) : list (nat * nat * bool) :=
  match o with ONone => [] | OElse b => block_binds b | OElif _ b o' => block_binds b ++ orelse_binds o' end
with blocks_binds (hs : blocks) : list (nat * nat * bool) :=
  match hs with HNil => [] | HCons b hs' => block_binds b ++ blocks_binds hs' end.
Definition func_binds (f : func) : list (nat * nat * bool) :=
  map (fun p => (p_node p, p_name p, false)) (params f) ++ block_binds (body f).

(** Every node binds a variable at most once. *)
Definition distinct_binds (f : func) : Prop := NoDup (map fst (func_binds f)).

(** Every execution of a piece of code that reaches its end binds the variable. *)
Fixpoint stmt_always (x : nat) (s : stmt) : bool :=
  match s with
  | SAssign p parts => existsb (Nat.eqb x) (flat_map (fun a => bound_names (fst a)) parts)
  | SIf _ b o => block_always x b && orelse_always x o
  | SWith items b => existsb (Nat.eqb x) (flat_map (fun it => snd (fst it)) items) || block_always x b
  | SReturn _ | SRaise _ => true
  | _ => false
  end
with block_always (x : nat) (b : block) : bool :=
  match b with BNil => false | BCons s b' => stmt_always x s || block_always x b' end
with orelse_always (x : nat) (o : orelse) : bool :=
  match o with ONone => false | OElse b => block_always x b | OElif _ b o' => block_always x b && orelse_always x o' end.

(** The programs for which the analysis is right: no break, continue or try; the branches of an
    if statement that ends in else bind the same variables (or return or raise); with items bind
    at most one name and have no quantized call as context expression. *)
Definition no_calls (e : expr) : bool := match e with EPlain [] => true | _ => false end.
Definition balanced (b : block) (o : orelse) : Prop :=
  exhaustive o = true ->
  forall p x q, In (p, x, q) (block_binds b ++ orelse_binds o) -> block_always x b = true /\ orelse_always x o = true.
Fixpoint stmt_supported (s : stmt) : Prop :=
  match s with
  | SIf _ b o => balanced b o /\ block_supported b /\ orelse_supported o
  | SFor _ _ _ b _ | SWhile _ b _ => block_supported b
  | SWith items b => Forall (fun it => length (snd (fst it)) <= 1 /\ no_calls (snd it) = true) items /\ block_supported b
  | STry _ _ _ _ | SContinue | SBreak => False
  | _ => True
  end
with block_supported (b : block) : Prop :=
  match b with BNil => True | BCons s b' => stmt_supported s /\ block_supported b' end
with orelse_supported (o : orelse) : Prop :=
  match o with ONone => True | OElse b => block_supported b | OElif _ b o' => balanced b o' /\ block_supported b /\ orelse_supported o' end.
Definition supported (f : func) : Prop :=
  Forall (fun p => p_plain p = true) (params f) /\ block_supported (body f) /\ distinct_binds f.

(** Variables that some operator wants quantized. *)
Definition call_wants (c : qcall) : list nat :=
  match returns c with None => [] | Some _ => flat_map (fun ab => match ab with (AName x, true) => [x] | _ => [] end) (bound c) end.
Definition expr_wants (e : expr) : list nat :=
  match e with EPlain cs => flat_map call_wants cs | EQuant c => call_wants c end.
Fixpoint stmt_wants (s : stmt) : list nat :=
  match s with
  | SExpr e => expr_wants e
  | SAssign _ parts => flat_map expr_wants (map snd parts)
  | SIf e b o => expr_wants e ++ block_wants b ++ orelse_wants o
  | SFor _ _ e b _ | SWhile e b _ => expr_wants e ++ block_wants b
  | SWith items b => block_wants b
  | STry b hs els fin => block_wants b ++ blocks_wants hs ++ block_wants els ++ block_wants fin
  | SReturn es | SRaise es => flat_map expr_wants es
  | _ => []
  end
with block_wants (b : block) : list nat :=
  match b with BNil => [] | BCons s b' => stmt_wants s ++ block_wants b' end
with orelse_wants (o : orelse) : list nat :=
  match o with ONone => [] | OElse b => block_wants b | OElif e b o' => expr_wants e ++ block_wants b ++ orelse_wants o' end
with blocks_wants (hs : blocks) : list nat :=
  match hs with HNil => [] | HCons b hs' => block_wants b ++ blocks_wants hs' end.

(** Functions without loops, try and with statements, whose operators' results are assigned to one
    target. *)
Fixpoint stmt_plain (s : stmt) : Prop :=
  match s with
  | SAssign _ parts => Forall (fun a => match snd a with EQuant _ => length (fst a) = 1 | EPlain _ => True end) parts
  | SIf _ b o => block_plain b /\ orelse_plain o
  | SExpr _ | SReturn _ | SRaise _ => True
  | _ => False
  end
with block_plain (b : block) : Prop :=
  match b with BNil => True | BCons s b' => stmt_plain s /\ block_plain b' end
with orelse_plain (o : orelse) : Prop :=
  match o with ONone => True | OElse b => block_plain b | OElif _ b o' => block_plain b /\ orelse_plain o' end.
