(** Properties C90-C93: autoquant's preparation of source code. *)
From Coq Require Import String Ascii.
From Verif Require Import Prelude AqModel AqSpec AqProofs AqIso AqSim AqTemps AqWitness.
Local Open Scope nat_scope.
Local Open Scope list_scope.

(** C90: Prepared code does what the source code does, for every meaning [s] of calls, operators, attributes and so on, from every
    state and however long it runs: it ends the same way, with the same value, variables and state of the world, up to temporaries;
    it raises if and only if the source code does.
    Partial: operations that are evaluated before a moved one must be stable, no operation moves out of a lambda, the second
    operand of [and] and [or], the message of [assert] or the cause of [raise] ([ordered_stmt]); in-place operators are the binary operators;
    no name begins with [_tmp_]; the exception and the state when it is raised may be others. *)
Theorem C90_prepared_partial : forall V U (s : semantics V U) stable fuel,
  (forall k, stable k = true -> stable_kind s k) -> (forall o a b u, inplace s o a b u = apply s (Binary (meant o)) [a; b] u) ->
  forall p, no_temporaries p -> forallb (every (simple_augment stable)) p = true -> forallb (ordered_stmt stable) (mark_all (expand (split p))) = true ->
  forall st, same_end (run s fuel p st) (run s fuel (preprocess p) st).
Proof. intros V U s stable fuel Hs Hi. apply (preprocess_kept s stable fuel Hs). intros o. rewrite binary_meant. apply Hi. Qed.
Print Assumptions C90_prepared_partial.
Example C90_prepared_nonvacuous : (forall k, wstable k = true -> stable_kind wsem k) /\ (forall o a b u, inplace wsem o a b u = apply wsem (Binary (meant o)) [a; b] u) /\
  no_temporaries prog /\ forallb (every (simple_augment wstable)) prog = true /\ forallb (ordered_stmt wstable) (mark_all (expand (split prog))) = true /\
  (exists u, run wsem 9 prog wst = Returned (Some [12]) u) /\ length (preprocess prog) = 4.
Proof. destruct prog_ok as (A & B & C & _ & D & E). split; [exact wstable_ok|]. split; [exact winplace|]. repeat (split; [assumption|]). assumption. Qed.

(** C90: Isolation alone, for every marked program. *)
Theorem C90_isolated_partial : forall V U (s : semantics V U) stable, (forall k, stable k = true -> stable_kind s k) ->
  forall fuel p, no_temporaries p -> forallb (ordered_stmt stable) p = true -> forall st, same_end (run s fuel p st) (run s fuel (isolate_all p) st).
Proof. intros V U s stable Hs fuel. exact (isolate_all_kept s stable Hs fuel). Qed.
Print Assumptions C90_isolated_partial.

(** C90: Splitting lines and marking change nothing at all. *)
Theorem C90_split : forall V U (s : semantics V U) fuel p st, run s fuel (split p) st = run s fuel p st.
Proof. intros V U s. exact (split_all_same s). Qed.
Print Assumptions C90_split.
Theorem C90_mark : forall V U (s : semantics V U) fuel p st, run s fuel (mark_all p) st = run s fuel p st.
Proof. intros V U s. exact (mark_all_same s). Qed.
Print Assumptions C90_mark.

(** C90: [x and f(y)] calls [f] also if [x] is false. *)
Theorem C90_short_circuit_refuted : exists V U (s : semantics V U) fuel p st, no_temporaries p /\ ~ same_end (run s fuel p st) (run s fuel (preprocess p) st) /\
  p = [Line [Return (Some (Boolean true (Name "x") (Node (Call [None]) [Node (Global "f") []; Name "y"])))]]%string.
Proof. exists _, _, wsem, 9, p_and, wst. split; [apply p_and_changes|]. split; [apply p_and_changes | reflexivity]. Qed.
Print Assumptions C90_short_circuit_refuted.
(** C90: The call in [lambda z: f(z)] is moved out of the lambda, where [z] has no value. *)
Theorem C90_lambda_refuted : exists V U (s : semantics V U) fuel p st, no_temporaries p /\ (exists r u, run s fuel p st = Returned r u) /\
  (exists u, run s fuel (preprocess p) st = Raised UnboundLocalError u) /\
  p = [Line [Return (Some (Lambda ["z"] (Node (Call [None]) [Node (Global "f") []; Name "z"])))]]%string.
Proof. exists _, _, wsem, 9, p_lambda, wst. destruct p_lambda_changes as (A & B & C). repeat (split; [assumption|]). reflexivity. Qed.
Print Assumptions C90_lambda_refuted.
(** C90: [(y.a, f(y))] reads the attribute after the call. *)
Theorem C90_order_refuted : exists V U (s : semantics V U) fuel p st, no_temporaries p /\ ~ same_end (run s fuel p st) (run s fuel (preprocess p) st) /\
  p = [Line [Return (Some (Node Tuple [Node (Attribute "a") [Name "y"]; Node (Call [None]) [Node (Global "f") []; Name "y"]]))]]%string.
Proof. exists _, _, wsem, 9, p_order, wst. split; [apply p_order_changes|]. split; [apply p_order_changes | reflexivity]. Qed.
Print Assumptions C90_order_refuted.
(** C90: [y[f(x)] = gg(y)] calls [f] before [gg]. *)
Theorem C90_target_order_refuted : exists V U (s : semantics V U) fuel p st, no_temporaries p /\ ~ same_end (run s fuel p st) (run s fuel (preprocess p) st) /\
  p = [Line [Assign [Node Subscript [Name "y"; Node (Call [None]) [Node (Global "f") []; Name "x"]]] (Node (Call [None]) [Node (Global "gg") []; Name "y"])]]%string.
Proof. exists _, _, wsem, 9, p_target, wst. split; [apply p_target_changes|]. split; [apply p_target_changes | reflexivity]. Qed.
Print Assumptions C90_target_order_refuted.
(** C90: The message of [assert y, f(x)] is computed although the assertion holds. *)
Theorem C90_assert_message_refuted : exists V U (s : semantics V U) fuel p st, no_temporaries p /\ ~ same_end (run s fuel p st) (run s fuel (preprocess p) st) /\
  p = [Line [Assert (Name "y") (Some (Node (Call [None]) [Node (Global "f") []; Name "x"]))]]%string.
Proof. exists _, _, wsem, 9, p_assert, wst. split; [apply p_assert_changes|]. split; [apply p_assert_changes | reflexivity]. Qed.
Print Assumptions C90_assert_message_refuted.
(** C90: A variable of the source code named [_tmp_1] is overwritten. *)
Theorem C90_temporary_name_refuted : exists V U (s : semantics V U) fuel p st, ~ same_end (run s fuel p st) (run s fuel (preprocess p) st) /\
  p = [Line [Return (Some (Node (Binary Add) [Node (Call [None]) [Node (Global "f") []; Name "x"]; Name "_tmp_1"]))]]%string.
Proof. exists _, _, wsem, 9, p_name, wst. split; [apply p_name_changes | reflexivity]. Qed.
Print Assumptions C90_temporary_name_refuted.

(** C91: Expanding augmented assignments changes nothing at all, and none to a variable, attribute or item is left.
    Partial: in-place operators must be the binary operators, and the parts of the target stable. *)
Theorem C91_expand_partial : forall V U (s : semantics V U) stable, (forall k, stable k = true -> stable_kind s k) ->
  (forall o a b u, inplace s o a b u = apply s (Binary (meant o)) [a; b] u) ->
  forall fuel p st, forallb (every (simple_augment stable)) p = true -> run s fuel (expand p) st = run s fuel p st.
Proof. intros V U s stable Hs Hi. apply (expand_same s stable Hs). intros o. rewrite binary_meant. apply Hi. Qed.
Print Assumptions C91_expand_partial.
Theorem C91_none_left : forall p, forallb (every (fun m => negb (augments m))) (expand p) = true.
Proof. exact expand_none. Qed.
Print Assumptions C91_none_left.
Example C91_expand_nonvacuous : (forall k, wstable k = true -> stable_kind wsem k) /\ forallb (every (simple_augment wstable)) prog = true /\ forallb (every (fun m => negb (augments m))) prog = false.
Proof. split; [exact wstable_ok|]. split; vm_compute; reflexivity. Qed.
(** C91: [f(x)[0] += 1] calls [f] twice. *)
Theorem C91_twice_refuted : exists V U (s : semantics V U) fuel p st,
  (forall o a b u, inplace s o a b u = apply s (Binary (meant o)) [a; b] u) /\ ~ same_end (run s fuel p st) (run s fuel (expand p) st) /\
  p = [Line [AugAssign (Node Subscript [Node (Call [None]) [Node (Global "f") []; Name "x"]; Lit 0]) AddAssign (Lit 1)]]%string.
Proof. exists _, _, wsem, 9, p_twice, wst. split; [exact winplace|]. split; [exact p_twice_changes | reflexivity]. Qed.
Print Assumptions C91_twice_refuted.
(** C91: An in-place operator that changes its operand (as for tensors and lists) no longer does, so that other references to it keep the old value. *)
Theorem C91_in_place_refuted : exists V U (s : semantics V U) fuel p st, ~ same_end (run s fuel p st) (run s fuel (expand p) st) /\
  p = [Line [AugAssign (Name "y") AddAssign (Name "y")]]%string.
Proof. exists _, _, wsem_inplace, 9, p_inplace, wst. split; [exact p_inplace_changes | reflexivity]. Qed.
Print Assumptions C91_in_place_refuted.

(** C92: In prepared code every line has one statement, every candidate of a line is the whole value of its statement (or in a
    conditional expression or comprehension), and every temporary is assigned at one place. *)
Theorem C92_isolated : forall p, forallb isolated (preprocess p) = true.
Proof. intros p. apply isolate_all_isolated. Qed.
Print Assumptions C92_isolated.
Theorem C92_one_per_line : forall p, forallb one_per_line (preprocess p) = true.
Proof. exact preprocess_one. Qed.
Print Assumptions C92_one_per_line.
Theorem C92_assigned_once : forall p, no_temporaries p -> forallb (every valid_targets) p = true ->
  forall x, temporary x -> count_occ string_dec (flat_map assigned (preprocess p)) x <= 1.
Proof. exact preprocess_once. Qed.
Print Assumptions C92_assigned_once.
Example C92_nonvacuous : no_temporaries prog /\ forallb (every valid_targets) prog = true /\ forallb isolated (mark_all (expand (split prog))) = false /\
  forallb one_per_line prog = false /\ In "_tmp_7"%string (flat_map assigned (preprocess prog)).
Proof.
  destruct prog_ok as (A & _ & _ & B & _). split; [exact A|]. split; [exact B|]. split; [vm_compute; reflexivity|]. split; [vm_compute; reflexivity|].
  vm_compute. tauto.
Qed.

(** C93: Marked are exactly the calls, except of [super] and the functions left alone, and the operators with an operand that is not
    built from literals; without the marks the code is the source code. *)
Theorem C93_marked : forall e, source e = true -> marked e (mark e) /\ erase (mark e) = e.
Proof. intros e S. split; [exact (mark_marked e S) | exact (mark_source e S)]. Qed.
Print Assumptions C93_marked.
Example C93_nonvacuous : let e := Node (Binary Add) [Node (Call []) [Node (Global "super") []]; Node (Unary 0) [Lit 1]; Node (Call [None]) [Name "f"; Node (Binary Add) [Lit 1; Name "x"]]]%string in
  source e = true /\ mark e = Cand (Node (Binary Add) [Node (Call []) [Node (Global "super") []]; Node (Unary 0) [Lit 1]; Cand (Node (Call [None]) [Name "f"; Cand (Node (Binary Add) [Lit 1; Name "x"])])])%string.
Proof. split; vm_compute; reflexivity. Qed.
