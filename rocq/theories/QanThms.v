(** Where the autoquantizer puts quantizers (C132 to C134). *)
From Verif Require Import Prelude QanModel QanSpec QanInvProofs QanProofs QanSafeProofs QanTotalProofs.
Local Open Scope nat_scope.

(** ** Vocabulary of the examples: [lin x] is a call of an operator that wants its argument [x]
    quantized and gives an unquantized value; [other] is any expression without such calls. *)
Definition lin (x : nat) : expr := EQuant (mkCall (Some false) [(AName x, true)]).
Definition other : expr := EPlain [].
Definition code : list stmt -> block := fold_right BCons BNil.
Definition asg (p x : nat) (e : expr) : stmt := SAssign p [([Some x], e)].
Definition plain_param (p x : nat) : param := mkParam p x true.

(** C132, for supported functions: if every parameter is a plain one, the code has no break, continue
    or try, branches of an if with else bind the same variables, with items bind at most one name
    and hold no operator calls, then no execution of the rewritten function hands an unquantized
    local variable to an operator that wants it quantized. Loops run any number of times and every
    branch may be taken. *)
Theorem C132_wanted_values_are_quantized_partial : forall f A,
  analyze f = Ok A -> supported f -> ~ can_fault A f.
Proof. exact analysis_sound. Qed.
Print Assumptions C132_wanted_values_are_quantized_partial.

(** for a in v: y = lin(x); if c: x = .. else: x = y -- and lin(y) in the end *)
Definition ex_ok : func := mkFunc [plain_param 0 1]
  (code [asg 10 2 other; SFor 11 [5] other (code [asg 12 2 (lin 1); SIf other (code [asg 13 1 other]) (OElse (code [asg 14 1 other; SExpr (lin 5)]))]) false; SReturn [lin 2]]).
Example C132_nonvacuous : analyze ex_ok = Ok [(0, 1); (11, 5); (13, 1); (14, 1); (10, 2); (12, 2)] /\ supported ex_ok /\ can_fault [] ex_ok.
Proof.
  split; [reflexivity|]. split.
  - split; [repeat constructor|]. split.
    + cbn. repeat split; cbn in *; repeat match goal with H : _ \/ _ |- _ => destruct H as [H|H] end; try contradiction; try congruence;
      match goal with H : _ = _ |- _ => injection H as <- <- <-; reflexivity end.
    + unfold distinct_binds. cbn. repeat constructor; cbn; intuition congruence.
  - unfold can_fault, ex_ok. cbn. eapply R_cons; [apply R_assign; reflexivity|]. eapply R_cons; [apply R_for; [reflexivity|]; apply R_done; reflexivity|].
    apply R_stop; [|exact I]. apply R_return_fault. reflexivity.
Qed.

(** The full C132 fails in six ways. One: x = ..; if c: x = .. else: pass; lin(x). Only the second
    assignment is quantized, the path through else uses the first. *)
Definition ex_else : func := mkFunc [] (code [asg 10 1 other; SIf other (code [asg 11 1 other]) (OElse (code [SExpr other])); SReturn [lin 1]]).
Theorem C132_one_sided_else_refuted : distinct_binds ex_else /\ exists A, analyze ex_else = Ok A /\ A = [(11, 1)] /\ can_fault A ex_else.
Proof.
  split; [unfold distinct_binds; cbn; repeat constructor; cbn; intuition congruence|].
  eexists. split; [reflexivity|]. split; [reflexivity|]. unfold can_fault. cbn.
  eapply R_cons; [apply R_assign; reflexivity|]. cbn.
  eapply R_cons; [apply R_if_false; [reflexivity|]; apply R_else; eapply R_cons; [apply R_expr; reflexivity|apply R_nil]|].
  apply R_stop; [apply R_return_fault; reflexivity|exact I].
Qed.
Print Assumptions C132_one_sided_else_refuted.

(** Two: for ..: x = ..; break; followed by lin(x): no quantizer at all. *)
Definition ex_break : func := mkFunc [] (code [SFor 9 [5] other (code [asg 11 1 other; SBreak]) false; SReturn [lin 1]]).
Theorem C132_break_refuted : distinct_binds ex_break /\ exists A, analyze ex_break = Ok A /\ A = [] /\ can_fault A ex_break.
Proof.
  split; [unfold distinct_binds; cbn; repeat constructor; cbn; intuition congruence|].
  eexists. split; [reflexivity|]. split; [reflexivity|]. unfold can_fault. cbn.
  eapply R_cons.
  - apply R_for; [reflexivity|]. eapply R_step_break; [reflexivity|]. eapply R_cons; [apply R_assign; reflexivity|]. apply R_stop; [apply R_break|exact I].
  - apply R_stop; [apply R_return_fault; reflexivity|exact I].
Qed.
Print Assumptions C132_break_refuted.

(** Three: for ..: (if c: x = ..; continue); x = ..; x = ..; followed by lin(x). *)
Definition ex_continue : func := mkFunc [] (code [SFor 9 [5] other (code [SIf other (code [asg 11 1 other; SContinue]) ONone; asg 12 1 other; asg 13 1 other]) false; SReturn [lin 1]]).
Theorem C132_continue_refuted : distinct_binds ex_continue /\ exists A, analyze ex_continue = Ok A /\ ~ In (11, 1) A /\ can_fault A ex_continue.
Proof.
  split; [unfold distinct_binds; cbn; repeat constructor; cbn; intuition congruence|].
  eexists. split; [vm_compute; reflexivity|]. split; [cbn; intuition congruence|]. unfold can_fault. cbn.
  eapply R_cons.
  - apply R_for; [reflexivity|]. eapply R_step_continue; [reflexivity| |apply R_done; reflexivity].
    apply R_stop; [|exact I]. apply R_if_true; [reflexivity|]. eapply R_cons; [apply R_assign; reflexivity|]. apply R_stop; [apply R_continue|exact I].
  - apply R_stop; [apply R_return_fault; reflexivity|exact I].
Qed.
Print Assumptions C132_continue_refuted.

(** Four: try: x = .. finally: pass; lin(x). *)
Definition ex_try : func := mkFunc [] (code [STry (code [asg 11 1 other]) HNil BNil BNil; SReturn [lin 1]]).
Theorem C132_try_refuted : distinct_binds ex_try /\ exists A, analyze ex_try = Ok A /\ A = [] /\ can_fault A ex_try.
Proof.
  split; [unfold distinct_binds; cbn; repeat constructor; cbn; intuition congruence|].
  eexists. split; [reflexivity|]. split; [reflexivity|]. unfold can_fault. cbn.
  eapply R_cons.
  - eapply R_try; [eapply R_cons; [apply R_assign; reflexivity|apply R_nil]|apply R_nil|apply R_nil].
  - apply R_stop; [apply R_return_fault; reflexivity|exact I].
Qed.
Print Assumptions C132_try_refuted.

(** Five: a keyword-only parameter is annotated, but the rewriting skips it. *)
Definition ex_kwonly : func := mkFunc [mkParam 0 1 false] (code [SReturn [lin 1]]).
Theorem C132_keyword_only_parameter_refuted : distinct_binds ex_kwonly /\ exists A, analyze ex_kwonly = Ok A /\ A = [(0, 1)] /\ can_fault A ex_kwonly.
Proof.
  split; [unfold distinct_binds; cbn; repeat constructor; cbn; intuition congruence|].
  eexists. split; [reflexivity|]. split; [reflexivity|]. unfold can_fault. cbn. apply R_stop; [apply R_return_fault; reflexivity|exact I].
Qed.
Print Assumptions C132_keyword_only_parameter_refuted.

(** Six: with c() as (x, y): lin(x); and the context expression of a with item is never looked at. *)
Definition ex_with_pair : func := mkFunc [] (code [SWith [(9, [1; 2], other)] (code [SExpr (lin 1)])]).
Definition ex_with_context : func := mkFunc [plain_param 0 1] (code [SWith [(9, [], lin 1)] (code [])]).
Theorem C132_with_items_refuted :
  (distinct_binds ex_with_pair /\ exists A, analyze ex_with_pair = Ok A /\ A = [(9, 1)] /\ can_fault A ex_with_pair) /\
  (distinct_binds ex_with_context /\ exists A, analyze ex_with_context = Ok A /\ A = [] /\ can_fault A ex_with_context).
Proof.
  split; (split; [unfold distinct_binds; cbn; repeat constructor; cbn; intuition congruence|]; eexists; split; [reflexivity|]; split; [reflexivity|]; unfold can_fault; cbn; apply R_stop; [|exact I]; apply R_with).
  - eapply R_item; [reflexivity|]. apply R_body. apply R_stop; [apply R_expr_fault; reflexivity|exact I].
  - apply R_item_fault. reflexivity.
Qed.
Print Assumptions C132_with_items_refuted.

(** C133, for functions made of expressions, assignments, if statements, return and raise: the
    analysis succeeds. *)
Theorem C133_analysis_accepts_loop_free_functions_partial : forall f,
  block_plain (body f) -> distinct_binds f -> exists A, analyze f = Ok A.
Proof. exact analyze_total. Qed.
Print Assumptions C133_analysis_accepts_loop_free_functions_partial.

Definition ex_branches : func := mkFunc [plain_param 0 1]
  (code [SIf (lin 1) (code [asg 10 2 other; SIf other (code [SReturn [other]]) ONone]) (OElif other (code [asg 11 2 (lin 1)]) (OElse (code [asg 12 1 other]))); SReturn [lin 1; lin 2]]).
Example C133_nonvacuous : block_plain (body ex_branches) /\ distinct_binds ex_branches /\ analyze ex_branches = Ok [(0, 1); (12, 1); (10, 2); (11, 2)].
Proof.
  split; [cbn; repeat split; repeat constructor|]. split; [unfold distinct_binds; cbn; repeat constructor; cbn; intuition congruence|reflexivity].
Qed.

(** The full C133 fails. A variable is bound in an if without else inside a loop and used after
    it: x = ..; while c: (if d: x = ..); lin(x). The second visit of the loop finds the two
    records of the inner assignment in disagreement. *)
Definition ex_loop_if : func := mkFunc [] (code [asg 10 1 other; SWhile other (code [SIf other (code [asg 11 1 other]) ONone; SExpr (lin 1)]) false; SReturn []]).
Theorem C133_if_in_loop_refuted : distinct_binds ex_loop_if /\ analyze ex_loop_if = Err RuntimeError.
Proof. split; [unfold distinct_binds; cbn; repeat constructor; cbn; intuition congruence|reflexivity]. Qed.
Print Assumptions C133_if_in_loop_refuted.

(** Nested loops whose inner loop breaks: a scope is attached to itself and merging it never ends. *)
Definition ex_nested_break : func := mkFunc [] (code [SWhile other (code [SWhile other (code [asg 11 1 other; SBreak]) false]) false]).
Theorem C133_nested_break_refuted : distinct_binds ex_nested_break /\ analyze ex_nested_break = Err RecursionError.
Proof. split; [unfold distinct_binds; cbn; repeat constructor; cbn; intuition congruence|reflexivity]. Qed.
Print Assumptions C133_nested_break_refuted.

(** Code behind a with statement that returns: with c: return ..; then x = .. *)
Definition ex_with_return : func := mkFunc [] (code [SWith [(9, [], other)] (code [SReturn [other]]); asg 10 1 other; SReturn [other]]).
Theorem C133_code_after_with_return_refuted : distinct_binds ex_with_return /\ analyze ex_with_return = Err RuntimeError.
Proof. split; [unfold distinct_binds; cbn; repeat constructor; cbn; intuition congruence|reflexivity]. Qed.
Print Assumptions C133_code_after_with_return_refuted.

(** C134: for every function, quantizers are put only behind nodes that bind the variable to a value
    that is not quantized already, only for variables that some operator in the function wants
    quantized, and never twice at the same place. *)
Theorem C134_quantizers_only_where_wanted : forall f A, analyze f = Ok A ->
  NoDup A /\
  (forall p x, In (p, x) A -> In (p, x, false) (func_binds f)) /\
  (forall p x, In (p, x) A -> In x (block_wants (body f))).
Proof.
  intros f A H. split; [exact (analyze_nodup f A H)|]. split; intros p x Hp; apply (anns_needed f A H p x Hp).
Qed.
Print Assumptions C134_quantizers_only_where_wanted.

(** C134, functions with distinct bindings: a value that an operator already returned quantized is
    never quantized again. *)
Theorem C134_quantized_results_are_left_alone : forall f A p x, analyze f = Ok A -> distinct_binds f ->
  In (p, x, true) (func_binds f) -> ~ In (p, x) A.
Proof.
  intros f A p x H Hd Ht Hp. pose proof (proj1 (anns_needed f A H p x Hp)) as Hf.
  pose proof (distinct_fun _ Hd p x true false Ht Hf). discriminate.
Qed.
Print Assumptions C134_quantized_results_are_left_alone.

Example C134_nonvacuous :
  let f := mkFunc [plain_param 0 1; plain_param 1 3] (code [asg 10 2 (EQuant (mkCall (Some true) [(AName 1, true)])); asg 11 4 other; SReturn [lin 2; lin 1]]) in
  analyze f = Ok [(0, 1)] /\ distinct_binds f /\ In (10, 2, true) (func_binds f).
Proof. cbn. split; [reflexivity|split; [unfold distinct_binds; cbn; repeat constructor; cbn; intuition congruence|tauto]]. Qed.
