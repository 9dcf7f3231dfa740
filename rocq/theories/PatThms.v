(** Theorems about pattern rules (C125-C128). *)
From Coq Require Import String Ascii ZArith Lia.
From Verif Require Import Prelude PatModel PatSpec PatProofs PatLoopProofs PatTextProofs PatScopeProofs.
Local Open Scope nat_scope.
Local Open Scope list_scope.

(** A few of libcst's classes *)
Definition sorts (k : string) : sort :=
  if String.eqb k "Expr" || String.eqb k "Assign" then Small
  else if String.eqb k "SimpleStatementLine" || String.eqb k "FunctionDef" || String.eqb k "ClassDef" then Statement
  else if String.eqb k "Module" || String.eqb k "IndentedBlock" then Part else Expression.
Definition v (x : string) : node := Name 0 (Id x).
Definition c (x : string) : node := Name 0 (Cap x).
Definition call (f : string) (a : node) : node := Node 0 f [a].

(** C125. On an expression, a rule whose pattern names no capture twice rewrites exactly the instances of the
    pattern, each to the same instance of the replacement; it leaves every other expression; with
    a capture in the replacement that the pattern does not have it raises KeyError on every
    instance. A small statement is rewritten to a small statement, and a statement to a statement. *)
Theorem C125_exactly_the_instances_partial : forall kind_sort r n,
  sort_of kind_sort n = Expression -> ~ in_line n -> NoDup (captures (pattern r)) ->
  (incl (captures (replacement r)) (captures (pattern r)) ->
     forall m, apply kind_sort r n = Ok (Some m) <->
       exists sigma, n = instance sigma (pattern r) /\ m = instance sigma (replacement r)) /\
  (apply kind_sort r n = Ok None <-> ~ exists sigma, n = instance sigma (pattern r)) /\
  ((exists sigma, n = instance sigma (pattern r)) ->
     (exists x, In x (captures (replacement r)) /\ ~ In x (captures (pattern r))) -> apply kind_sort r n = Err KeyError).
Proof.
  intros ks r n Hs Hl Hd. split; [|split].
  - intros Hi m. apply apply_exact; auto.
  - apply apply_none; auto.
  - intros (s & Hn) (x & Hx & Hx'). eapply apply_missing; eauto.
Qed.
Print Assumptions C125_exactly_the_instances_partial.

Theorem C125_statements_stay_statements : forall kind_sort r n m,
  kind_sort "Expr"%string = Small -> kind_sort "SimpleStatementLine"%string = Statement ->
  usable kind_sort (replacement r) -> apply kind_sort r n = Ok (Some m) ->
  (sort_of kind_sort n = Small -> sort_of kind_sort m = Small) /\
  (sort_of kind_sort n = Statement -> sort_of kind_sort m = Statement).
Proof. exact apply_sorts. Qed.
Print Assumptions C125_statements_stay_statements.

(** C125, what fails: an expression can be rewritten to a statement ("f({x})" to "y = {x}"), a
    pattern that uses a capture twice matches two different nodes ("{x} + {x}" on "a + b"), and
    parentheses around an expression keep it from matching ("f({x})" on "(f(a))"). *)
Theorem C125_expression_slots_refuted : exists r n m, apply sorts r n = Ok (Some m) /\
  sort_of sorts n = Expression /\ sort_of sorts m = Small.
Proof.
  exists (mkRule (call "f" (c "x")) (Node 0 "Assign" [v "y"; c "x"]) None), (call "f" (v "a")).
  eexists. repeat split.
Qed.
Theorem C125_repeated_captures_refuted : exists r n m, apply sorts r n = Ok (Some m) /\
  sort_of sorts n = Expression /\ ~ exists sigma, n = instance sigma (pattern r).
Proof.
  exists (mkRule (Node 0 "+" [c "x"; c "x"]) (c "x") None), (Node 0 "+" [v "a"; v "b"]).
  eexists. repeat split. intros (s & H). cbn in H. injection H as H1 H2. rewrite <- H1 in H2. discriminate.
Qed.
Theorem C125_parentheses_refuted : exists r par n, apply sorts r (Node 0 "f" [n]) <> Ok None /\
  apply sorts r (Node (S par) "f" [n]) = Ok None.
Proof. exists (mkRule (call "f" (c "x")) (call "g" (c "x")) None), 0, (v "a"). split; [discriminate|reflexivity]. Qed.
Print Assumptions C125_expression_slots_refuted.
Print Assumptions C125_repeated_captures_refuted.
Print Assumptions C125_parentheses_refuted.

Example C125_nonvacuous :
  let r := mkRule (Node 0 "f" [c "x"; Node 0 "+" [c "y"; v "one"]]) (Node 0 "g" [c "y"; c "x"; c "y"]) None in
  let n := Node 0 "f" [call "h" (v "a"); Node 0 "+" [v "b"; v "one"]] in
  sort_of sorts n = Expression /\ ~ in_line n /\ NoDup (captures (pattern r)) /\
  incl (captures (replacement r)) (captures (pattern r)) /\
  apply sorts r n = Ok (Some (Node 0 "g" [v "b"; call "h" (v "a"); v "b"])) /\
  apply sorts r (Node 0 "f" [v "a"; v "b"]) = Ok None /\
  apply sorts (mkRule (v "a") (c "z") None) (v "a") = Err KeyError /\
  usable sorts (replacement r) /\
  apply sorts (mkRule (v "a") (v "b") None) (Node 0 "SimpleStatementLine" [v "a"]) =
    Ok (Some (Node 0 "SimpleStatementLine" [Node 0 "Expr" [v "b"]])).
Proof.
  cbn. repeat split; auto; try discriminate.
  - intros (p & d & H). discriminate.
  - repeat constructor; cbn; intuition discriminate.
  - intros x [<-|[<-|[<-|[]]]]; cbn; auto.
Qed.

(** C126. Where the nodes that were captured and the replacement can stand anywhere (names, calls,
    or in parentheses of their own), the result of a rule can stand anywhere too: the text of the
    code around, with the result in it, is read back as the tree that was made. [around] is code
    with holes (its captures). *)
Theorem C126_text_read_back_partial : forall kind_sort r sigma m around,
  sort_of kind_sort (instance sigma (pattern r)) = Expression -> ~ in_line (instance sigma (pattern r)) ->
  NoDup (captures (pattern r)) -> incl (captures (replacement r)) (captures (pattern r)) ->
  apply kind_sort r (instance sigma (pattern r)) = Ok (Some m) ->
  (forall x, In x (captures (pattern r)) -> closed (sigma x)) -> closed (replacement r) -> reads Sum (text around) around ->
  m = instance sigma (replacement r) /\ closed m /\ faithful (instance (fun _ => m) around).
Proof.
  intros ks r s m C Hs Hl Hd Hi Ha Hc Hr HC.
  assert (Hm : m = instance s (replacement r)).
  { rewrite (apply_instance ks r _ s (or_introl Hs) Hl Hd Hi eq_refl) in Ha. now injection Ha. }
  split; [exact Hm|]. assert (Hm' : closed m).
  { rewrite Hm. unfold closed. eapply reads_instance; [exact Hr|]. intros x Hx. apply Hc, Hi, Hx. }
  split; [exact Hm'|]. unfold faithful. eapply reads_instance; [exact HC|]. intros x _. exact Hm'.
Qed.
Print Assumptions C126_text_read_back_partial.

(** C126, what fails: the parentheses written around a capture in a replacement are dropped and
    none are added. With the rule "f({x})" to "({x}) * y", "f(a + b)" becomes the tree of
    (a + b) * y with the text "a + b * y", which is another expression with another value. *)
Theorem C126_parentheses_refuted : exists r n m m' env,
  faithful n /\ reads Sum (text (pattern r)) (pattern r) /\ reads Sum (text (replacement r)) (replacement r) /\
  apply sorts r n = Ok (Some m) /\ ~ faithful m /\
  reads Sum (text m) m' /\ value env m' <> value env m.
Proof.
  exists (mkRule (call "f" (c "x")) (Node 0 "*" [Name 1 (Cap "x"); v "y"]) None), (call "f" (Node 0 "+" [v "a"; v "b"])).
  exists (Node 0 "*" [Node 0 "+" [v "a"; v "b"]; v "y"]), (Node 0 "+" [v "a"; Node 0 "*" [v "b"; v "y"]]).
  exists (fun x => if String.eqb x "y" then 2%Z else 1%Z).
  split; [|split; [|split; [|split; [|split; [|split]]]]].
  - unfold faithful. cbn. apply read_term, read_atom.
    apply (read_call "f" [[TId (Id "a"); TPlus; TId (Id "b")]] [Node 0 "+" [v "a"; v "b"]]); [discriminate|discriminate|].
    constructor; [|constructor]. apply (read_plus [_] [_]); repeat constructor.
  - cbn. apply read_term, read_atom. apply (read_call "f" [[TId (Cap "x")]] [c "x"]); [discriminate|discriminate|]. repeat constructor.
  - cbn. apply read_term. apply (read_times [_; _; _] [_]); [|constructor]. apply read_atom.
    apply (read_paren_name [_]). repeat constructor.
  - reflexivity.
  - intros H. unfold faithful in H. inversion H as [| | | | | |? ? H1|]; subst. inversion H1 as [| | | |? ? H2|a b x y H2 H3 E|? ? H2|]; subst.
    + inversion H2; congruence.
    + inversion H2 as [| | | |? ? H4| | |]; subst. inversion H4; congruence.
  - cbn. apply (read_plus [_] [_; _; _]); [repeat constructor|]. apply (read_times [_] [_]); repeat constructor.
  - vm_compute. discriminate.
Qed.
Print Assumptions C126_parentheses_refuted.

Example C126_nonvacuous :
  let r := mkRule (call "f" (c "x")) (Node 1 "*" [c "x"; v "y"]) None in
  let sigma := fun _ : string => Node 1 "+" [v "a"; v "b"] in
  let around := Node 0 "*" [c "hole"; v "z"] in
  let m := Node 1 "*" [Node 1 "+" [v "a"; v "b"]; v "y"] in
  apply sorts r (instance sigma (pattern r)) = Ok (Some m) /\
  closed (sigma "x"%string) /\ closed (replacement r) /\ reads Sum (text around) around /\
  text (instance (fun _ => m) around) =
    [TOpen; TOpen; TId (Id "a"); TPlus; TId (Id "b"); TClose; TTimes; TId (Id "y"); TClose; TTimes; TId (Id "z")].
Proof.
  repeat split.
  - unfold closed. cbn. apply (read_paren [_; _; _]). apply (read_plus [_] [_]); repeat constructor.
  - unfold closed. cbn. apply (read_paren [_; _; _]). apply read_term. apply (read_times [_] [_]); repeat constructor.
  - cbn. apply read_term. apply (read_times [_] [_]); repeat constructor.
Qed.

(** C127. When the rules have been applied to a node, the result was reached by rewrites of the
    rules that apply there, and each of those rules leaves it alone or only gives back a text that was
    passed on the way. *)
Theorem C127_stops_at_rest : forall kind_sort key fuel module_ scopes rules n m,
  apply_rules kind_sort key fuel module_ scopes rules n = Some (Ok m) ->
  let step a b := exists r, active module_ scopes rules r /\ apply kind_sort r a = Ok (Some b) in
  star step n m /\
  forall r, active module_ scopes rules r -> apply kind_sort r m = Ok None \/
    exists w u, apply kind_sort r m = Ok (Some w) /\ key w = key u /\ star step n u /\ star step u m.
Proof.
  intros ks key fuel mo s rules n m H step. unfold apply_rules in H. eapply (loop_stops ks key mo s rules n fuel 0 n [key n] m H).
  - constructor.
  - intros j r w Hj. lia.
  - intros j r e Hj. lia.
  - intros k [<-|[]]. exists n. repeat split; constructor.
Qed.
Print Assumptions C127_stops_at_rest.

(** Rules that make the text smaller (by any measure) come to an end on every module, and at a node no
    rule that applies rewrites the result. *)
Theorem C127_ends_partial : forall kind_sort key (mu : string -> nat) module_ rules,
  (forall r a b, In r rules -> apply kind_sort r a = Ok (Some b) -> mu (key b) < mu (key a)) ->
  (forall n, exists fuel x, visit_module kind_sort key fuel module_ rules n = Some x) /\
  (forall scopes n, exists fuel x, apply_rules kind_sort key fuel module_ scopes rules n = Some x /\
     forall m, x = Ok m -> forall r, active module_ scopes rules r -> apply kind_sort r m = Ok None).
Proof.
  intros ks key mu mo rules H. split.
  - intros n. unfold visit_module. apply (transform_ends ks key mu). intros r a b Hr. apply H. apply filter_In in Hr. tauto.
  - intros s n. apply (apply_rules_ends ks key mu). exact H.
Qed.
Print Assumptions C127_ends_partial.

(** C127, what fails: some rules never come to an end ("f({x})" to "f(f({x}))": every text is new),
    and rewriting a node can leave a part of the result to which a rule applies. *)
Fixpoint chain (i : nat) : node := match i with 0 => v "a" | S i' => call "f" (chain i') end.
Definition size (n : node) : nat := (fix go n := match n with Name _ _ => 1 | Node _ k cs => (if String.eqb k "Expr" then 0 else 1) + fold_right (fun d a => go d + a) 0 cs end) n.
Theorem C127_endless_refuted : exists r n, (forall m, apply sorts r (call "f" m) = Ok (Some (call "f" (call "f" m)))) /\
  forall key, (forall i j, key (chain i) = key (chain j) -> i = j) ->
  forall fuel, visit_module sorts key fuel "" [r] n = None.
Proof.
  exists (mkRule (call "f" (c "x")) (call "f" (call "f" (c "x"))) None), (chain 1). split; [reflexivity|].
  intros key Hk fuel. unfold visit_module. cbn [filter on applicable]. change (chain 1) with (Node 0 "f" [v "a"]). rewrite transform_node. cbn [transform_list].
  destruct (PatModel.transform sorts key fuel "" _ (inner [] (Node 0 "f" [v "a"])) (v "a")) as [x|] eqn:E; [|reflexivity].
  assert (x = Ok (v "a")) as ->.
  { unfold v in E. cbn [PatModel.transform] in E. unfold apply_rules in E. destruct fuel as [|[|fuel]]; cbn in E; try discriminate. injection E as <-. reflexivity. }
  clear E. unfold apply_rules. change (Node 0 "f" [v "a"]) with (chain 1).
  assert (H : forall fuel i seen, (forall k, In k seen -> exists j, j <= S i /\ k = key (chain j)) ->
     PatModel.loop sorts key fuel "" [] [mkRule (call "f" (c "x")) (call "f" (call "f" (c "x"))) None] 0 (chain (S i)) seen = None).
  { clear fuel. induction fuel as [|fuel IH]; intros i seen Hs; [reflexivity|]. cbn [PatModel.loop nth_error on scope_matches negb].
    change (apply sorts (mkRule (call "f" (c "x")) (call "f" (call "f" (c "x"))) None) (chain (S i))) with (Ok (Some (chain (S (S i))))).
    cbn [rbind]. assert (Hx : existsb (String.eqb (key (chain (S (S i))))) seen = false).
    { apply not_true_is_false. intros Hx. apply existsb_exists in Hx. destruct Hx as (k & Hin & He). apply String.eqb_eq in He.
      destruct (Hs k Hin) as (j & Hj & Hjk). rewrite Hjk in He. apply Hk in He. lia. }
    rewrite Hx. apply IH. intros k [<-|Hin]; [exists (S (S i)); auto|]. destruct (Hs k Hin) as (j & Hj & Hjk). exists j. split; [lia|assumption]. }
  apply H. intros k [<-|[]]. exists 1. auto.
Qed.
Print Assumptions C127_endless_refuted.

Fixpoint tally (n : nat) : string := match n with 0 => EmptyString | S n' => String "1" (tally n') end.
Lemma tally_inj a b : tally a = tally b -> a = b.
Proof. revert b. induction a as [|a IH]; intros [|b] H; cbn in H; try discriminate; [reflexivity|]. injection H as H. f_equal. auto. Qed.
Lemma chain_size i : size (chain i) = S i.
Proof. induction i as [|i IH]; [reflexivity|]. unfold size in *. cbn. rewrite IH. lia. Qed.

Theorem C127_parts_refuted : exists rules n m r part, forall key : node -> string,
  key m <> key n ->
  (exists fuel, visit_module sorts key fuel "" rules n = Some (Ok m)) /\
  In r rules /\ m = call "h" part /\ apply sorts r part <> Ok None.
Proof.
  exists [mkRule (call "g" (c "x")) (call "h" (call "f" (c "x"))) None; mkRule (call "f" (c "x")) (call "k" (c "x")) None].
  exists (call "g" (v "a")), (call "h" (call "f" (v "a"))), (mkRule (call "f" (c "x")) (call "k" (c "x")) None), (call "f" (v "a")).
  intros key Hk. split; [exists 6|split; [right; now left|split; [reflexivity|discriminate]]].
  apply String.eqb_neq in Hk. unfold call, v in *. cbn. now rewrite Hk.
Qed.
Print Assumptions C127_parts_refuted.

Example C127_nonvacuous :
  let key := fun n => tally (size n) in
  (forall i j, key (chain i) = key (chain j) -> i = j) /\
  let r := mkRule (call "f" (call "f" (c "x"))) (call "f" (c "x")) None in
  (forall a b, apply sorts r a = Ok (Some b) -> String.length (key b) < String.length (key a)) /\
  visit_module sorts key 20 "" [r] (chain 4) = Some (Ok (chain 1)).
Proof.
  cbn [PatSpec.everywhere]. split; [|split].
  - intros i j H. apply tally_inj in H. rewrite !chain_size in H. lia.
  - intros a b H.
    assert (Ht : forall n, String.length (tally n) = n) by (induction n as [|n IH]; cbn; auto). rewrite !Ht.
    unfold apply, captures_of in H. cbn [pattern replacement] in H.
    assert (Hp : forall n caps, pmatch (call "f" (call "f" (c "x"))) n = Some caps -> exists d, n = call "f" (call "f" d) /\ caps = [("x"%string, d)]).
    { intros n caps Hn. pose proof (pmatch_names _ _ _ Hn) as Hf. destruct caps as [|[y d] [|]]; try discriminate. cbn in Hf.
      injection Hf as ->. exists d. split; [|reflexivity]. symmetry. apply (pmatch_instance _ _ _ (fun _ => d) Hn).
      intros z w [Hz|[]]. congruence. }
    destruct (pmatch (call "f" (call "f" (c "x"))) a) as [caps|] eqn:Ea.
    + destruct (Hp a caps Ea) as (d & -> & ->). cbn in H. injection H as <-. unfold size. cbn. lia.
    + destruct a as [|par k [|e [|]]]; try discriminate. destruct (String.eqb k "SimpleStatementLine") eqn:Ek; [|discriminate].
      destruct (pmatch (call "f" (call "f" (c "x"))) e) as [caps|] eqn:Ee; [|discriminate].
      destruct (Hp e caps Ee) as (d & -> & ->). apply String.eqb_eq in Ek. subst k. cbn in H. injection H as <-. unfold size. cbn. lia.
  - vm_compute. reflexivity.
Qed.

(** C128. A rule with [on] acts in code whose qualified name begins with the parts of [on] as the rule
    without [on], and has no effect in code without a part of such a name. This holds for a
    module ([scopes] empty) and for any part of it, whatever other rules there are. Dropping the rules that a first
    look at the module's name rules out changes nothing. *)
Theorem C128_scope : forall kind_sort key module_ scopes l1 r l2 o n x, on r = Some o ->
  (within o module_ scopes ->
     (yields kind_sort key module_ scopes (l1 ++ r :: l2) n x <->
      yields kind_sort key module_ scopes (l1 ++ everywhere r :: l2) n x)) /\
  ((forall t, position n t -> ~ within o module_ (scopes ++ t)) ->
     (yields kind_sort key module_ scopes (l1 ++ r :: l2) n x <-> yields kind_sort key module_ scopes (l1 ++ l2) n x)).
Proof. intros. split; intros H0; [eapply inside|eapply outside]; eauto. Qed.
Print Assumptions C128_scope.
Theorem C128_filter : forall kind_sort key module_ rules n x,
  (exists fuel, visit_module kind_sort key fuel module_ rules n = Some x) <->
  (exists fuel, transform kind_sort key fuel module_ rules [] n = Some x).
Proof. intros. apply (yields_unfiltered kind_sort key module_ [] rules n x). Qed.
Print Assumptions C128_filter.
Theorem C128_one_result : forall kind_sort key module_ scopes rules n x y,
  yields kind_sort key module_ scopes rules n x -> yields kind_sort key module_ scopes rules n y -> x = y.
Proof. exact yields_det. Qed.
Print Assumptions C128_one_result.

Example C128_nonvacuous :
  let key := fun n => tally (size n) in
  let r := mkRule (call "f" (v "x")) (v "y") (Some "pkg.mod.A.go"%string) in
  let def name body := Node 0 "FunctionDef" (v name :: body) in
  let m := Node 0 "Module" [Node 0 "ClassDef" [v "A"; def "go"%string [call "f" (v "x")]; def "gone"%string [call "f" (v "x")]]] in
  within "pkg.mod.A.go" "pkg.mod" ["A"; "go"]%string /\ ~ within "pkg.mod.A.go" "pkg.mod" ["A"; "gone"]%string /\
  visit_module sorts key 9 "pkg.mod" [r] m =
    Some (Ok (Node 0 "Module" [Node 0 "ClassDef" [v "A"; def "go"%string [v "y"]; def "gone"%string [call "f" (v "x")]]])) /\
  visit_module sorts key 9 "pkg.other" [r] m = Some (Ok m).
Proof.
  cbn zeta. split; [|split; [|split; reflexivity]].
  - exists []. reflexivity.
  - intros (rest & H). vm_compute in H. discriminate.
Qed.
