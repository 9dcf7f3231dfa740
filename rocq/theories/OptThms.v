(** C106: the table of quantized operators. *)
From Coq Require Import String Permutation.
From Verif Require Import Prelude OpsModel OptModel OptSpec OpsTable OpsThms OptProofs.
Local Open Scope nat_scope.
Local Open Scope list_scope.

(** Whatever has been done to the table: after an operator has been appended, its function, the functions named as
    aliases, and those that had the same operators as its function have that operator first, and then what its function
    had before; all others have what they had. *)
Theorem C106_append : forall import resolve_dispatch fallback_names acts e aliases t',
  let t := history import resolve_dispatch fallback_names acts in
  append_operator import resolve_dispatch fallback_names t e aliases = (t', Ok tt) ->
  exists f e', import (e_fallback e) = Some f /\ completes import resolve_dispatch e e' /\
    (forall k, k = f \/ among import aliases k \/ shares t k f -> get t' (KObj k) = Ok (e' :: found (get t (KObj f)))) /\
    (forall k, ~ (k = f \/ among import aliases k \/ shares t k f) -> get t' (KObj k) = get t (KObj k)).
Proof. intros import rd fn acts e aliases t' t E. apply (append_get import rd fn t e aliases t' (wf_history import rd fn acts) E). Qed.
Print Assumptions C106_append.

(** The aliases are names of the functions they name, and the fallback of a new function too, if asked for.  Other
    names keep their meaning. *)
Theorem C106_names : forall import resolve_dispatch fallback_names acts e aliases t' f,
  let t := history import resolve_dispatch fallback_names acts in
  append_operator import resolve_dispatch fallback_names t e aliases = (t', Ok tt) -> import (e_fallback e) = Some f ->
  (forall a k, In a aliases -> import a = Some k -> get t' (KName a) = get t' (KObj k)) /\
  (fallback_names = true -> get t (KObj f) = Err KeyError -> get t' (KName (e_fallback e)) = get t' (KObj f)) /\
  (forall s, ~ (In s aliases /\ import s <> None) -> ~ (s = e_fallback e /\ fallback_names = true /\ get t (KObj f) = Err KeyError) -> resolve_alias t' s = resolve_alias t s).
Proof.
  intros import rd fn acts e aliases t' f t E F. destruct (append_names import rd fn t e aliases t' f (wf_history import rd fn acts) E F) as (N1 & N2 & N3). split; [|split; [|exact N3]].
  - intros a k Ia Ha. rewrite get_name, (N1 a k Ia Ha). reflexivity.
  - intros B G. rewrite get_name. destruct (in_dec string_dec (e_fallback e) aliases) as [I|I]; [rewrite (N1 _ f I F) | rewrite (N2 B G I)]; reflexivity.
Qed.
Print Assumptions C106_names.

(** A name given by hand means what was given. *)
Theorem C106_alias : forall t alias k t', add_alias t alias k = (t', Ok tt) ->
  get t' (KName alias) = get t k /\ (forall f, get t' (KObj f) = get t (KObj f)) /\ (forall s, s <> alias -> get t' (KName s) = get t (KName s)).
Proof.
  intros t alias k t' E. unfold add_alias in E.
  assert (X : forall f, (mkTable (specs t) (index t) (set_item alias f (names t)), Ok tt) = (t', Ok tt) -> (forall g, get t' (KObj g) = get t (KObj g)) /\ forall s, get t' (KName s) = if String.eqb alias s then get t (KObj f) else get t (KName s)).
  { intros f H. injection H as <-. split; [reflexivity|]. intros s. unfold get, resolve_alias. cbn [names index specs]. rewrite lookup_set. destruct (String.eqb alias s); reflexivity. }
  destruct k as [f|s0].
  - destruct (X f E) as [X1 X2]. split; [rewrite X2, String.eqb_refl; reflexivity|]. split; [exact X1|]. intros s N. rewrite X2. destruct (String.eqb_spec alias s); [congruence | reflexivity].
  - destruct (resolve_alias t s0) as [f|] eqn:R; [|discriminate]. destruct (X f E) as [X1 X2]. split; [rewrite X2, String.eqb_refl, get_name, R; reflexivity|]. split; [exact X1|]. intros s N. rewrite X2. destruct (String.eqb_spec alias s); [congruence | reflexivity].
Qed.
Print Assumptions C106_alias.

(** When appending succeeds: the function and that of [fastforward.nn.functional] can be imported, and no alias names a
    function with other operators. *)
Theorem C106_succeeds : forall import resolve_dispatch fallback_names acts e aliases,
  let t := history import resolve_dispatch fallback_names acts in
  snd (append_operator import resolve_dispatch fallback_names t e aliases) = Ok tt <->
  exists f e', import (e_fallback e) = Some f /\ completes import resolve_dispatch e e' /\ forall k, among import aliases k -> k = f \/ get t (KObj k) = Err KeyError \/ shares t k f.
Proof. intros import rd fn acts e aliases t. apply append_succeeds, wf_history. Qed.
Print Assumptions C106_succeeds.

(** No operator is lost or listed twice. *)
Theorem C106_operators : forall import resolve_dispatch fallback_names acts e aliases t' r,
  let t := history import resolve_dispatch fallback_names acts in
  append_operator import resolve_dispatch fallback_names t e aliases = (t', r) ->
  (t' = t /\ exists x, r = Err x) \/ exists e', completes import resolve_dispatch e e' /\ Permutation (operators t') (e' :: operators t).
Proof. intros import rd fn acts e aliases t' r t E. apply (append_operators import rd fn t e aliases t' r (wf_history import rd fn acts) E). Qed.
Print Assumptions C106_operators.

(** The operators listed are those found under the function they replace. *)
Theorem C106_listed : forall import resolve_dispatch fallback_names acts e,
  let t := history import resolve_dispatch fallback_names acts in
  In e (operators t) <-> exists f l, import (e_fallback e) = Some f /\ get t (KObj f) = Ok l /\ In e l.
Proof. intros import rd fn acts e t. apply operators_found, wf_history. Qed.
Print Assumptions C106_listed.

(** Lookup gives at least one operator, or raises [KeyError]; [in] says which. *)
Theorem C106_contains : forall import resolve_dispatch fallback_names acts k,
  let t := history import resolve_dispatch fallback_names acts in
  (exists e l, get t k = Ok (e :: l) /\ contains t k = Ok true) \/ (get t k = Err KeyError /\ contains t k = Ok false).
Proof. intros import rd fn acts k t. unfold contains. destruct (get_errors import t k (wf_history import rd fn acts)) as [(e & l & G)|G]; fold t in G; rewrite G; [left; eauto | right; auto]. Qed.
Print Assumptions C106_contains.

(** A file that is loaded has each of its operators found under its function. *)
Theorem C106_loaded : forall import resolve_dispatch fallback_names rows t, from_yaml import resolve_dispatch fallback_names rows = Ok t ->
  Forall (fun row => exists o f e' l, from_spec (fst (fst row)) = Ok o /\ import (snd (fst row)) = Some f /\ completes import resolve_dispatch (mkEntry o (snd (fst row)) None) e' /\ get t (KObj f) = Ok l /\ In e' l) rows.
Proof.
  intros import rd fn rows t E. destruct (load_ok import rd fn rows empty 0 t (wf_empty import) E) as (_ & W & _ & R). rewrite Forall_forall in *. intros row I. destruct (R row I) as (o & e' & S & C & Ie). apply (operators_found import t e' W) in Ie. destruct Ie as (f & l & F & G & Il).
  exists o, f, e', l. split; [exact S|]. split; [|auto]. destruct C as (_ & C & _). rewrite C in F. exact F.
Qed.
Print Assumptions C106_loaded.

(** The file of the project is loaded wherever the functions it names can be imported and those of different operators
    differ; each operator is then the only one of its function, by reference and by every name of the file. *)
Theorem C106_shipped : forall import fallback_names,
  Forall (fun row : spec * string * list string => exists f d, import (snd (fst row)) = Some f /\ import (String.append "fastforward.nn.functional." (s_identifier (fst (fst row)))) = Some d) operators_yaml ->
  (forall i j a b k, i <> j -> nth_error operators_yaml i = Some a -> nth_error operators_yaml j = Some b -> among import (row_names a) k -> among import (row_names b) k -> False) ->
  exists t, from_yaml import true fallback_names operators_yaml = Ok t /\
  Forall (fun row => exists o f d, from_spec (fst (fst row)) = Ok o /\ import (snd (fst row)) = Some f /\ import (function_name o) = Some d /\
    (forall k, among import (row_names row) k -> get t (KObj k) = Ok [mkEntry o (snd (fst row)) (Some d)]) /\
    (forall a k, In a (snd row) -> import a = Some k -> get t (KName a) = Ok [mkEntry o (snd (fst row)) (Some d)]) /\
    (fallback_names = true -> get t (KName (snd (fst row))) = Ok [mkEntry o (snd (fst row)) (Some d)])) operators_yaml.
Proof.
  intros import fn I D.
  destruct (load_all import true fn eq_refl operators_yaml empty [] (wf_empty import)) as (t & L & R).
  - intros k j H. discriminate H.
  - constructor.
  - pose proof C104_table as T. rewrite Forall_forall in *. intros row Ir. destruct (T row Ir) as (o & S & _). destruct (I row Ir) as (f & d & F & X). exists o, f, d. split; [exact S|]. split; [exact F|]. unfold function_name.
    assert (E : o_identifier o = s_identifier (fst (fst row))). { unfold from_spec in S. destruct (match s_returns (fst (fst row)) with Some e => let? t := type_of e in Ok (Some t) | None => Ok None end); [|discriminate]. cbn [rbind] in S. destruct (from_params _); [|discriminate]. cbn [rbind] in S. injection S as <-. reflexivity. }
    rewrite E. exact X.
  - exact D.
  - exists t. split; [exact L|]. rewrite app_nil_l in R. rewrite Forall_forall in *. intros row Ir. destruct (R row Ir) as (o & f & d & S & F & X & G & N & B). exists o, f, d. split; [exact S|]. split; [exact F|]. split; [exact X|]. split; [exact G|]. split.
    + intros a k Ia Ha. rewrite get_name, (N a k Ia Ha). apply G. exists a. split; [right; exact Ia | exact Ha].
    + intros H. rewrite get_name, (B H). apply G. exists (snd (fst row)). split; [left; reflexivity | exact F].
Qed.
Print Assumptions C106_shipped.

Definition an_op (x : string) : operator := mkOp x [mkParam Quantized "input" None] (Some Quantized).

(** An alias that names a function with other operators is refused, but the operator stays in the table, and is the one
    that calls of its function become. *)
Theorem C106_atomic_refuted : exists import acts e aliases t' f e',
  append_operator import true true (history import true true acts) e aliases = (t', Err ValueError) /\ import (e_fallback e) = Some f /\
  get (history import true true acts) (KObj f) = Err KeyError /\ get t' (KObj f) = Ok [e'] /\ e_op e' = e_op e.
Proof.
  exists (fun s => match lookup_name s [("torch.relu"%string, 1); ("torch.exp"%string, 2); ("fastforward.nn.functional.relu"%string, 3); ("fastforward.nn.functional.exp"%string, 4)] with Some n => Some n | None => None end),
    [AAppend (mkEntry (an_op "relu") "torch.relu" None) []], (mkEntry (an_op "exp") "torch.exp" None), ["torch.relu"%string].
  eexists. exists 2. eexists. split; [reflexivity|]. split; [reflexivity|]. split; [reflexivity|]. split; reflexivity.
Qed.
Print Assumptions C106_atomic_refuted.

(** If the table is changed at all by an operator that is refused, an alias was the cause. *)
Theorem C106_atomic_partial : forall import resolve_dispatch fallback_names acts e t' x,
  let t := history import resolve_dispatch fallback_names acts in
  append_operator import resolve_dispatch fallback_names t e [] = (t', Err x) -> t' = t.
Proof.
  intros import rd fn acts e t' x t E. rewrite append_is in E. destruct (import (e_fallback e)); [|injection E; congruence]. destruct (complete import rd e); [discriminate | injection E; congruence].
Qed.
Print Assumptions C106_atomic_partial.

(** The documentation looks up ["torch.nn.functional.conv2d"] in a table from [from_yaml()]; but then it has no names of
    fallbacks. *)
Theorem C106_fallback_name_refuted : forall import e t', append_operator import true false empty e [] = (t', Ok tt) -> get t' (KName (e_fallback e)) = Err KeyError.
Proof.
  intros import e t' E. destruct (import (e_fallback e)) as [f|] eqn:F; [|rewrite append_is, F in E; discriminate]. destruct (append_names import true false empty e [] t' f (wf_empty import) E F) as (_ & _ & N). rewrite get_name, N; [reflexivity | intros [[] _] | intros (_ & X & _); discriminate].
Qed.
Print Assumptions C106_fallback_name_refuted.

(** Two operators for one function, and an alias of it. *)
Example C106_nonvacuous :
  let import s := lookup_name s [("torch.relu"%string, 1); ("torch.nn.functional.relu"%string, 2); ("fastforward.nn.functional.relu"%string, 3); ("torch.exp"%string, 4)] in
  let old := mkEntry (an_op "relu") "torch.nn.functional.relu" None in
  let new := mkEntry (an_op "fast_relu") "torch.relu" (Some 9) in
  let t := history import true true [AAppend old ["torch.relu"%string; "torch.missing"%string]; AAlias "relu" (KName "torch.nn.functional.relu")] in
  exists t', append_operator import true true t new [] = (t', Ok tt) /\ shares t 2 1 /\
  get t' (KName "relu") = Ok [new; mkEntry (an_op "relu") "torch.nn.functional.relu" (Some 3)] /\ get t' (KName "torch.relu") = get t' (KName "relu") /\
  get t' (KName "torch.missing") = Err KeyError /\ contains t' (KObj 4) = Ok false /\ length (operators t') = 2.
Proof. cbn zeta. eexists. split; [reflexivity|]. split; [eexists; split; reflexivity|]. repeat split; reflexivity. Qed.
(** A world where the file can be loaded: each torch function is numbered by its row. *)
Fixpoint row_of (s : string) (rows : list (spec * string * list string)) (i : nat) : nat :=
  match rows with [] => 100 | r :: rows' => if existsb (String.eqb s) (row_names r) then i else row_of s rows' (S i) end.
Example C106_shipped_nonvacuous : exists import,
  Forall (fun row : spec * string * list string => exists f d, import (snd (fst row)) = Some f /\ import (String.append "fastforward.nn.functional." (s_identifier (fst (fst row)))) = Some d) operators_yaml /\
  (forall i j a b k, i <> j -> nth_error operators_yaml i = Some a -> nth_error operators_yaml j = Some b -> among import (row_names a) k -> among import (row_names b) k -> False) /\
  length operators_yaml = 53.
Proof.
  exists (fun s => Some (row_of s operators_yaml 0)). split; [apply Forall_forall; intros row _; eauto|]. split; [|reflexivity].
  assert (X : forallb (fun p : nat * (spec * string * list string) => forallb (fun s => row_of s operators_yaml 0 =? fst p) (row_names (snd p))) (combine (seq 0 53) operators_yaml) = true) by (vm_compute; reflexivity).
  assert (Y : forall i a, nth_error operators_yaml i = Some a -> forall x, In x (row_names a) -> row_of x operators_yaml 0 = i).
  { intros i a N x I. rewrite forallb_forall in X. assert (C : In (i, a) (combine (seq 0 53) operators_yaml)).
    { clear X I. assert (Z : forall (l : list (spec * string * list string)) n i, nth_error l i = Some a -> In (n + i, a) (combine (seq n (length l)) l)).
      { induction l as [|r l IH]; intros n [|i'] E; cbn in E; try discriminate; cbn [length seq combine]; [injection E as ->; left; rewrite Nat.add_0_r; reflexivity | right; rewrite Nat.add_succ_r; apply (IH (S n) i' E)]. }
      apply (Z operators_yaml 0 i N). }
    specialize (X _ C). cbn [fst snd] in X. rewrite forallb_forall in X. apply Nat.eqb_eq, X, I. }
  intros i j a b k N Ha Hb (x & Ix & Ex) (y & Iy & Ey). apply N. rewrite <- (Y i a Ha x Ix), <- (Y j b Hb y Iy). congruence.
Qed.
