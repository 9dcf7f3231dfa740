(** Proofs for C90-C92, second part: isolation of candidates. *)
From Coq Require Import String Ascii DecimalString DecimalNat.
From Verif Require Import Prelude AqModel AqSpec AqProofs.
Local Open Scope nat_scope.
Local Open Scope list_scope.

Lemma tmp_temporary : forall n, temporary (tmp n).
Proof. intros n. eexists. reflexivity. Qed.
Lemma tmp_inj : forall n m, tmp n = tmp m -> n = m.
Proof.
  unfold tmp. intros n m H. cbn in H. injection H as H.
  apply (f_equal NilZero.uint_of_string) in H. rewrite !NilZero.usu in H.
  - injection H as H. apply (f_equal Nat.of_uint) in H. rewrite !Unsigned.of_to in H. exact H.
  - intros E. pose proof (Unsigned.of_to m) as X. rewrite E in X. cbn in X. subst. discriminate.
  - intros E. pose proof (Unsigned.of_to n) as X. rewrite E in X. cbn in X. subst. discriminate.
Qed.

(** ** Syntax *)
Lemma isolate_node : forall k l n, isolate (Node k l) n = let '(ins, l', n') := isolates l n in (ins, Node k l', n').
Proof. reflexivity. Qed.
Lemma isolate_same : forall e n, loose e = false -> isolate e n = ([], e, n).
Proof.
  induction e using expr_ind'; cbn [loose]; intros n L; try reflexivity; try discriminate.
  - rewrite isolate_node. assert (E : forall n, isolates l n = ([], l, n)).
    { clear k n. induction H as [|e l He _ IH]; intros n; [reflexivity|]. cbn in L. apply orb_false_iff in L. destruct L as [L1 L2].
      cbn. rewrite He by exact L1. rewrite IH by exact L2. reflexivity. }
    rewrite E. reflexivity.
  - apply orb_false_iff in L. destruct L as [L1 L2]. cbn. rewrite IHe1, IHe2 by assumption. reflexivity.
  - cbn. rewrite IHe by exact L. reflexivity.
  - cbn. rewrite IHe by exact L. reflexivity.
Qed.
Lemma isolates_same : forall l n, existsb loose l = false -> isolates l n = ([], l, n).
Proof.
  induction l as [|e l IH]; intros n L; [reflexivity|]. cbn in L. apply orb_false_iff in L. destruct L as [L1 L2].
  cbn. rewrite isolate_same by exact L1. rewrite IH by exact L2. reflexivity.
Qed.
Lemma isolate_top_same : forall e n, loose_value e = false -> isolate_top e n = ([], e, n).
Proof.
  intros e n L. destruct e; cbn [isolate_top]; try (apply isolate_same; exact L).
  cbn in L. rewrite isolate_same by exact L. reflexivity.
Qed.
Lemma isolate_small_same : forall m n, loose_small m = false -> isolate_small m n = ([], m, n).
Proof.
  intros [ts v|t o v|e|[e|]|t m|e c| | |] n L; cbn [loose_small] in L; cbn [isolate_small]; try reflexivity;
    try (apply orb_false_iff in L; destruct L as [L1 L2]).
  - rewrite isolates_same, isolate_top_same by assumption. reflexivity.
  - rewrite isolate_same, isolate_top_same by assumption. reflexivity.
  - rewrite isolate_top_same by assumption. reflexivity.
  - rewrite isolate_top_same by assumption. reflexivity.
  - rewrite isolate_same by assumption. destruct m; cbn in *; [rewrite isolate_same by assumption|]; reflexivity.
  - rewrite isolate_top_same by assumption. destruct c; cbn in *; [rewrite isolate_same by assumption|]; reflexivity.
Qed.
Lemma isolate_smalls_same : forall l n, forallb (fun m => negb (loose_small m)) l = true -> isolate_smalls l n = ([], l, n).
Proof.
  induction l as [|m l IH]; intros n H; [reflexivity|]. cbn in H. apply andb_true_iff in H. destruct H as [H1 H2].
  apply negb_true_iff in H1. cbn. rewrite isolate_small_same by exact H1. rewrite IH by exact H2. reflexivity.
Qed.

(** *** what is left is isolated *)
(** the moved values, and the temporaries [n .. n'-1] in order *)
Definition good (ins : list (string * expr)) (n n' : nat) : Prop :=
  n <= n' /\ map fst ins = map tmp (seq n (n' - n)) /\ Forall (fun i => loose_value (snd i) = false /\ exists e, snd i = Cand e) ins.
Lemma good_nil : forall n, good [] n n.
Proof. intros n. split; [lia|]. rewrite Nat.sub_diag. split; [reflexivity | constructor]. Qed.
Lemma good_app : forall i j n m k, good i n m -> good j m k -> good (i ++ j) n k.
Proof.
  intros i j n m k (A1 & A2 & A3) (B1 & B2 & B3). split; [lia|]. split.
  - rewrite map_app, A2, B2, <- map_app. f_equal. replace (k - n) with ((m - n) + (k - m)) by lia.
    rewrite seq_app. f_equal. f_equal. lia.
  - apply Forall_app. split; assumption.
Qed.
Lemma isolate_good : forall e n ins e' n', isolate e n = (ins, e', n') -> good ins n n' /\ loose e' = false.
Proof.
  induction e using expr_ind'; intros n ins e' n' E; try (cbn in E; injection E as <- <- <-; split; [apply good_nil | reflexivity]).
  - rewrite isolate_node in E. assert (R : forall n ins l' n', isolates l n = (ins, l', n') -> good ins n n' /\ existsb loose l' = false).
    { clear - H. induction H as [|e l He _ IH]; intros n ins l' n' E; cbn in E; [injection E as <- <- <-; split; [apply good_nil | reflexivity]|].
      destruct (isolate e n) as [[i e1] n1] eqn:E1. destruct (isolates l n1) as [[is l1] n2] eqn:E2. injection E as <- <- <-.
      destruct (He _ _ _ _ E1) as [G1 L1], (IH _ _ _ _ E2) as [G2 L2]. split; [eapply good_app; eassumption|]. cbn. rewrite L1. exact L2. }
    destruct (isolates l n) as [[i l1] n1] eqn:E1. injection E as <- <- <-. apply (R _ _ _ _ E1).
  - cbn in E. destruct (isolate e1 n) as [[i a'] n1] eqn:E1. destruct (isolate e2 n1) as [[j b'] n2] eqn:E2. injection E as <- <- <-.
    destruct (IHe1 _ _ _ _ E1) as [G1 L1], (IHe2 _ _ _ _ E2) as [G2 L2]. split; [eapply good_app; eassumption|]. cbn. rewrite L1. exact L2.
  - cbn in E. destruct (isolate e n) as [[i b'] n1] eqn:E1. injection E as <- <- <-. apply (IHe _ _ _ _ E1).
  - cbn in E. destruct (isolate e n) as [[i b'] n1] eqn:E1. injection E as <- <- <-. apply (IHe _ _ _ _ E1).
  - cbn in E. destruct (isolate e n) as [[i b'] n1] eqn:E1. injection E as <- <- <-. destruct (IHe _ _ _ _ E1) as [G1 L1]. split; [|reflexivity].
    apply good_app with (m := n1); [exact G1|]. split; [lia|]. replace (S n1 - n1) with 1 by lia. split; [reflexivity|].
    constructor; [|constructor]. cbn. split; [exact L1 | eexists; reflexivity].
Qed.
Lemma isolates_good : forall l n ins l' n', isolates l n = (ins, l', n') -> good ins n n' /\ existsb loose l' = false.
Proof.
  induction l as [|e l IH]; intros n ins l' n' E; cbn in E; [injection E as <- <- <-; split; [apply good_nil | reflexivity]|].
  destruct (isolate e n) as [[i e1] n1] eqn:E1. destruct (isolates l n1) as [[is l1] n2] eqn:E2. injection E as <- <- <-.
  destruct (isolate_good _ _ _ _ _ E1) as [G1 L1], (IH _ _ _ _ E2) as [G2 L2]. split; [eapply good_app; eassumption|]. cbn. rewrite L1. exact L2.
Qed.
Lemma loose_value_false : forall e, loose e = false -> loose_value e = false.
Proof. intros [] H; try exact H. discriminate. Qed.
Lemma isolate_top_good : forall e n ins e' n', isolate_top e n = (ins, e', n') -> good ins n n' /\ loose_value e' = false.
Proof.
  intros e n ins e' n' E. destruct e;
    try (cbn [isolate_top] in E; destruct (isolate_good _ _ _ _ _ E) as [G L]; split; [exact G | apply loose_value_false; exact L]).
  cbn in E. destruct (isolate e n) as [[i b'] n1] eqn:E1. injection E as <- <- <-. apply (isolate_good _ _ _ _ _ E1).
Qed.
Lemma isolate_opt_good : forall e n ins e' n', isolate_opt e n = (ins, e', n') -> good ins n n' /\ loose_opt e' = false.
Proof.
  intros [e|] n ins e' n' E; cbn in E; [|injection E as <- <- <-; split; [apply good_nil | reflexivity]].
  destruct (isolate e n) as [[i b'] n1] eqn:E1. injection E as <- <- <-. apply (isolate_good _ _ _ _ _ E1).
Qed.
Lemma isolate_small_good : forall m n ins m' n', isolate_small m n = (ins, m', n') -> good ins n n' /\ loose_small m' = false.
Proof.
  intros [ts v|t o v|e|[e|]|t m|e c| | |] n ins m' n' E; cbn [isolate_small] in E; try (injection E as <- <- <-; split; [apply good_nil | reflexivity]).
  - destruct (isolates ts n) as [[i a] n1] eqn:E1. destruct (isolate_top v n1) as [[j b] n2] eqn:E2. injection E as <- <- <-.
    destruct (isolates_good _ _ _ _ _ E1) as [G1 L1], (isolate_top_good _ _ _ _ _ E2) as [G2 L2]. split; [eapply good_app; eassumption|]. cbn. rewrite L1. exact L2.
  - destruct (isolate t n) as [[i a] n1] eqn:E1. destruct (isolate_top v n1) as [[j b] n2] eqn:E2. injection E as <- <- <-.
    destruct (isolate_good _ _ _ _ _ E1) as [G1 L1], (isolate_top_good _ _ _ _ _ E2) as [G2 L2]. split; [eapply good_app; eassumption|]. cbn. rewrite L1. exact L2.
  - destruct (isolate_top e n) as [[i a] n1] eqn:E1. injection E as <- <- <-. apply (isolate_top_good _ _ _ _ _ E1).
  - destruct (isolate_top e n) as [[i a] n1] eqn:E1. injection E as <- <- <-. apply (isolate_top_good _ _ _ _ _ E1).
  - destruct (isolate t n) as [[i a] n1] eqn:E1. destruct (isolate_opt m n1) as [[j b] n2] eqn:E2. injection E as <- <- <-.
    destruct (isolate_good _ _ _ _ _ E1) as [G1 L1], (isolate_opt_good _ _ _ _ _ E2) as [G2 L2]. split; [eapply good_app; eassumption|]. cbn. rewrite L1. exact L2.
  - destruct (isolate_top e n) as [[i a] n1] eqn:E1. destruct (isolate_opt c n1) as [[j b] n2] eqn:E2. injection E as <- <- <-.
    destruct (isolate_top_good _ _ _ _ _ E1) as [G1 L1], (isolate_opt_good _ _ _ _ _ E2) as [G2 L2]. split; [eapply good_app; eassumption|]. cbn. rewrite L1. exact L2.
Qed.
Lemma isolate_smalls_good : forall l n ins l' n', isolate_smalls l n = (ins, l', n') -> good ins n n' /\ forallb (fun m => negb (loose_small m)) l' = true.
Proof.
  induction l as [|e l IH]; intros n ins l' n' E; cbn in E; [injection E as <- <- <-; split; [apply good_nil | reflexivity]|].
  destruct (isolate_small e n) as [[i e1] n1] eqn:E1. destruct (isolate_smalls l n1) as [[is l1] n2] eqn:E2. injection E as <- <- <-.
  destruct (isolate_small_good _ _ _ _ _ E1) as [G1 L1], (IH _ _ _ _ E2) as [G2 L2]. split; [eapply good_app; eassumption|]. cbn. rewrite L1. exact L2.
Qed.

Fixpoint block (l : list stmt) (n : nat) : list stmt * nat :=
  match l with [] => ([], n) | p :: l' => let '(q, n) := isolate_stmt p n in let '(r, n) := block l' n in (q ++ r, n) end.
Lemma block_eq : forall l n, isolate_block l n = block l n.
Proof. induction l as [|p l IH]; intros n; cbn; [reflexivity|]. destruct (isolate_stmt p n) as [q n1]. rewrite IH. reflexivity. Qed.
Lemma isolate_if : forall t b o n, isolate_stmt (If t b o) n
  = let '(b', n) := block b (counted t n) in let '(o', n) := block o n in ([If t b' o'], n).
Proof. reflexivity. Qed.
Lemma isolate_while : forall t b n, isolate_stmt (While t b) n = let '(b', n) := block b (counted t n) in ([While t b'], n).
Proof. reflexivity. Qed.
Lemma isolate_for : forall t it b n, isolate_stmt (For t it b) n = let '(b', n) := block b (counted it (counted t n)) in ([For t it b'], n).
Proof. reflexivity. Qed.
Lemma counted_le : forall e n, n <= counted e n.
Proof. intros e n. unfold counted. destruct (isolate e n) as [[i e'] n'] eqn:E. destruct (isolate_good _ _ _ _ _ E) as [[G _] _]. exact G. Qed.

Lemma isolated_insertions : forall ins n n', good ins n n' -> forallb isolated (map insertion ins) = true.
Proof.
  intros ins n n' (_ & _ & F). induction F as [|i l [H _] _ IH]; [reflexivity|]. cbn. rewrite IH, H. reflexivity.
Qed.
Lemma isolate_stmt_isolated : forall p n, forallb isolated (fst (isolate_stmt p n)) = true.
Proof.
  assert (R : forall l, Forall (fun p => forall n, forallb isolated (fst (isolate_stmt p n)) = true) l -> forall n, forallb isolated (fst (block l n)) = true).
  { induction 1 as [|p l Hp _ IH]; intros n; [reflexivity|]. cbn. specialize (Hp n). destruct (isolate_stmt p n) as [q n1].
    specialize (IH n1). destruct (block l n1) as [r n2]. cbn in *. rewrite forallb_app, Hp, IH. reflexivity. }
  induction p using stmt_ind'; intros n.
  - cbn. destruct (isolate_smalls l n) as [[ins l'] n'] eqn:E. destruct (isolate_smalls_good _ _ _ _ _ E) as [G L]. cbn [fst].
    rewrite forallb_app, (isolated_insertions _ _ _ G). cbn. rewrite L. reflexivity.
  - reflexivity.
  - rewrite isolate_if. pose proof (R b H (counted t n)) as R1. destruct (block b (counted t n)) as [b' n1].
    pose proof (R o H0 n1) as R2. destruct (block o n1) as [o' n2]. cbn in *. rewrite R1, R2. reflexivity.
  - rewrite isolate_while. pose proof (R b H (counted t n)) as R1. destruct (block b (counted t n)) as [b' n1]. cbn in *. rewrite R1. reflexivity.
  - rewrite isolate_for. pose proof (R b H (counted it (counted t n))) as R1. destruct (block b (counted it (counted t n))) as [b' n1]. cbn in *. rewrite R1. reflexivity.
Qed.
Lemma isolate_all_isolated : forall l, forallb isolated (isolate_all l) = true.
Proof.
  intros l. unfold isolate_all. generalize 1. induction l as [|p l IH]; intros n; [reflexivity|].
  cbn. pose proof (isolate_stmt_isolated p n) as Hp. destruct (isolate_stmt p n) as [q n1].
  specialize (IH n1). destruct (isolate_block l n1) as [r n2]. cbn in *. rewrite forallb_app, Hp, IH. reflexivity.
Qed.
