(** Proofs about the removal of quantizer artifacts. *)
From Coq Require Import List Arith Bool Lia.
From Verif Require Import Prelude ClnModel ClnSpec.
Import ListNotations.

(** ** Membership *)

Lemma path_eqb_eq : forall p q, path_eqb p q = true <-> p = q.
Proof. intros p q. apply list_eqb_eq. intros. apply Nat.eqb_eq. Qed.
Lemma mem_path_In : forall p l, mem_path p l = true <-> In p l.
Proof.
  intros p l. unfold mem_path. rewrite existsb_exists. split.
  - intros (x & I & E). apply path_eqb_eq in E. subst. exact I.
  - intro I. exists p. split; [exact I|]. apply path_eqb_eq. reflexivity.
Qed.
Lemma mem_nat_In : forall a l, mem_nat a l = true <-> In a l.
Proof.
  intros p l. unfold mem_nat. rewrite existsb_exists. split.
  - intros (x & I & E). apply Nat.eqb_eq in E. subst. exact I.
  - intro I. exists p. split; [exact I|]. apply Nat.eqb_eq. reflexivity.
Qed.
Lemma is_prefix_inside : forall p q, is_prefix p q = true <-> inside p q.
Proof.
  induction p as [|a p IH]; intros q; cbn.
  - split; auto. intros _. exists q. reflexivity.
  - destruct q as [|b q].
    + split; [discriminate|]. intros (r & E). discriminate.
    + rewrite andb_true_iff, Nat.eqb_eq, IH. split.
      * intros (-> & r & ->). exists r. reflexivity.
      * intros (r & E). inversion E; subst. split; auto. exists r. reflexivity.
Qed.
Lemma is_prefix_of_eq : forall p q, is_prefix_of p q = is_prefix p q.
Proof. induction p as [|a p IH]; destruct q as [|b q]; cbn; auto; rewrite IH; reflexivity. Qed.
Lemma inside_refl : forall p, inside p p.
Proof. intro p. exists []. rewrite app_nil_r. reflexivity. Qed.
Lemma inside_trans : forall p q r, inside p q -> inside q r -> inside p r.
Proof. intros p q r (a & ->) (b & ->). exists (a ++ b). rewrite app_assoc. reflexivity. Qed.
Lemma firstn_inside : forall p i, inside (firstn i p) p.
Proof. intros p i. exists (skipn i p). symmetry. apply firstn_skipn. Qed.

Lemma prefixes_full : forall p q, In q (module_path_prefixes p true) <-> q <> [] /\ inside q p.
Proof.
  intros p q. unfold module_path_prefixes. rewrite in_map_iff. split.
  - intros (i & <- & I). apply in_seq in I. split; [|apply firstn_inside].
    destruct p; cbn in *; [lia|]. destruct i; [lia|]. cbn. discriminate.
  - intros (N & r & ->). exists (length q). split.
    + rewrite firstn_app, Nat.sub_diag, firstn_all. cbn. apply app_nil_r.
    + apply in_seq. rewrite app_length. destruct q; [congruence|]. cbn. lia.
Qed.
Lemma prefixes_strict : forall p q, In q (module_path_prefixes p false) <-> q <> [] /\ q <> p /\ inside q p.
Proof.
  intros p q. unfold module_path_prefixes. rewrite in_map_iff. split.
  - intros (i & <- & I). apply in_seq in I. split; [|split; [|apply firstn_inside]].
    + destruct p; cbn in *; [lia|]. destruct i; [lia|]. cbn. discriminate.
    + intro E. apply (f_equal (@length nat)) in E. rewrite firstn_length in E. lia.
  - intros (N & N' & r & ->). exists (length q). split.
    + rewrite firstn_app, Nat.sub_diag, firstn_all. cbn. apply app_nil_r.
    + apply in_seq. rewrite app_length.
      assert (r <> []) by (intros ->; rewrite app_nil_r in N'; congruence).
      destruct q; [congruence|]. destruct r; [congruence|]. cbn. lia.
Qed.

(** ** Order *)

Lemma is_impure_effectful : forall w n, is_impure w n = true <-> effectful w n.
Proof. intros w n. unfold is_impure, effectful. destruct (nop n); split; auto; try discriminate; intros []. Qed.

Lemma lint_order_spec : forall g seen, lint_order seen g = true <-> in_order seen g.
Proof.
  induction g as [|n g IH]; intros seen; cbn; [tauto|].
  rewrite !andb_true_iff, IH, negb_true_iff, forallb_forall. split.
  - intros ((A & B) & C). split; [|split; auto].
    + intros a I. apply mem_nat_In, A, I.
    + intro I. apply mem_nat_In in I. congruence.
  - intros (A & B & C). split; [split|]; auto.
    + intros a I. apply mem_nat_In, A, I.
    + destruct (mem_nat (nname n) seen) eqn:E; auto. apply mem_nat_In in E. contradiction.
Qed.

Lemma in_order_app : forall g1 g2 seen, in_order seen (g1 ++ g2) -> in_order (rev (map nname g1) ++ seen) g2.
Proof.
  induction g1 as [|n g1 IH]; intros g2 seen H; cbn in *; auto.
  destruct H as (_ & _ & H). apply IH in H. rewrite <- app_assoc. exact H.
Qed.
Lemma in_order_app_l : forall g1 g2 seen, in_order seen (g1 ++ g2) -> in_order seen g1.
Proof. induction g1 as [|n g1 IH]; intros g2 seen H; cbn in *; auto. intuition eauto. Qed.
Lemma in_order_args : forall g seen n, in_order seen g -> In n g ->
  forall a, In a (nargs n) -> In a seen \/ exists n', In n' g /\ nname n' = a.
Proof.
  induction g as [|x g IH]; intros seen n H I a J; [destruct I|]. destruct H as (A & _ & C).
  destruct I as [<-|I]; [left; auto|].
  destruct (IH _ _ C I a J) as [[<-|S]|(n' & I' & E)]; auto.
  - right. exists x. split; [left|]; reflexivity.
  - right. exists n'. split; [right; exact I'|exact E].
Qed.
Lemma in_order_fresh : forall g seen n, in_order seen g -> In n g -> ~ In (nname n) seen.
Proof.
  induction g as [|x g IH]; intros seen n H I; [destruct I|]. destruct H as (A & B & C).
  destruct I as [<-|I]; auto. specialize (IH _ _ C I). cbn in IH. tauto.
Qed.
Lemma in_order_unique : forall g seen n n', in_order seen g -> In n g -> In n' g -> nname n = nname n' -> n = n'.
Proof.
  induction g as [|x g IH]; intros seen n n' H I I' E; [destruct I|]. destruct H as (A & B & C).
  destruct I as [<-|I], I' as [<-|I']; auto.
  - exfalso. apply (in_order_fresh _ _ _ C I'). left. exact E.
  - exfalso. apply (in_order_fresh _ _ _ C I). left. symmetry. exact E.
  - eapply IH; eauto.
Qed.

(** Nodes before a node do not use it. *)
Lemma not_used_before : forall pre n post m, in_order [] (pre ++ n :: post) -> In m (pre ++ [n]) ->
  ~ In (nname n) (nargs m).
Proof.
  intros pre n post m H I J.
  assert (Hn : in_order (rev (map nname pre)) (n :: post)).
  { apply in_order_app in H. rewrite app_nil_r in H. exact H. }
  destruct Hn as (A & B & _).
  apply in_app_iff in I as [I|[<-|[]]].
  - apply in_order_app_l in H. destruct (in_order_args _ _ _ H I _ J) as [[]|(n' & I' & E)].
    apply B. rewrite <- in_rev, <- E. apply in_map. exact I'.
  - apply B, A, J.
Qed.

Lemma filter_in_order : forall (f : node -> bool) g seen seen', in_order seen g ->
  (forall a, In a seen' -> In a seen) ->
  (forall n a, In n g -> f n = true -> In a (nargs n) -> In a seen -> In a seen') ->
  (forall n n', In n g -> In n' g -> f n = true -> In (nname n') (nargs n) -> f n' = true) ->
  in_order seen' (filter f g).
Proof.
  intros f. induction g as [|x g IH]; intros seen seen' H S D K; cbn; auto.
  destruct H as (A & B & C). destruct (f x) eqn:F.
  - cbn. split; [|split].
    + intros a I. apply (D x a); cbn; auto.
    + intro I. apply B, S, I.
    + apply IH with (seen := nname x :: seen); auto.
      * intros a [<-|I]; [left|right]; auto.
      * intros n a I Fn J [<-|Q]; [left; reflexivity|right]. apply (D n a); cbn; auto.
      * intros n n' I I' Fn J. apply (K n n'); cbn; auto.
  - apply IH with (seen := nname x :: seen); auto.
    + intros a I. right. apply S, I.
    + intros n a I Fn J [<-|Q].
      * rewrite (K n x) in F; cbn; auto. discriminate.
      * apply (D n a); cbn; auto.
    + intros n n' I I' Fn J. apply (K n n'); cbn; auto.
Qed.

(** ** Dead code *)

Definition is_node_eqb (n : node) (l : graph) : bool := mem_nat (nname n) (map nname l).

Lemma users_empty : forall g n, (length (users g n) =? 0) = true <-> forall m, In m g -> ~ In (nname n) (nargs m).
Proof.
  intros g n. rewrite Nat.eqb_eq. unfold users. split.
  - intros E m I J. assert (X : In m (filter (fun m => mem_nat (nname n) (nargs m)) g)).
    { apply filter_In. split; auto. apply mem_nat_In. exact J. }
    destruct (filter _ g); [destruct X|discriminate].
  - intros H. destruct (filter _ g) as [|m l] eqn:E; auto.
    assert (X : In m (filter (fun m => mem_nat (nname n) (nargs m)) g)) by (rewrite E; left; reflexivity).
    apply filter_In in X as (I & J). apply mem_nat_In in J. destruct (H _ I J).
Qed.

Lemma needed_In : forall w g n, needed w g n -> In n g.
Proof. intros w g n []; auto. Qed.

Lemma dead_code_spec : forall w g, in_order [] g -> forall pre post kept,
  g = pre ++ post ->
  (forall n, In n kept <-> In n post /\ needed w g n) ->
  (exists f, kept = filter f post) ->
  (forall n, In n (dead_code w (rev pre) kept) <-> In n g /\ needed w g n)
  /\ exists f, dead_code w (rev pre) kept = filter f g.
Proof.
  intros w g W. induction pre as [|n pre IH] using rev_ind; intros post kept E K F.
  - cbn. cbn in E. subst post. split; auto.
  - rewrite rev_app_distr. cbn [rev app dead_code]. rewrite rev_involutive.
    rewrite <- app_assoc in E. cbn in E.
    assert (Ig : In n g) by (rewrite E; apply in_app_iff; right; left; reflexivity).
    destruct (negb (is_impure w n) && (length (users (pre ++ n :: kept) n) =? 0)) eqn:D.
    + apply andb_true_iff in D as (D1 & D2). apply negb_true_iff in D1. rewrite users_empty in D2.
      assert (NN : ~ needed w g n).
      { intro Hn. inversion Hn as [n0 I0 EF|n0 m I0 NM J]; subst n0.
        - apply is_impure_effectful in EF. congruence.
        - assert (Im : In m g) by (eapply needed_In; eauto).
          rewrite E in Im. apply in_app_iff in Im. destruct Im as [Im|[<-|Im]].
          + apply (D2 m); auto. apply in_app_iff. left. exact Im.
          + apply (D2 n); auto. apply in_app_iff. right. left. reflexivity.
          + apply (D2 m); auto. apply in_app_iff. right. right. apply K. split; auto. }
      apply (IH (n :: post) kept); auto.
      * intro x. rewrite K. split; [intros (A & B); split; [right; exact A|exact B]|].
        intros ([<-|A] & B); [contradiction|split; auto].
      * destruct F as (f & F).
        exists (fun x => negb (nname x =? nname n) && f x). cbn. rewrite Nat.eqb_refl. cbn. rewrite F.
        apply filter_ext_in. intros x Ix.
        destruct (nname x =? nname n) eqn:Q; auto. exfalso. apply Nat.eqb_eq in Q.
        assert (Hx : x = n).
        { apply (in_order_unique g [] x n W); auto. rewrite E. apply in_app_iff. right. right. exact Ix. }
        subst x. rewrite E in W. apply in_order_app in W. destruct W as (_ & _ & W).
        apply (in_order_fresh _ _ _ W Ix). left. reflexivity.
    + assert (NN : needed w g n).
      { apply andb_false_iff in D as [D|D].
        - apply negb_false_iff in D. apply needed_effect; auto. apply is_impure_effectful. exact D.
        - destruct (users (pre ++ n :: kept) n) as [|m l] eqn:U; [discriminate|].
          assert (X : In m (users (pre ++ n :: kept) n)) by (rewrite U; left; reflexivity).
          unfold users in X. apply filter_In in X as (I & J). apply mem_nat_In in J.
          apply in_app_iff in I. rewrite E in W. destruct I as [I|[<-|I]].
          + exfalso. apply (not_used_before pre n post m W); auto. apply in_app_iff. left. exact I.
          + exfalso. apply (not_used_before pre n post n W); auto. apply in_app_iff. right. left. reflexivity.
          + apply K in I as (_ & I). apply needed_arg with m; auto. }
      apply (IH (n :: post) (n :: kept)); auto.
      * intro x. cbn. rewrite K. split.
        -- intros [<-|(A & B)]; auto.
        -- intros ([<-|A] & B); auto.
      * destruct F as (f & F).
        exists (fun x => (nname x =? nname n) || f x). cbn. rewrite Nat.eqb_refl. cbn. rewrite F. f_equal.
        apply filter_ext_in. intros x Ix.
        destruct (nname x =? nname n) eqn:Q; auto. exfalso. apply Nat.eqb_eq in Q.
        assert (Hx : x = n).
        { apply (in_order_unique g [] x n W); auto. rewrite E. apply in_app_iff. right. right. exact Ix. }
        subst x. rewrite E in W. apply in_order_app in W. destruct W as (_ & _ & W).
        apply (in_order_fresh _ _ _ W Ix). left. reflexivity.
Qed.

Lemma dead_code_filter : forall w g, in_order [] g ->
  exists f, dead_code w (rev g) [] = filter f g /\ forall n, In n g -> (f n = true <-> needed w g n).
Proof.
  intros w g W. destruct (dead_code_spec w g W g [] []) as (A & f & B).
  - symmetry. apply app_nil_r.
  - intro n. cbn. tauto.
  - exists (fun _ => true). reflexivity.
  - exists f. split; auto. intros n I. rewrite B in A. specialize (A n). rewrite filter_In in A. tauto.
Qed.

(** ** Pruning *)

Lemma erase_all : forall l g, fold_left erase_node l g = filter (fun n => negb (is_node_eqb n l)) g.
Proof.
  induction l as [|x l IH]; intros g; cbn [fold_left].
  - unfold is_node_eqb. cbn. clear. induction g as [|n g IHg]; cbn; congruence.
  - rewrite IH. unfold erase_node. clear IH. induction g as [|n g IHg]; auto.
    cbn [filter]. unfold is_node_eqb in *. cbn [map mem_nat existsb].
    destruct (nname n =? nname x); cbn; auto.
    unfold mem_nat in *. destruct (existsb (Nat.eqb (nname n)) (map nname l)); cbn; rewrite IHg; auto.
Qed.

Lemma needed_filter : forall w g f, (forall n, needed w g n -> f n = true) ->
  forall n, needed w (filter f g) n <-> needed w g n.
Proof.
  intros w g f F n. split; intro H.
  - induction H as [n I E|n m I _ IH J].
    + apply filter_In in I as (I & _). apply needed_effect; auto.
    + apply filter_In in I as (I & _). apply needed_arg with m; auto.
  - induction H as [n I E|n m I H IH J].
    + apply needed_effect; auto. apply filter_In. split; auto. apply F, needed_effect; auto.
    + apply needed_arg with m; auto. apply filter_In. split; auto. apply F. apply needed_arg with m; auto.
Qed.

Lemma pruned_graph : forall w g, in_order [] g ->
  exists f, fold_left erase_node (nodes_to_remove g) g = filter f g
  /\ (forall n, needed w g n -> f n = true) /\ in_order [] (filter f g).
Proof.
  intros w g W. rewrite erase_all. eexists. split; [reflexivity|].
  assert (R : forall n, In n g -> is_node_eqb n (nodes_to_remove g) = true ->
              is_get_attr n = true /\ forall m, In m g -> ~ In (nname n) (nargs m)).
  { intros n I H. unfold is_node_eqb in H. apply mem_nat_In in H. apply in_map_iff in H as (x & E & Ix).
    unfold nodes_to_remove in Ix. apply filter_In in Ix as (Ix & Q). apply andb_true_iff in Q as (Q1 & Q2).
    assert (x = n) by (eapply in_order_unique; eauto). subst x. split; auto. apply users_empty. exact Q2. }
  split.
  - intros n H. destruct (is_node_eqb n (nodes_to_remove g)) eqn:E; auto. exfalso.
    destruct (R n (needed_In _ _ _ H) E) as (G & U). inversion H as [n0 I EF|n0 m I NM J]; subst n0.
    + unfold is_get_attr, effectful in *. destruct (nop n); auto; discriminate.
    + apply (U m); auto. eapply needed_In; eauto.
  - apply filter_in_order with (seen := []); auto.
    intros n n' I I' F J. destruct (is_node_eqb n' (nodes_to_remove g)) eqn:E; auto. exfalso.
    destruct (R n' I' E) as (_ & U). apply (U n); auto.
Qed.

(** ** Lint *)

Lemma is_module_In : forall l p, p <> [] -> (is_module l p = true <-> In p l).
Proof. intros l p N. destruct p; [congruence|]. apply mem_path_In. Qed.

Definition targets_exist (m : gmodule) (g : graph) : Prop := forall n, In n g ->
  match nop n with
  | CallModule p => In p (gm_modules m)
  | GetAttr p => In p (gm_modules m) \/ In p (gm_attrs m)
  | _ => True
  end.

Lemma valid_lint : forall m, valid m -> lint m = true.
Proof.
  intros m ((T1 & T2 & T3 & T4) & O & X). unfold lint. apply andb_true_iff. split.
  - apply lint_order_spec. exact O.
  - apply forallb_forall. intros n I. specialize (X n I). unfold lint_target. destruct (nop n); auto.
    + apply andb_true_iff. split.
      * apply forallb_forall. intros q J. apply prefixes_strict in J as (N & N' & J).
        apply is_module_In; auto. destruct X as [X|X]; eauto.
      * apply orb_true_iff. destruct X as [X|X].
        -- left. apply is_module_In; auto. intros ->. contradiction.
        -- right. apply mem_path_In. exact X.
    + apply forallb_forall. intros q J. apply prefixes_full in J as (N & J). apply is_module_In; auto. eauto.
Qed.

Lemma lint_valid : forall m, is_tree m -> in_order [] (gm_graph m) -> targets_exist m (gm_graph m) -> lint m = true.
Proof. intros. apply valid_lint. split; [|split]; auto. Qed.

(** ** Deleting submodules *)

Lemma delete_all : forall l mods q, In q (fold_left delete_submodule l mods) <-> In q mods /\ forall p, In p l -> ~ inside p q.
Proof.
  induction l as [|x l IH]; intros mods q; cbn [fold_left].
  - split; [intro H; split; auto; intros p []|tauto].
  - rewrite IH. unfold delete_submodule. rewrite filter_In, negb_true_iff. split.
    + intros ((I & N) & F). split; auto. intros p [<-|J] K; [|apply (F p J K)].
      apply is_prefix_inside in K. congruence.
    + intros (I & F). split; [split; auto|].
      * destruct (is_prefix x q) eqn:E; auto. apply is_prefix_inside in E. destruct (F x); auto. left. reflexivity.
      * intros p J. apply F. right. exact J.
Qed.

Definition used (m : gmodule) (q : path) : Prop := In q (used_submodules m).

Lemma used_spec : forall m q, used m q <-> exists n, In n (gm_graph m) /\
  match nop n with
  | CallModule p => (q <> [] /\ inside q p) \/ (inside p q /\ In q (gm_modules m))
  | GetAttr p => q <> [] /\ inside q p
  | _ => False
  end.
Proof.
  intros m q. unfold used, used_submodules. rewrite in_flat_map. split.
  - intros (n & I & J). exists n. split; auto. destruct (nop n); auto.
    + apply prefixes_full in J. exact J.
    + apply in_app_iff in J as [J|J]; [left; apply prefixes_full; exact J|right].
      apply filter_In in J as (J & K). apply is_prefix_inside in K. auto.
  - intros (n & I & J). exists n. split; auto. destruct (nop n); auto.
    + apply prefixes_full. exact J.
    + apply in_app_iff. destruct J as [J|(J & K)]; [left; apply prefixes_full; exact J|right].
      apply filter_In. split; auto. apply is_prefix_inside. exact J.
Qed.

Lemma used_up : forall m p q, is_tree m -> p <> [] -> inside p q -> used m q -> used m p.
Proof.
  intros m p q (T1 & _ & T3 & _) N H U. rewrite used_spec in *. destruct U as (n & I & U). exists n. split; auto.
  destruct (nop n) as [|t|t|f|]; auto.
  - destruct U as (_ & U). split; auto. eapply inside_trans; eauto.
  - destruct U as [(_ & U)|(U & K)].
    + left. split; auto. eapply inside_trans; eauto.
    + destruct H as (r & ->). destruct U as (r' & E).
      assert (C : inside p t \/ inside t p).
      { clear -E. revert t E. induction p as [|a p IH]; intros t E; [left; exists t; reflexivity|].
        destruct t as [|b t]; [right; exists (a :: p); reflexivity|]. cbn in E. inversion E; subst.
        destruct (IH t H1) as [(x & ->)|(x & ->)]; [left|right]; exists x; reflexivity. }
      destruct C as [C|C]; [left; auto|right]. split; auto. apply (T1 p (p ++ r)); auto. exists r. reflexivity.
Qed.

Definition deleted (m : gmodule) := delete_all_unused_submodules m.

Lemma deleted_modules : forall m q, is_tree m ->
  (In q (gm_modules (deleted m)) <-> In q (gm_modules m) /\ used m q).
Proof.
  intros m q T. unfold deleted, delete_all_unused_submodules. cbn. rewrite delete_all. split.
  - intros (I & F). split; auto. destruct (mem_path q (used_submodules m)) eqn:E; [apply mem_path_In; exact E|].
    exfalso. apply (F q); [|apply inside_refl]. apply filter_In. rewrite E. auto.
  - intros (I & U). split; auto. intros p J K. apply filter_In in J as (J & E). apply negb_true_iff in E.
    assert (used m p).
    { eapply used_up; eauto. intros ->. destruct T as (_ & _ & T & _). contradiction. }
    apply mem_path_In in H. congruence.
Qed.

(** Parameters stay if their module is kept. *)
Lemma deleted_attrs : forall m q, is_tree m ->
  (In q (gm_attrs (deleted m)) <-> In q (gm_attrs m) /\ forall p, In p (gm_modules m) -> inside p q -> used m p).
Proof.
  intros m q T. unfold deleted, delete_all_unused_submodules. cbn. rewrite delete_all. split.
  - intros (I & F). split; auto. intros p Ip K.
    destruct (mem_path p (used_submodules m)) eqn:E; [apply mem_path_In; exact E|].
    exfalso. apply (F p); auto. apply filter_In. rewrite E. auto.
  - intros (I & U). split; auto. intros p J K. apply filter_In in J as (J & E). apply negb_true_iff in E.
    specialize (U p J K). apply mem_path_In in U. congruence.
Qed.

Lemma deleted_tree : forall m, is_tree m -> is_tree (deleted m).
Proof.
  intros m T. pose proof T as (T1 & T2 & T3 & T4). split; [|split; [|split]].
  - intros p q N H I. rewrite deleted_modules in *; auto. destruct I as (I & U). split; eauto.
    eapply used_up; eauto.
  - intros p q N N' H I. rewrite deleted_modules; auto. rewrite deleted_attrs in I; auto. destruct I as (I & U).
    split; eauto.
  - rewrite deleted_modules; tauto.
  - intros p I. rewrite deleted_attrs in I; auto. rewrite deleted_modules; auto. destruct I as (I & U).
    destruct (T4 p I). split; tauto.
Qed.

Lemma deleted_targets : forall m, is_tree m -> targets_exist m (gm_graph m) ->
  targets_exist (deleted m) (gm_graph (deleted m)).
Proof.
  intros m T X n I. cbn in I. specialize (X n I). pose proof T as (T1 & T2 & T3 & T4).
  destruct (nop n) as [|p|p|f|] eqn:O; auto.
  - assert (Up : forall q, q <> [] -> inside q p -> used m q).
    { intros q N H. apply used_spec. exists n. rewrite O. auto. }
    destruct X as [X|X].
    + left. rewrite deleted_modules; auto. split; auto. apply Up; [|apply inside_refl]. intros ->. contradiction.
    + right. rewrite deleted_attrs; auto. split; auto. intros q Iq H. apply Up; auto. intros ->. contradiction.
  - rewrite deleted_modules; auto. split; auto. apply used_spec. exists n. rewrite O. split; auto. left.
    split; [|apply inside_refl]. intros ->. contradiction.
Qed.
