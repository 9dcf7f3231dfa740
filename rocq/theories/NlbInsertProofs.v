(** Inserting statements before their first use. *)
From Coq Require Import List Arith Bool Lia Permutation Sorted.
From Verif Require Import Prelude NlbModel NlbSpec NlbScopeProofs.
Import ListNotations.

Lemma mem_iff : forall x l, mem x l = true <-> In x l.
Proof.
  intros x l. unfold mem. rewrite existsb_exists. split.
  - intros (y & H & E). apply Nat.eqb_eq in E. subst. exact H.
  - intros H. exists x. split; [exact H|apply Nat.eqb_refl].
Qed.

Section I.
Variable A : Type.
Variable load : A -> list nat.

Lemma first_use_some : forall body t j, first_use load body t = Some j ->
  exists s, nth_error body j = Some s /\ In t (load s)
    /\ (forall k s', k < j -> nth_error body k = Some s' -> ~ In t (load s')).
Proof.
  induction body as [|s r IH]; intros t j; cbn; [discriminate|].
  destruct (mem t (load s)) eqn:E.
  - intros K. injection K as <-. exists s. split; [reflexivity|]. split; [apply mem_iff; exact E|].
    intros k s' Hk. lia.
  - destruct (first_use load r t) as [j'|] eqn:F; [|discriminate]. intros K. injection K as <-.
    destruct (IH t j' F) as (x & H1 & H2 & H3). exists x. split; [exact H1|]. split; [exact H2|].
    intros [|k] s' Hk Hn.
    + cbn in Hn. injection Hn as <-. intros Hin. apply mem_iff in Hin. congruence.
    + cbn in Hn. apply (H3 k); auto. lia.
Qed.

Lemma first_use_none : forall body t, first_use load body t = None ->
  forall s, In s body -> ~ In t (load s).
Proof.
  induction body as [|s r IH]; intros t; cbn; [intros _ s []|].
  destruct (mem t (load s)) eqn:E; [discriminate|].
  destruct (first_use load r t) eqn:F; [discriminate|]. intros _ s' [<-|H].
  - intros Hin. apply mem_iff in Hin. congruence.
  - apply IH; auto.
Qed.

Lemma first_use_lt : forall body t j, first_use load body t = Some j -> j < length body.
Proof.
  intros body t j H. destruct (first_use_some _ _ _ H) as (s & H1 & _).
  apply nth_error_Some. congruence.
Qed.

Lemma insert_index_goes : forall doc body t,
  goes_to load doc body t (insert_index load (if doc then 1 else 0) body t).
Proof.
  intros doc body t. unfold insert_index. destruct (first_use load body t) as [j|] eqn:E.
  - right. destruct (first_use_some _ _ _ E) as (s & H1 & H2 & H3). exists j, s.
    split; [exact H1|]. split; [exact H2|]. split; [exact H3|]. destruct doc; lia.
  - left. split; [apply first_use_none; exact E|reflexivity].
Qed.

Lemma insert_index_le : forall off body t, off <= 1 -> body <> [] ->
  insert_index load off body t <= length body.
Proof.
  intros off body t Ho Hb. unfold insert_index. destruct (first_use load body t) as [j|] eqn:E; [|lia].
  apply first_use_lt in E. lia.
Qed.

(** Sorting. *)
Notation keyed := (list (nat * A)).
Definition kle (a b : nat * A) : Prop := fst a <= fst b.
Definition kleb (a b : nat * A) : bool := fst a <=? fst b.

Lemma insert_by_in : forall x l y, In y (insert_by kleb x l) <-> y = x \/ In y l.
Proof.
  intros x. induction l as [|z l IH]; intros y; cbn.
  - split; [intros [H|[]]; auto|intros [H|[]]; auto].
  - destruct (kleb x z); cbn.
    + split; intros H; [destruct H as [H|[H|H]]; auto|destruct H as [H|[H|H]]; auto].
    + rewrite IH. tauto.
Qed.

Lemma insert_by_sorted : forall x l, StronglySorted kle l -> StronglySorted kle (insert_by kleb x l).
Proof.
  intros x. induction l as [|z l IH]; intros H; cbn.
  - repeat constructor.
  - inversion H as [|? ? H1 H2]; subst. destruct (kleb x z) eqn:E.
    + apply Nat.leb_le in E. constructor; [exact H|]. constructor; [exact E|].
      rewrite Forall_forall in *. intros y Hy. specialize (H2 y Hy). unfold kle in *. lia.
    + apply Nat.leb_gt in E. constructor; [auto|]. rewrite Forall_forall in *. intros y Hy.
      apply insert_by_in in Hy. destruct Hy as [->|Hy]; [unfold kle; lia|auto].
Qed.

Lemma sort_sorted : forall l : keyed, StronglySorted kle (sort_by kleb l).
Proof. induction l as [|x l IH]; cbn; [constructor|]. apply insert_by_sorted. exact IH. Qed.

Lemma sort_in : forall (l : keyed) y, In y (sort_by kleb l) <-> In y l.
Proof.
  induction l as [|x l IH]; intros y; cbn; [tauto|]. rewrite insert_by_in, IH. intuition.
Qed.

Lemma insert_by_filter : forall x l i,
  filter (fun p => fst p =? i) (insert_by kleb x l)
  = filter (fun p : nat * A => fst p =? i) (x :: l).
Proof.
  intros x. induction l as [|z l IH]; intros i; [reflexivity|]. cbn [insert_by].
  destruct (kleb x z) eqn:E; [reflexivity|]. apply Nat.leb_gt in E.
  cbn [filter]. rewrite IH. cbn [filter].
  destruct (fst x =? i) eqn:Ex; destruct (fst z =? i) eqn:Ez; try reflexivity.
  apply Nat.eqb_eq in Ex, Ez. lia.
Qed.

Lemma sort_filter : forall (l : keyed) i,
  filter (fun p => fst p =? i) (sort_by kleb l) = filter (fun p => fst p =? i) l.
Proof.
  induction l as [|x l IH]; intros i; [reflexivity|]. cbn [sort_by]. rewrite insert_by_filter.
  cbn [filter]. rewrite IH. reflexivity.
Qed.

Lemma take_due_eq : forall i (l : keyed), StronglySorted kle l -> (forall p, In p l -> i <= fst p) ->
  take_due i l = (map snd (filter (fun p => fst p =? i) l), filter (fun p => negb (fst p =? i)) l).
Proof.
  intros i. induction l as [|[k s] l IH]; intros H Hl; [reflexivity|].
  inversion H as [|? ? H1 H2]; subst. cbn [take_due filter fst].
  assert (Hk : i <= k) by (apply (Hl (k, s)); left; reflexivity).
  destruct (k <=? i) eqn:E.
  - apply Nat.leb_le in E. assert (k = i) by lia. subst k. rewrite Nat.eqb_refl. cbn [negb map snd].
    rewrite IH; auto. intros p Hp. apply Hl. right. exact Hp.
  - apply Nat.leb_gt in E. assert (K : (k =? i) = false) by (apply Nat.eqb_neq; lia). rewrite K.
    cbn [negb]. f_equal.
    + assert (G : filter (fun p : nat * A => fst p =? i) l = []).
      { rewrite Forall_forall in H2. clear -H2 E. induction l as [|y l IHl]; [reflexivity|]. cbn.
        assert (kle (k, s) y) by (apply H2; left; reflexivity). unfold kle in H. cbn in H.
        replace (fst y =? i) with false by (symmetry; apply Nat.eqb_neq; lia).
        apply IHl. intros x Hx. apply H2. right. exact Hx. }
      rewrite G. reflexivity.
    + f_equal. rewrite Forall_forall in H2. clear -H2 E. induction l as [|y l IHl]; [reflexivity|]. cbn.
      assert (kle (k, s) y) by (apply H2; left; reflexivity). unfold kle in H. cbn in H.
      replace (fst y =? i) with false by (symmetry; apply Nat.eqb_neq; lia). cbn. f_equal.
      apply IHl. intros x Hx. apply H2. right. exact Hx.
Qed.

Lemma filter_sorted : forall f (l : keyed), StronglySorted kle l -> StronglySorted kle (filter f l).
Proof.
  intros f. induction l as [|x l IH]; intros H; [constructor|]. inversion H as [|? ? H1 H2]; subst.
  cbn. destruct (f x); auto. constructor; auto. rewrite Forall_forall in *.
  intros y Hy. apply filter_In in Hy. apply H2. tauto.
Qed.

Lemma weave_ext : forall (g h : nat -> list A) body i,
  (forall j, i <= j <= i + length body -> g j = h j) -> weave g i body = weave h i body.
Proof.
  intros g h. induction body as [|s r IH]; intros i H; cbn.
  - apply H. cbn. lia.
  - rewrite (H i) by (cbn; lia). f_equal. f_equal. apply IH. intros j Hj. apply H. cbn. lia.
Qed.

Lemma merge_weave : forall body i (l : keyed), StronglySorted kle l ->
  (forall p, In p l -> i <= fst p <= i + length body) ->
  merge_new i body l = weave (fun j => map snd (filter (fun p => fst p =? j) l)) i body.
Proof.
  induction body as [|s r IH]; intros i l H Hl; cbn [merge_new weave].
  - f_equal. clear H. induction l as [|p l IHl]; [reflexivity|]. cbn.
    assert (K : fst p = i) by (specialize (Hl p (or_introl eq_refl)); cbn in Hl; lia).
    rewrite K, Nat.eqb_refl. f_equal. apply IHl. intros q Hq. apply Hl. right. exact Hq.
  - rewrite take_due_eq; auto; [|intros p Hp; apply Hl; exact Hp]. f_equal. f_equal.
    rewrite IH.
    + apply weave_ext. intros j Hj. f_equal. clear -Hj. induction l as [|p l IHl]; [reflexivity|].
      cbn. destruct (fst p =? i) eqn:E; cbn.
      * apply Nat.eqb_eq in E. replace (fst p =? j) with false by (symmetry; apply Nat.eqb_neq; lia).
        exact IHl.
      * destruct (fst p =? j); [f_equal|]; exact IHl.
    + apply filter_sorted. exact H.
    + intros p Hp. apply filter_In in Hp. destruct Hp as [Hp E]. apply negb_true_iff, Nat.eqb_neq in E.
      specialize (Hl p Hp). cbn in Hl. lia.
Qed.

Theorem insert_weave : forall doc body (new : list (nat * A)), body <> [] ->
  insert_statements load doc body new
  = weave (fun i => map snd (filter (fun p => insert_index load (if doc then 1 else 0) body (fst p) =? i)
                               new)) 0 body.
Proof.
  intros doc body new Hb. unfold insert_statements. destruct body as [|b0 body0] eqn:EB; [congruence|].
  rewrite <- EB in *. clear EB. set (off := if doc then 1 else 0).
  set (keyd := map (fun p : nat * A => (insert_index load off body (fst p), snd p)) new).
  rewrite merge_weave.
  - apply weave_ext. intros j _.
    change (fun a b : nat * A => fst a <=? fst b) with kleb. rewrite sort_filter. unfold keyd.
    clear. induction new as [|p new IH]; [reflexivity|]. cbn.
    destruct (insert_index load off body (fst p) =? j); cbn; [f_equal|]; exact IH.
  - apply sort_sorted.
  - intros p Hp. change (fun a b : nat * A => fst a <=? fst b) with kleb in Hp.
    apply (proj1 (sort_in _ _)) in Hp. unfold keyd in Hp. apply in_map_iff in Hp. destruct Hp as (q & <- & _). cbn.
    split; [lia|]. apply insert_index_le; auto. unfold off. destruct doc; lia.
Qed.

Theorem insert_spec : forall doc body (new : list (nat * A)), body <> [] ->
  exists at_ : nat -> nat,
    (forall t, goes_to load doc body t (at_ t))
    /\ insert_statements load doc body new
       = weave (fun i => map snd (filter (fun p => at_ (fst p) =? i) new)) 0 body.
Proof.
  intros doc body new Hb. exists (insert_index load (if doc then 1 else 0) body).
  split; [intros t; apply insert_index_goes|apply insert_weave; exact Hb].
Qed.

Lemma weave_in : forall (g : nat -> list A) body i x, In x body -> In x (weave g i body).
Proof.
  intros g. induction body as [|s r IH]; intros i x []; cbn; apply in_or_app; right.
  - left. exact H.
  - right. apply IH. exact H.
Qed.
End I.
