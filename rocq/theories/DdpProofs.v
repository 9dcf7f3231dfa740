(** Proofs about sharing of repeated quantizer calls. *)
From Coq Require Import List Arith Bool Lia Permutation Sorted.
From Verif Require Import Prelude DdpModel DdpSpec.
Import ListNotations.

(** ** Equality *)

Lemma name_eqb_eq x y : name_eqb x y = true <-> x = y.
Proof.
  destruct x, y; cbn; try (split; intros; congruence); rewrite Nat.eqb_eq; split; congruence.
Qed.

Lemma same_name_eq x y : same_name x y = true <-> x = y.
Proof.
  destruct x, y; cbn; try (split; intros; congruence); rewrite Nat.eqb_eq; split; congruence.
Qed.

Lemma expr_eqb_eq a : forall b, expr_eqb a b = true <-> a = b.
Proof.
  induction a as [x|f a1 IH1 a2 IH2|q a1 IH1|a1 IH1 a2 IH2 a3 IH3]; intros [y|g b1 b2|r b1|b1 b2 b3];
    cbn; try (split; intros; congruence).
  - rewrite name_eqb_eq. split; congruence.
  - rewrite !andb_true_iff, Nat.eqb_eq, IH1, IH2. split; [intros [[-> ->] ->]|intros [= -> -> ->]]; auto.
  - rewrite andb_true_iff, Nat.eqb_eq, IH1. split; [intros [-> ->]|intros [= -> ->]]; auto.
  - rewrite !andb_true_iff, IH1, IH2, IH3. split; [intros [[-> ->] ->]|intros [= -> -> ->]]; auto.
Qed.

Lemma key_eqb_eq a b : key_eqb a b = true <-> a = b.
Proof.
  destruct a as [q a], b as [r b]. unfold key_eqb. cbn. rewrite andb_true_iff, Nat.eqb_eq, expr_eqb_eq.
  split; [intros [-> ->]|intros [= -> ->]]; auto.
Qed.

Lemma key_eqb_refl a : key_eqb a a = true.
Proof. apply key_eqb_eq. reflexivity. Qed.

Lemma key_dec (a b : key) : {a = b} + {a <> b}.
Proof.
  destruct (key_eqb a b) eqn:E.
  - left. apply key_eqb_eq. exact E.
  - right. intros H. apply key_eqb_eq in H. congruence.
Qed.

Lemma seen_in k seen : existsb (key_eqb k) seen = true <-> In k seen.
Proof.
  rewrite existsb_exists. split.
  - intros (x & I & E). apply key_eqb_eq in E. subst. exact I.
  - intros I. exists k. split; [exact I|apply key_eqb_refl].
Qed.

Lemma mem_in n l : mem n l = true <-> In n l.
Proof.
  unfold mem. rewrite existsb_exists. split.
  - intros (x & I & E). apply Nat.eqb_eq in E. subst. exact I.
  - intros I. exists n. split; [exact I|apply Nat.eqb_refl].
Qed.

(** ** Model and specification look at the same things *)

Lemma expr_calls_eq e : expr_calls e = calls_in e.
Proof. induction e; cbn; rewrite ?IHe, ?IHe1, ?IHe2, ?IHe3; reflexivity. Qed.

Lemma expr_names_eq e : expr_names e = vars e.
Proof. induction e; cbn; congruence. Qed.

Lemma orelse_calls_eq o : orelse_calls o = flat_map calls_in (elif_tests o).
Proof. induction o; cbn; auto. rewrite expr_calls_eq, IHo. reflexivity. Qed.

Lemma stmt_calls_eq s : stmt_calls s = own_calls s.
Proof.
  unfold own_calls, own_exprs. destruct s; cbn; rewrite ?expr_calls_eq, ?orelse_calls_eq, ?app_nil_r; reflexivity.
Qed.

Lemma to_of_list l : to_list (of_list l) = l.
Proof. induction l; cbn; congruence. Qed.

Lemma of_to_list b : of_list (to_list b) = b.
Proof. induction b; cbn; congruence. Qed.

(** ** Induction over blocks *)

Scheme stmt_mut := Induction for stmt Sort Prop
  with orelse_mut := Induction for orelse Sort Prop
  with block_mut := Induction for block Sort Prop.
Combined Scheme syntax_ind from stmt_mut, orelse_mut, block_mut.

Scheme orelse_ind2 := Induction for orelse Sort Prop.

(** ** Allocation *)

Lemma next_suffix_some c : exists n, next_suffix c = Some n /\ ~ In n c.
Proof.
  unfold next_suffix. destruct (find _ _) as [n|] eqn:E.
  - exists n. split; [reflexivity|]. apply find_some in E. destruct E as [_ E].
    apply negb_true_iff in E. intros I. apply mem_in in I. congruence.
  - exfalso. assert (incl (seq 1 (S (length c))) c) as HI.
    { intros x I. pose proof (find_none _ _ E x I) as H. cbn beta in H. apply negb_false_iff in H.
      apply mem_in. exact H. }
    apply NoDup_incl_length in HI; [|apply seq_NoDup]. rewrite seq_length in HI. lia.
Qed.

Lemma allocate_spec ks : forall c, exists es c',
  allocate c ks = Some (es, c')
  /\ map fst es = ks
  /\ NoDup (map snd es)
  /\ (forall n, In n (map snd es) -> ~ In n c).
Proof.
  induction ks as [|[k i] ks IH]; intros c.
  - exists [], c. cbn. repeat split; [constructor|tauto].
  - destruct (next_suffix_some c) as (n & En & Fn).
    destruct (IH (n :: c)) as (es & c' & E & M & N & F).
    exists ((k, i, n) :: es), c'. cbn [allocate]. rewrite En, E. repeat split.
    + cbn. congruence.
    + cbn. constructor; [|exact N]. intros I. apply F in I. apply I. left. reflexivity.
    + cbn. intros m [<-|I]; [exact Fn|]. apply F in I. intros J. apply I. right. exact J.
Qed.

(** ** The first occurrences *)

Lemma occurrences_in l : forall i k j,
  In (k, j) (occurrences i l) <-> exists m s, nth_error l m = Some s /\ j = i + m /\ In k (own_calls s).
Proof.
  induction l as [|s l IH]; intros i k j; cbn.
  - split; [tauto|]. intros (m & s & E & _). destruct m; discriminate.
  - rewrite in_app_iff, in_map_iff, IH. split.
    + intros [(k' & E & I)|(m & t & E & -> & I)].
      * injection E as -> ->. exists 0, s. rewrite stmt_calls_eq in I. repeat split; [lia|exact I].
      * exists (S m), t. repeat split; [exact E|lia|exact I].
    + intros ([|m] & t & E & -> & I).
      * cbn in E. injection E as ->. left. exists k. rewrite stmt_calls_eq, Nat.add_0_r. auto.
      * right. exists m, t. repeat split; [exact E|lia|exact I].
Qed.

Lemma occurrences_keys l : forall i, map fst (occurrences i l) = flat_map own_calls l.
Proof.
  induction l as [|s l IH]; intros i; cbn; [reflexivity|].
  rewrite map_app, map_map, IH, stmt_calls_eq. cbn. rewrite map_id. reflexivity.
Qed.

Definition nondecreasing (l : list nat) : Prop := StronglySorted le l.

Lemma occurrences_sorted l : forall i,
  nondecreasing (map snd (occurrences i l)) /\ Forall (fun j => i <= j) (map snd (occurrences i l)).
Proof.
  induction l as [|s l IH]; intros i; cbn; [split; constructor|].
  rewrite map_app, map_map. cbn. destruct (IH (S i)) as [Hs Hf].
  assert (Forall (fun j => i <= j) (map snd (occurrences (S i) l))) as Hf'.
  { eapply Forall_impl; [|exact Hf]. cbn. lia. }
  split.
  - induction (stmt_calls s) as [|k ks IHk]; cbn; [exact Hs|]. constructor; [exact IHk|].
    apply Forall_app. split; [|exact Hf']. apply Forall_forall. intros x I. apply in_map_iff in I.
    destruct I as (_ & <- & _). lia.
  - apply Forall_app. split; [|exact Hf']. apply Forall_forall. intros x I. apply in_map_iff in I.
    destruct I as (_ & <- & _). lia.
Qed.

Lemma firsts_incl occ : forall seen p, In p (firsts seen occ) -> In p occ.
Proof.
  induction occ as [|p occ IH]; intros seen q; cbn; [tauto|].
  destruct (existsb _ _); [eauto|]. intros [<-|I]; eauto.
Qed.

Lemma firsts_sorted occ : forall seen, nondecreasing (map snd occ) -> nondecreasing (map snd (firsts seen occ)).
Proof.
  induction occ as [|p occ IH]; intros seen H; cbn; [constructor|].
  cbn in H. inversion H as [|? ? Hs Hf]; subst.
  destruct (existsb _ _); [apply IH; exact Hs|]. cbn. constructor; [apply IH; exact Hs|].
  rewrite Forall_forall in *. intros j I. apply in_map_iff in I. destruct I as (q & <- & I).
  apply firsts_incl in I. apply Hf. apply in_map. exact I.
Qed.

Lemma firsts_not_seen occ : forall seen p, In p (firsts seen occ) -> ~ In (fst p) seen.
Proof.
  induction occ as [|p occ IH]; intros seen q; cbn; [tauto|].
  destruct (existsb _ _) eqn:E; [eauto|]. intros [<-|I].
  - intros I. apply seen_in in I. congruence.
  - apply IH in I. intros J. apply I. right. exact J.
Qed.

Lemma firsts_nodup occ : forall seen, NoDup (map fst (firsts seen occ)).
Proof.
  induction occ as [|p occ IH]; intros seen; cbn; [constructor|].
  destruct (existsb _ _) eqn:E; [auto|]. cbn. constructor; [|auto]. intros I.
  apply in_map_iff in I. destruct I as (q & Eq & I). apply firsts_not_seen in I. apply I. left. auto.
Qed.

Lemma firsts_complete occ : forall seen k, In k (map fst occ) -> In k seen \/ In k (map fst (firsts seen occ)).
Proof.
  induction occ as [|p occ IH]; intros seen k; cbn; [tauto|].
  intros [<-|I].
  - destruct (existsb _ _) eqn:E; [left; apply seen_in; exact E|]. right. left. reflexivity.
  - destruct (existsb _ _) eqn:E; [auto|]. destruct (IH (fst p :: seen) k I) as [[<-|J]|J]; cbn; auto.
Qed.

Lemma firsts_least occ : forall seen k i j,
  nondecreasing (map snd occ) -> In (k, i) (firsts seen occ) -> In (k, j) occ -> i <= j.
Proof.
  induction occ as [|p occ IH]; intros seen k i j H I J; cbn in *; [tauto|].
  inversion H as [|? ? Hs Hf]; subst. rewrite Forall_forall in Hf.
  destruct (existsb _ _) eqn:E.
  - destruct J as [->|J]; [|eauto]. apply seen_in in E. cbn in E. apply firsts_not_seen in I. cbn in I. tauto.
  - destruct I as [->|I].
    + destruct J as [J|J]; [injection J as ->; lia|]. cbn in Hf. apply Hf. apply in_map_iff. exists (k, j). auto.
    + destruct J as [->|J]; [|eauto]. apply firsts_not_seen in I. cbn in I. tauto.
Qed.

(** ** Counting *)

Lemma count_pos k occ : 1 <= count k occ <-> In k (map fst occ).
Proof.
  unfold count. induction occ as [|p occ IH]; cbn; [lia|].
  destruct (key_eqb k (fst p)) eqn:E; cbn.
  - apply key_eqb_eq in E. split; [auto|lia].
  - rewrite IH. split; [auto|]. intros [<-|I]; [rewrite key_eqb_refl in E; discriminate|exact I].
Qed.

Lemma count_occ_eq k occ : count k occ = count_occ key_dec (map fst occ) k.
Proof.
  unfold count. induction occ as [|p occ IH]; cbn; [reflexivity|].
  destruct (key_dec (fst p) k) as [->|N].
  - rewrite key_eqb_refl. cbn. congruence.
  - destruct (key_eqb k (fst p)) eqn:E; [apply key_eqb_eq in E; congruence|exact IH].
Qed.

Lemma repeated_in l k i : In (k, i) (repeated l) <->
  In (k, i) (firsts [] (occurrences 0 l)) /\ 1 < count_occ key_dec (flat_map own_calls l) k.
Proof.
  unfold repeated. rewrite filter_In, Nat.ltb_lt, count_occ_eq, occurrences_keys. reflexivity.
Qed.

Lemma filter_keys_nodup (f : key * nat -> bool) l : NoDup (map fst l) -> NoDup (map fst (filter f l)).
Proof.
  induction l as [|p l IH]; cbn; [constructor|].
  intros H. inversion H as [|? ? N Hr]; subst. destruct (f p); cbn; [|auto]. constructor; [|auto].
  intros I. apply N. apply in_map_iff in I. destruct I as (q & E & I). apply filter_In in I.
  rewrite <- E. apply in_map. tauto.
Qed.

Lemma repeated_nodup l : NoDup (map fst (repeated l)).
Proof. unfold repeated. apply filter_keys_nodup. apply firsts_nodup. Qed.

Lemma filter_nondecreasing (f : key * nat -> bool) l :
  nondecreasing (map snd l) -> nondecreasing (map snd (filter f l)).
Proof.
  induction l as [|p l IH]; cbn; [constructor|]. intros H. inversion H as [|? ? Hs Hf]; subst.
  destruct (f p); cbn; [|auto]. constructor; [apply IH; exact Hs|]. rewrite Forall_forall in *. intros j I.
  apply in_map_iff in I. destruct I as (q & <- & I). apply filter_In in I. apply Hf. apply in_map. tauto.
Qed.

Lemma repeated_sorted l : nondecreasing (map snd (repeated l)).
Proof. unfold repeated. apply filter_nondecreasing. apply firsts_sorted. apply occurrences_sorted. Qed.

Lemma repeated_key l k : In k (map fst (repeated l)) <-> 1 < count_occ key_dec (flat_map own_calls l) k.
Proof.
  split.
  - intros I. apply in_map_iff in I. destruct I as ([k' i] & <- & I). apply repeated_in in I. tauto.
  - intros H. assert (In k (map fst (occurrences 0 l))) as I.
    { rewrite occurrences_keys. apply (count_occ_In key_dec). lia. }
    destruct (firsts_complete _ [] _ I) as [[]|J]. apply in_map_iff in J. destruct J as ([k' i] & E & J).
    cbn in E. subst k'. apply in_map_iff. exists (k, i). split; [reflexivity|]. apply repeated_in. auto.
Qed.

(** A repeated call is first made in the statement at the index. *)
Lemma repeated_first l k i : In (k, i) (repeated l) ->
  (exists s, nth_error l i = Some s /\ In k (own_calls s))
  /\ (forall j s, nth_error l j = Some s -> In k (own_calls s) -> i <= j).
Proof.
  intros I. apply repeated_in in I. destruct I as [I _]. split.
  - apply firsts_incl in I. apply occurrences_in in I. destruct I as (m & s & E & -> & I). exists s. auto.
  - intros j s E J. eapply firsts_least; [apply occurrences_sorted|exact I|]. apply occurrences_in.
    exists j, s. auto.
Qed.

Lemma repeated_nil l : repeated l = [] <-> NoDup (flat_map own_calls l).
Proof.
  rewrite (NoDup_count_occ key_dec). split.
  - intros E k. pose proof (repeated_key l k) as H. rewrite E in H. cbn in H. lia.
  - intros H. destruct (repeated l) as [|[k i] r] eqn:E; [reflexivity|].
    assert (In k (map fst (repeated l))) as I by (rewrite E; left; reflexivity).
    apply repeated_key in I. specialize (H k). lia.
Qed.

(** ** Insertion *)

Fixpoint woven (i : nat) (new : list (nat * stmt)) (body : list stmt) : list stmt :=
  match body with
  | [] => []
  | s :: r => map snd (filter (fun p => fst p =? i) new) ++ s :: woven (S i) new r
  end.

Lemma woven_skip body : forall i j s new, j < i -> woven i ((j, s) :: new) body = woven i new body.
Proof.
  induction body as [|t body IH]; intros i j s new L; cbn; [reflexivity|].
  destruct (j =? i) eqn:E; [apply Nat.eqb_eq in E; lia|]. rewrite IH; [reflexivity|lia].
Qed.

Lemma woven_none body : forall i new, (forall p, In p new -> i + length body <= fst p) -> woven i new body = body.
Proof.
  induction body as [|t body IH]; intros i new H; cbn; [reflexivity|].
  rewrite IH.
  - replace (filter (fun p => fst p =? i) new) with (@nil (nat * stmt)); [reflexivity|].
    symmetry. clear IH. induction new as [|p new IHn]; cbn; [reflexivity|].
    destruct (fst p =? i) eqn:E; [|apply IHn; intros; apply H; right; assumption].
    apply Nat.eqb_eq in E. specialize (H p (or_introl eq_refl)). cbn in H. lia.
  - intros p I. specialize (H p I). cbn in H. lia.
Qed.

Lemma filter_none {A} (f : A -> bool) l : (forall x, In x l -> f x = false) -> filter f l = [].
Proof.
  induction l as [|a l IH]; intros H; cbn; [reflexivity|]. rewrite (H a (or_introl eq_refl)).
  apply IH. intros; apply H; right; assumption.
Qed.

Lemma insert_all_woven body : forall new pre i off,
  length pre = i + off -> nondecreasing (map fst new) ->
  (forall p, In p new -> i <= fst p < i + length body) ->
  insert_all off new (pre ++ body) = pre ++ woven i new body.
Proof.
  induction body as [|b body IHb].
  - intros [|p new] pre i off L S B; cbn; [reflexivity|]. specialize (B p (or_introl eq_refl)). cbn in B. lia.
  - induction new as [|[k s] new IHn]; intros pre i off L S B.
    + cbn [insert_all]. rewrite woven_none by (intros ? []). reflexivity.
    + cbn in S. inversion S as [|? ? Ss Sf]; subst. rewrite Forall_forall in Sf.
      assert (i <= k) as Lk by (specialize (B _ (or_introl eq_refl)); cbn in B; lia).
      destruct (Nat.eq_dec k i) as [->|N].
      * cbn [insert_all]. unfold insert_at. rewrite <- L, firstn_app, skipn_app, Nat.sub_diag, firstn_all, skipn_all.
        cbn [firstn skipn]. rewrite app_nil_r. cbn [app].
        replace (pre ++ s :: b :: body) with ((pre ++ [s]) ++ b :: body) by (rewrite <- app_assoc; reflexivity).
        rewrite (IHn (pre ++ [s]) i (Datatypes.S off)).
        -- rewrite <- app_assoc. cbn. rewrite Nat.eqb_refl. cbn. do 4 f_equal. rewrite woven_skip; [reflexivity|lia].
        -- rewrite app_length. cbn. lia.
        -- exact Ss.
        -- intros p I. apply B. right. exact I.
      * replace (pre ++ b :: body) with ((pre ++ [b]) ++ body) by (rewrite <- app_assoc; reflexivity).
        rewrite (IHb ((k, s) :: new) (pre ++ [b]) (Datatypes.S i) off).
        -- cbn [woven]. rewrite filter_none; [rewrite <- app_assoc; reflexivity|].
           intros p [<-|I]; cbn; apply Nat.eqb_neq; [lia|].
           specialize (Sf (fst p) (in_map fst _ _ I)). lia.
        -- rewrite app_length. cbn. lia.
        -- exact S.
        -- intros p I. pose proof (B p I) as Bp. cbn in Bp. destruct I as [<-|I]; [cbn in *; lia|].
           specialize (Sf (fst p) (in_map fst _ _ I)). lia.
Qed.

Lemma sort_new_sorted l : nondecreasing (map fst l) -> sort_new l = l.
Proof.
  induction l as [|p l IH]; intros S; cbn; [reflexivity|]. cbn in S. inversion S as [|? ? Ss Sf]; subst.
  fold (sort_new l). rewrite IH by exact Ss. destruct l as [|q l]; [reflexivity|]. cbn.
  rewrite Forall_forall in Sf. specialize (Sf (fst q) (or_introl eq_refl)).
  destruct (fst p <=? fst q) eqn:E; [reflexivity|]. apply Nat.leb_gt in E. lia.
Qed.

(** ** One block *)

(** The entries and what they are. *)
Definition good_entries (l : list stmt) (es : list entry) : Prop :=
  map fst es = repeated l /\ NoDup (map snd es)
  /\ (forall n, In n (map snd es) -> ~ In (Tmp n) (flat_map stmt_names l)).

Definition shared (l : list stmt) (es : list entry) : list stmt :=
  woven 0 (map new_stmt es) (map (rp_stmt es) l).

Lemma rp_nil_expr e : rp_expr [] e = e.
Proof. induction e; cbn; congruence. Qed.

Lemma rp_nil_orelse o : rp_orelse [] o = o.
Proof. induction o; cbn; rewrite ?rp_nil_expr; congruence. Qed.

Lemma rp_nil s : rp_stmt [] s = s.
Proof. destruct s; cbn; rewrite ?rp_nil_expr, ?rp_nil_orelse; reflexivity. Qed.

Lemma dedup_shared c l : exists es c', dedup c l = (shared l es, c') /\ good_entries l es.
Proof.
  unfold dedup. destruct (repeated l) as [|r0 rs] eqn:R.
  - exists [], (flat_map suffix (flat_map stmt_names l) ++ c). split.
    + f_equal. unfold shared. rewrite woven_none by (intros ? []).
      rewrite (map_ext _ (fun s => s) rp_nil), map_id. reflexivity.
    + split; [rewrite R; reflexivity|]. split; [constructor|intros ? []].
  - destruct (allocate_spec (r0 :: rs) (flat_map suffix (flat_map stmt_names l) ++ c))
      as (es & c' & E & M & N & F).
    rewrite E. exists es, c'. rewrite <- R in M.
    assert (map fst (map new_stmt es) = map snd (repeated l)) as MF.
    { rewrite <- M, !map_map. apply map_ext. intros [[[q a] i] n]. reflexivity. }
    split.
    + f_equal. unfold shared. rewrite sort_new_sorted by (rewrite MF; apply repeated_sorted).
      apply (insert_all_woven (map (rp_stmt es) l) (map new_stmt es) [] 0 0 eq_refl).
      * rewrite MF. apply repeated_sorted.
      * intros p I. split; [lia|]. rewrite map_length. cbn.
        assert (In (fst p) (map snd (repeated l))) as J by (rewrite <- MF; apply in_map; exact I).
        apply in_map_iff in J. destruct J as ([k i] & E1 & J). cbn in E1. rewrite <- E1.
        destruct (proj1 (repeated_first _ _ _ J)) as (s & E2 & _). apply nth_error_Some. congruence.
    + split; [exact M|]. split; [exact N|]. intros n I J. apply (F n I). apply in_or_app. left.
      apply in_flat_map. exists (Tmp n). split; [exact J|left; reflexivity].
Qed.

Lemma lookup_some l es k n : good_entries l es -> lookup k es = Some n ->
  exists i, In (k, i, n) es /\ In (k, i) (repeated l).
Proof.
  intros (M & _ & _). unfold lookup. destruct (find _ _) as [[[k' i] m]|] eqn:E; [|discriminate].
  intros [= <-]. apply find_some in E. destruct E as [I E]. apply key_eqb_eq in E. cbn in E. subst k'.
  exists i. split; [exact I|]. rewrite <- M. apply (in_map fst _ _ I).
Qed.

Lemma lookup_none l es k : good_entries l es -> (lookup k es = None <-> ~ In k (map fst (repeated l))).
Proof.
  intros (M & _ & _). unfold lookup. destruct (find _ _) as [[[k' i] m]|] eqn:E.
  - apply find_some in E. destruct E as [I E]. apply key_eqb_eq in E. cbn in E. subst k'.
    split; [discriminate|]. intros H. exfalso. apply H. rewrite <- M, map_map.
    apply in_map_iff. exists (k, i, m). auto.
  - split; [|reflexivity]. intros _ I. rewrite <- M, map_map in I. apply in_map_iff in I.
    destruct I as ([[k' i] m] & E1 & I). cbn in E1. subst k'.
    pose proof (find_none _ _ E _ I) as H. cbn in H. rewrite key_eqb_refl in H. discriminate.
Qed.

(** ** Meaning *)

Section Meaning.
Variable w : world.
Notation env := (env w).
Notation run_stmt := (run_stmt w).
Notation run_orelse := (run_orelse w).
Notation run := (run w).
Notation eval := (eval w).
Notation set_var := (set_var w).
Notation same_variables := (same_variables w).
Notation same_outcome := (same_outcome w).

Fixpoint run_list (l : list stmt) (g : env) : option env :=
  match l with
  | [] => Some g
  | s :: r => match run_stmt s g with Some g' => run_list r g' | None => None end
  end.

Lemma run_cons s r g : run (BCons s r) g = match run_stmt s g with Some g' => run r g' | None => None end.
Proof. reflexivity. Qed.

Lemma run_to_list b : forall g, run b g = run_list (to_list b) g.
Proof.
  induction b as [|s b IHb]; intros g; [reflexivity|]. rewrite run_cons. cbn [to_list run_list].
  destruct (run_stmt s g) as [h|]; [exact (IHb h)|reflexivity].
Qed.

Lemma run_list_app a : forall b g,
  run_list (a ++ b) g = match run_list a g with Some h => run_list b h | None => None end.
Proof. induction a as [|s a IH]; intros b g; [reflexivity|]. cbn [app run_list]. destruct (run_stmt s g); auto. Qed.

Lemma set_same (g : env) x v : set_var g x v x = Some v.
Proof. unfold DdpSpec.set_var. rewrite (proj2 (same_name_eq x x) eq_refl). reflexivity. Qed.

Lemma set_other (g : env) x v y : y <> x -> set_var g x v y = g y.
Proof.
  intros N. unfold DdpSpec.set_var. destruct (same_name y x) eqn:E; [|reflexivity].
  apply same_name_eq in E. contradiction.
Qed.

Lemma eval_agree e : forall (g h : env), (forall x, In x (vars e) -> g x = h x) -> eval g e = eval h e.
Proof.
  induction e as [x|f a IHa b IHb|q a IHa|a IHa c IHc b IHb]; intros g h H; cbn.
  - apply H. left. reflexivity.
  - rewrite (IHa g h), (IHb g h); [reflexivity| |]; intros x I; apply H; cbn; apply in_or_app; auto.
  - rewrite (IHa g h); [reflexivity|exact H].
  - rewrite (IHa g h), (IHb g h), (IHc g h); [reflexivity| | |]; intros x I; apply H; cbn; rewrite !in_app_iff; auto.
Qed.

Lemma loop_frame {V G} (step : V -> G -> option G) (P : G -> G -> Prop) :
  (forall g, P g g) -> (forall a b c, P a b -> P b c -> P a c) ->
  (forall v g h, step v g = Some h -> P g h) ->
  forall vs g h, loop step vs g = Some h -> P g h.
Proof.
  intros R T S. induction vs as [|v vs IH]; intros g h E; cbn in E.
  - injection E as <-. apply R.
  - destruct (step v g) as [g1|] eqn:E1; [|discriminate]. eapply T; [eapply S; exact E1|apply IH; exact E].
Qed.

Lemma frame :
  (forall s g h, run_stmt s g = Some h -> forall x, ~ In x (assigned s) -> h x = g x)
  /\ (forall o g h, run_orelse o g = Some h -> forall x, ~ In x (assigned_orelse o) -> h x = g x)
  /\ (forall b g h, run b g = Some h -> forall x, ~ In x (assigned_block b) -> h x = g x).
Proof.
  apply syntax_ind.
  - intros x e g h E y N. cbn in *. destruct (eval g e); [|discriminate]. injection E as <-.
    apply set_other. intros ->. apply N. left. reflexivity.
  - intros e b IHb o IHo g h E y N. cbn in *. rewrite in_app_iff in N. destruct (eval g e); [|discriminate].
    destruct (truth w v); eauto.
  - intros x e b IHb g h E y N. cbn in *. destruct (eval g e); [|discriminate].
    revert E. apply (loop_frame _ (fun g h => h y = g y)); [reflexivity|congruence|].
    intros i g1 h1 E1. rewrite (IHb _ _ E1); [|tauto]. apply set_other. intros ->. tauto.
  - intros g h [= <-]. reflexivity.
  - intros b IHb g h E y N. cbn in *. eauto.
  - intros e b IHb o IHo g h E y N. cbn in *. rewrite in_app_iff in N. destruct (eval g e); [|discriminate].
    destruct (truth w v); eauto.
  - intros g h [= <-]. reflexivity.
  - intros s IHs b IHb g h E y N. rewrite run_cons in E. cbn [assigned_block] in N. rewrite in_app_iff in N.
    destruct (run_stmt s g) eqn:E1; [|discriminate].
    rewrite (IHb _ _ E), (IHs _ _ E1); tauto.
Qed.

(** A statement and the same one with blocks of the same meaning. *)
Definition like (b b' : block) : Prop :=
  forall g g', same_variables g g' -> same_outcome (run b g) (run b' g').

Inductive like_orelse : orelse -> orelse -> Prop :=
| like_none : like_orelse ONone ONone
| like_else b b' : like b b' -> like_orelse (OElse b) (OElse b')
| like_elif e b b' o o' : like b b' -> like_orelse o o' -> like_orelse (OElif e b o) (OElif e b' o').

Inductive like_stmt : stmt -> stmt -> Prop :=
| like_asg x e : like_stmt (SAsg x e) (SAsg x e)
| like_if e b b' o o' : like b b' -> like_orelse o o' -> like_stmt (SIf e b o) (SIf e b' o')
| like_for x e b b' : like b b' -> like_stmt (SFor x e b) (SFor x e b').

Lemma like_own s s' : like_stmt s s' -> own_exprs s' = own_exprs s.
Proof.
  intros H. destruct H as [| e b b' o o' _ H|]; cbn; try reflexivity. unfold own_exprs. cbn. f_equal.
  induction H; cbn; congruence.
Qed.

Lemma like_own_calls l l' : Forall2 like_stmt l l' -> map own_calls l' = map own_calls l.
Proof.
  induction 1 as [|s s' l l' H _ IH]; [reflexivity|]. cbn [map]. rewrite IH. f_equal. unfold own_calls.
  rewrite (like_own _ _ H). reflexivity.
Qed.

(** What the shared variables hold. *)
Definition holds (g g' : env) (k : key) (n : nat) : Prop :=
  exists v, eval g (EQuant (fst k) (snd k)) = Some v /\ g' (Tmp n) = Some v.

Lemma user_eval (g g' : env) e : same_variables g g' -> (forall x, In x (vars e) -> user_name x) -> eval g' e = eval g e.
Proof.
  intros A U. apply eval_agree. intros x I. specialize (U x I). destruct x as [n|n]; [|destruct U].
  symmetry. apply A.
Qed.

Lemma eval_rp es (g g' : env) e :
  same_variables g g' -> (forall x, In x (vars e) -> user_name x) ->
  (forall k n, In k (calls_in e) -> lookup k es = Some n -> holds g g' k n) ->
  eval g' (rp_expr es e) = eval g e.
Proof.
  intros A. induction e as [x|f a IHa b IHb|q a IHa|a IHa c IHc b IHb]; intros U H; cbn [rp_expr].
  - apply user_eval; assumption.
  - cbn. cbn in U, H. rewrite IHa, IHb; [reflexivity| | | |]; intros; try (apply U; apply in_or_app; tauto);
      eapply H; eauto; apply in_or_app; tauto.
  - destruct (lookup (q, a) es) as [n|] eqn:L.
    + destruct (H (q, a) n (or_introl eq_refl) L) as (v & E & E'). cbn [fst snd] in E. rewrite E. exact E'.
    + cbn. rewrite IHa; [reflexivity|exact U|]. intros k n I. apply H. right. exact I.
  - cbn. cbn in U, H.
    rewrite IHa, IHb, IHc; [reflexivity| | | | | |]; intros; try (apply U; rewrite !in_app_iff; tauto);
      eapply H; eauto; rewrite !in_app_iff; tauto.
Qed.

Lemma strict_fails (g : env) e k : unconditional e -> In k (calls_in e) ->
  eval g (EQuant (fst k) (snd k)) = None -> eval g e = None.
Proof.
  intros U I E. induction e as [x|f a IHa b IHb|q a IHa|a IHa c IHc b IHb]; cbn in U, I.
  - destruct I.
  - apply in_app_iff in I. cbn. destruct U as [Ua Ub]. destruct I as [I|I].
    + rewrite IHa; auto.
    + rewrite IHb by auto. destruct (eval g a); reflexivity.
  - destruct I as [<-|I]; [exact E|]. cbn. rewrite IHa; auto.
  - destruct U as (Ea & Uc & Eb). rewrite Ea, Eb, app_nil_r in I. cbn in I. cbn. rewrite IHc; auto.
Qed.

Lemma loop_like {V} (f f' : V -> env -> option env) :
  (forall v g g', same_variables g g' -> same_outcome (f v g) (f' v g')) ->
  forall vs g g', same_variables g g' -> same_outcome (loop f vs g) (loop f' vs g').
Proof.
  intros H. induction vs as [|v vs IH]; intros g g' A; cbn [loop]; [exact A|].
  specialize (H v g g' A). destruct (f v g) as [h|], (f' v g') as [h'|]; cbn in H; try contradiction; [|exact I].
  apply IH. exact H.
Qed.

Lemma run_like es s s' (g g' : env) :
  like_stmt s s' -> same_variables g g' ->
  (forall x, In x (assigned s) -> user_name x) ->
  (forall e x, In e (own_exprs s) -> In x (vars e) -> user_name x) ->
  (forall k n, In k (own_calls s) -> lookup k es = Some n -> holds g g' k n) ->
  same_outcome (run_stmt s g) (run_stmt (rp_stmt es s') g').
Proof.
  intros H A UA U K.
  assert (forall e, In e (own_exprs s) -> eval g' (rp_expr es e) = eval g e) as EV.
  { intros e I. apply eval_rp; [exact A|intros x J; eapply U; eauto|]. intros k n J. apply K.
    unfold own_calls. apply in_flat_map. exists e. auto. }
  destruct H as [x e|e b b' o o' Hb Ho|x e b b' Hb]; cbn.
  - rewrite EV by (left; reflexivity). destruct (eval g e) as [v|]; [|exact I]. cbn. intros n.
    unfold DdpSpec.set_var. rewrite (A n). reflexivity.
  - rewrite EV by (left; reflexivity). destruct (eval g e) as [v|]; [|exact I]. destruct (truth w v); [apply Hb; exact A|].
    assert (forall t, In t (elif_tests o) -> eval g' (rp_expr es t) = eval g t) as EO.
    { intros t I. apply EV. right. exact I. }
    clear - Ho A EO. induction Ho as [|b b' Hb|t b b' o o' Hb Ho IH]; cbn.
    + exact A.
    + apply Hb. exact A.
    + rewrite EO by (left; reflexivity). destruct (eval g t) as [v|]; [|exact I].
      destruct (truth w v); [apply Hb; exact A|]. apply IH. intros u I. apply EO. right. exact I.
  - rewrite EV by (left; reflexivity). destruct (eval g e) as [v|]; [|exact I]. generalize (items w v). intros vs.
    apply (loop_like (fun i g => run b (set_var g x i)) (fun i g => run b' (set_var g x i))); [|exact A].
    intros i h h' Ah. apply Hb. intros n. unfold DdpSpec.set_var. rewrite (Ah n). reflexivity.
Qed.

(** Running the inserted assignments. *)
Lemma run_new (A : list entry) (g : env) : forall g',
  same_variables g g' -> NoDup (map snd A) ->
  (forall k i n x, In (k, i, n) A -> In x (vars (snd k)) -> user_name x) ->
  match run_list (map snd (map new_stmt A)) g' with
  | None => exists k i n, In (k, i, n) A /\ eval g (EQuant (fst k) (snd k)) = None
  | Some h => same_variables g h
              /\ (forall k i n, In (k, i, n) A -> holds g h k n)
              /\ (forall n, ~ In n (map snd A) -> h (Tmp n) = g' (Tmp n))
  end.
Proof.
  induction A as [|[[[q a] i] n] A IH]; intros g' S N U; cbn.
  - split; [exact S|]. split; [intros ? ? ? []|reflexivity].
  - assert (eval g' a = eval g a) as Ea.
    { apply user_eval; [exact S|]. intros x I. eapply (U (q, a)); [left; reflexivity|exact I]. }
    rewrite Ea. destruct (match eval g a with Some u => quant w q u | None => None end) as [v|] eqn:Ev.
    + cbn in N. inversion N as [|? ? Nn NA]; subst.
      assert (same_variables g (set_var g' (Tmp n) v)) as S1.
      { intros m. rewrite set_other by discriminate. apply S. }
      specialize (IH (set_var g' (Tmp n) v) S1 NA (fun k i n x H => U k i n x (or_intror H))).
      destruct (run_list _ _) as [h|].
      * destruct IH as (Sh & Hh & Oh). split; [exact Sh|]. split.
        -- intros k j m [E|I]; [|eauto]. injection E as <- <- <-. exists v. split; [exact Ev|].
           rewrite Oh by exact Nn. apply set_same.
        -- intros m Nm. rewrite Oh by (intros J; apply Nm; right; exact J). apply set_other.
           intros [= ->]. apply Nm. left. reflexivity.
      * destruct IH as (k & j & m & I & E). exists k, j, m. split; [right; exact I|exact E].
    + exists (q, a), i, n. split; [left; reflexivity|exact Ev].
Qed.

Lemma assigned_names :
  (forall s x, In x (assigned s) -> In x (stmt_names s))
  /\ (forall o x, In x (assigned_orelse o) -> In x (orelse_names o))
  /\ (forall b x, In x (assigned_block b) -> In x (block_names b)).
Proof.
  apply syntax_ind; cbn; intros; rewrite ?in_app_iff in *; try tauto; try firstorder.
Qed.

Lemma assigned_rp es s : assigned (rp_stmt es s) = assigned s.
Proof. destruct s; cbn; try reflexivity. f_equal. induction els; cbn; congruence. Qed.
End Meaning.
