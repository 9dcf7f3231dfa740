From Verif Require Import Prelude TilingModel TilingSpec TilingProofs GranularityModel GranularitySpec.
From Coq Require Import QArith Qreduction.
Local Open Scope nat_scope.

Lemma set_nth_length l k v : length (set_nth l k v) = length l.
Proof. revert k; induction l; intros [|k]; simpl; auto. Qed.

Lemma set_nth_nth l k v j : k < length l -> nth j (set_nth l k v) 0 = if j =? k then v else nth j l 0.
Proof.
  revert k j; induction l as [|a l IH]; intros [|k] [|j] H; simpl in *; try lia; auto.
  apply IH. lia.
Qed.

Lemma py_index_bound n d k : py_index n d = Ok k -> k < n.
Proof.
  unfold py_index. destruct ((0 <=? d)%Z && (d <? Z.of_nat n)%Z) eqn:E.
  - intros H; injection H as <-. lia.
  - destruct ((- Z.of_nat n <=? d)%Z && (d <? 0)%Z) eqn:E2; [|discriminate].
    intros H; injection H as <-. lia.
Qed.

Lemma set_nth_divides s tile k v :
  tile_divides s tile -> 0 < v -> Nat.divide v (nth k s 0) -> tile_divides s (set_nth tile k v).
Proof.
  intros H; revert k. induction H as [|n t s tile Hd H IH]; intros k Hv Hk; simpl.
  - constructor.
  - destruct k; simpl in *; constructor; auto. apply IH; auto.
Qed.

Lemma set_dims_1_divides s dims tile tile' :
  tile_divides s tile -> set_dims_1 dims tile = Ok tile' -> tile_divides s tile'.
Proof.
  revert tile; induction dims as [|d dims IH]; simpl; intros tile H E.
  - now injection E as <-.
  - unfold py_set in E. destruct (py_index (length tile) d) as [k|] eqn:Ek; simpl in E; [|discriminate].
    eapply IH; [|exact E]. apply set_nth_divides; auto. exists (nth k s 0). lia.
Qed.

Lemma set_blocks_divides s dims sizes tile tile' :
  tile_divides s tile -> Forall (fun b => 0 < b) sizes ->
  set_blocks s true dims sizes tile = Ok tile' -> tile_divides s tile'.
Proof.
  revert sizes tile; induction dims as [|d dims IH]; intros [|b sizes] tile H HF E; simpl in E;
    try (now injection E as <-).
  inversion HF; subst.
  unfold py_get in E. destruct (py_index (length s) d) as [k|] eqn:Ek; simpl in E; [|discriminate].
  destruct (nth_error s k) as [n|] eqn:En; simpl in E; [|discriminate].
  destruct (n <? b); [discriminate|]. destruct (b =? 0) eqn:Eb; [discriminate|].
  destruct (n mod b =? 0) eqn:Em; simpl in E; [|discriminate].
  unfold py_set in E. rewrite <- (divides_length _ _ H), Ek in E. simpl in E.
  eapply IH; [| |exact E]; auto. apply set_nth_divides; auto.
  rewrite (nth_error_nth _ _ 0 En). apply Nat.mod_divide; lia.
Qed.

Lemma self_divides s : Forall (fun n => 0 < n) s -> tile_divides s s.
Proof. induction 1; constructor; auto. split; [assumption|apply Nat.divide_refl]. Qed.

Lemma granularity_compatible g s ta :
  Forall (fun n => 0 < n) s -> regular g -> tile_size g s = Ok ta ->
  tile_divides s (resolve_tile s ta).
Proof.
  intros Hs Hg E. destruct g as [|dims|dims sizes pc strict|t]; simpl in E.
  - injection E as <-. now apply self_divides.
  - destruct (set_dims_1 dims s) eqn:E1; simpl in E; [|discriminate]. injection E as <-. simpl.
    eapply set_dims_1_divides; eauto. now apply self_divides.
  - destruct Hg as [-> Hg].
    destruct (length dims =? length sizes); simpl in E; [|discriminate].
    destruct (set_dims_1 pc s) as [tile|] eqn:E1; simpl in E; [|discriminate].
    destruct (set_blocks s true dims sizes tile) eqn:E2; simpl in E; [|discriminate].
    injection E as <-. simpl. eapply set_blocks_divides; eauto.
    eapply set_dims_1_divides; eauto. now apply self_divides.
  - destruct (check_tile_compatibility s t) as [[]|] eqn:E1; simpl in E; [|discriminate].
    injection E as <-. simpl in *. now apply check_inv.
Qed.

Lemma parameter_count {A} g (t : tensor A) ta :
  wf t -> numel t <> 0 -> tile_size g (shape t) = Ok ta ->
  tile_divides (shape t) (resolve_tile (shape t) ta) ->
  exists n m d, parameter_dimensionality g (shape t) = Ok n /\
    tiles_to_rows t ta = Ok (mkT [n; m] d) /\ n = prod (grid (shape t) (resolve_tile (shape t) ta)).
Proof.
  intros Hwf Hn E Hd.
  destruct (tiles_to_rows_main t _ Hwf Hn Hd) as (p & Ep & _).
  rewrite <- resolve_tile_rows in Ep. rewrite Ep.
  pose proof (divides_prod_pos _ _ Hd) as Hp. pose proof (divides_grid _ _ Hd) as Hg.
  eexists _, _, _. split; [|split; reflexivity].
  unfold parameter_dimensionality. rewrite E. simpl. destruct ta as [|tile]; simpl in *.
  - f_equal. nia.
  - destruct (prod tile =? 0) eqn:E0; [lia|]. f_equal. rewrite Hg. apply Nat.div_mul. lia.
Qed.

(** ** Recovery *)

Lemma py_index_nat n k : k < n -> py_index n (Z.of_nat k) = Ok k.
Proof.
  intros H. unfold py_index. destruct ((0 <=? Z.of_nat k)%Z && (Z.of_nat k <? Z.of_nat n)%Z) eqn:E; [|lia].
  f_equal. lia.
Qed.

Lemma set_dims_1_spec ks l :
  (forall k, In k ks -> k < length l) ->
  exists l', set_dims_1 (map Z.of_nat ks) l = Ok l' /\ length l' = length l /\
    forall j, nth j l' 0 = if existsb (Nat.eqb j) ks then 1 else nth j l 0.
Proof.
  revert l; induction ks as [|k ks IH]; intros l H; simpl.
  - exists l. auto.
  - unfold py_set. rewrite py_index_nat by (apply H; now left). simpl.
    destruct (IH (set_nth l k 1)) as (l' & E & HL & HN).
    { intros j Hj. rewrite set_nth_length. apply H. now right. }
    exists l'. rewrite set_nth_length in HL. repeat split; auto.
    intros j. rewrite HN, set_nth_nth by (apply H; now left).
    destruct (j =? k), (existsb (Nat.eqb j) ks); reflexivity.
Qed.

Lemma set_blocks_spec s t ks l strict :
  length t = length s -> length l = length s -> NoDup ks ->
  (forall k, In k ks -> k < length s /\ 0 < nth k t 0 /\ Nat.divide (nth k t 0) (nth k s 0) /\ 0 < nth k s 0) ->
  exists l', set_blocks s strict (map Z.of_nat ks) (map (fun k => nth k t 0) ks) l = Ok l' /\
    length l' = length s /\
    forall j, nth j l' 0 = if existsb (Nat.eqb j) ks then nth j t 0 else nth j l 0.
Proof.
  intros Ht. revert l; induction ks as [|k ks IH]; intros l Hl ND H; simpl.
  - exists l. auto.
  - destruct (H k) as (Hk & Hpos & Hdiv & Hs); [now left|].
    unfold py_get. rewrite py_index_nat by assumption. simpl.
    rewrite (nth_error_nth' s 0) by assumption. simpl.
    pose proof (Nat.divide_pos_le _ _ Hs Hdiv). destruct Hdiv as [c Hc].
    destruct (nth k s 0 <? nth k t 0) eqn:E1; [lia|].
    destruct (nth k t 0 =? 0) eqn:E0; [lia|]. rewrite andb_false_r.
    assert (Em : nth k s 0 mod nth k t 0 = 0) by (rewrite Hc; apply Nat.mod_mul; lia).
    rewrite Em. simpl. rewrite andb_false_r.
    unfold py_set. rewrite py_index_nat by lia. simpl.
    inversion ND; subst.
    destruct (IH (set_nth l k (nth k t 0))) as (l' & E & HL & HN); auto.
    { now rewrite set_nth_length. }
    { intros j Hj. apply H. now right. }
    exists l'. repeat split; auto.
    intros j. rewrite HN, set_nth_nth by lia.
    destruct (j =? k) eqn:Ej, (existsb (Nat.eqb j) ks); simpl; auto.
    apply Nat.eqb_eq in Ej. now subst.
Qed.

Definition dims_where (f : nat -> nat -> bool) (s t : list nat) : list nat :=
  filter (fun k => f (nth k s 0) (nth k t 0)) (seq 0 (length s)).

Lemma select_aux f s t o :
  length s = length t ->
  filter (fun p : nat * (nat * nat) => f (fst (snd p)) (snd (snd p))) (combine (seq o (length s)) (combine s t))
  = map (fun k => (k, (nth (k - o) s 0, nth (k - o) t 0)))
        (filter (fun k => f (nth (k - o) s 0) (nth (k - o) t 0)) (seq o (length s))).
Proof.
  revert t o; induction s as [|a s IH]; intros [|b t] o HL; simpl in *; try discriminate; [reflexivity|].
  rewrite Nat.sub_diag. simpl.
  assert (EF : filter (fun p : nat * (nat * nat) => f (fst (snd p)) (snd (snd p))) (combine (seq (S o) (length s)) (combine s t))
    = map (fun k => (k, (nth (k - o) (a :: s) 0, nth (k - o) (b :: t) 0)))
        (filter (fun k => f (nth (k - o) (a :: s) 0) (nth (k - o) (b :: t) 0)) (seq (S o) (length s)))).
  { rewrite IH by lia.
    rewrite (filter_ext_in (fun k => f (nth (k - o) (a :: s) 0) (nth (k - o) (b :: t) 0))
              (fun k => f (nth (k - S o) s 0) (nth (k - S o) t 0))).
    - apply map_ext_in. intros k Hk. apply filter_In in Hk. destruct Hk as [Hk _]. apply in_seq in Hk.
      replace (k - o) with (S (k - S o)) by lia. reflexivity.
    - intros k Hk. apply in_seq in Hk. now replace (k - o) with (S (k - S o)) by lia. }
  destruct (f a b); simpl.
  - rewrite Nat.sub_diag. f_equal. exact EF.
  - exact EF.
Qed.

Lemma select_dims_eq f s t : length s = length t -> select_dims f s t = map Z.of_nat (dims_where f s t).
Proof.
  intros H. unfold select_dims, dims_where. rewrite select_aux by assumption. rewrite map_map. simpl.
  rewrite (filter_ext (fun k => f (nth (k - 0) s 0) (nth (k - 0) t 0)) (fun k => f (nth k s 0) (nth k t 0))).
  - reflexivity.
  - intros k. now rewrite Nat.sub_0_r.
Qed.

Lemma select_sizes_aux f s t o :
  length s = length t ->
  map snd (filter (fun p : nat * nat => f (fst p) (snd p)) (combine s t)) =
  map (fun p => snd (snd p)) (filter (fun p : nat * (nat * nat) => f (fst (snd p)) (snd (snd p))) (combine (seq o (length s)) (combine s t))).
Proof.
  revert t o; induction s as [|a s IH]; intros [|b t] o HL; simpl in *; try discriminate; [reflexivity|].
  destruct (f a b); simpl; rewrite (IH t (S o)) by lia; reflexivity.
Qed.

Lemma select_sizes_eq f s t :
  length s = length t -> select_sizes f s t = map (fun k => nth k t 0) (dims_where f s t).
Proof.
  intros H. unfold select_sizes, dims_where. rewrite (select_sizes_aux f s t 0) by assumption.
  rewrite select_aux by assumption. rewrite map_map. simpl.
  rewrite (filter_ext (fun k => f (nth (k - 0) s 0) (nth (k - 0) t 0)) (fun k => f (nth k s 0) (nth k t 0))).
  - apply map_ext. intros k. now rewrite Nat.sub_0_r.
  - intros k. now rewrite Nat.sub_0_r.
Qed.

Lemma existsb_dims f s t j :
  existsb (Nat.eqb j) (dims_where f s t) = (j <? length s) && f (nth j s 0) (nth j t 0).
Proof.
  apply eq_true_iff_eq. rewrite existsb_exists, andb_true_iff. unfold dims_where. split.
  - intros (k & Hk & E). apply Nat.eqb_eq in E; subst. apply filter_In in Hk. destruct Hk as [Hk Hf].
    apply in_seq in Hk. split; [lia|assumption].
  - intros [Hj Hf]. exists j. rewrite filter_In, in_seq, Nat.eqb_refl. repeat split; auto; lia.
Qed.

Lemma tile_divides_nth s t k :
  tile_divides s t -> k < length s -> 0 < nth k t 0 /\ Nat.divide (nth k t 0) (nth k s 0).
Proof.
  intros H; revert k. induction H as [|n m s t Hd H IH]; intros k Hk; simpl in *; [lia|].
  destruct k; auto. apply IH. lia.
Qed.

Lemma list_nth_ext (l l' : list nat) : length l = length l' -> (forall j, j < length l -> nth j l 0 = nth j l' 0) -> l = l'.
Proof. intros HL H. apply (nth_ext _ _ 0 0); auto. Qed.

Lemma divq_1 d t : 0 < t -> Qeq_bool (divq d t) 1 = (d =? t).
Proof.
  intros Ht. apply eq_true_iff_eq. rewrite Qeq_bool_iff. unfold divq, Qeq. simpl. lia.
Qed.

Lemma divq_d d t : 0 < t -> 0 < d -> Qeq_bool (divq d t) (inject_Z (Z.of_nat d)) = (t =? 1).
Proof.
  intros Ht Hd. apply eq_true_iff_eq. rewrite Qeq_bool_iff. unfold divq, Qeq, inject_Z.
  cbn [Qnum Qden]. rewrite Nat.eqb_eq, Z.mul_1_r.
  assert (Z.pos (Pos.of_nat t) = Z.of_nat t) as -> by lia. nia.
Qed.

Lemma granularity_recovery s t :
  Forall (fun n => 0 < n) s -> tile_divides s t ->
  exists ta, tile_size (granularity_from_sizes s t) s = Ok ta /\ resolve_tile s ta = t.
Proof.
  intros Hs Hd. pose proof (divides_length _ _ Hd) as HL. unfold granularity_from_sizes.
  destruct (size_eqb s t) eqn:E.
  { apply size_eqb_eq in E; subst. exists DataShape. auto. }
  assert (Hsn : forall k, k < length s -> 0 < nth k s 0).
  { intros k Hk. rewrite Forall_forall in Hs. apply Hs. now apply nth_In. }
  match goal with |- context [forallb ?f (combine s t)] => destruct (forallb f (combine s t)) eqn:F end.
  - rewrite select_dims_eq by assumption. cbn [tile_size].
    destruct (set_dims_1_spec (dims_where (fun d t => (t =? 1) && (1 <? d)) s t) s) as (l' & El & Hl & Hn).
    { intros k Hk. unfold dims_where in Hk. apply filter_In in Hk. destruct Hk as [Hk _]. apply in_seq in Hk. lia. }
    rewrite El. simpl. exists (Tile l'). split; [reflexivity|]. simpl.
    apply list_nth_ext; [lia|]. intros j Hj. rewrite Hn, existsb_dims.
    assert (Hj' : j < length s) by lia.
    rewrite forallb_forall in F. specialize (F (nth j s 0, nth j t 0)).
    destruct (tile_divides_nth _ _ j Hd Hj') as [Ht Hdv]. specialize (Hsn j Hj').
    cbv beta iota in F. rewrite divq_1, divq_d in F by assumption.
    assert (HIn : In (nth j s 0, nth j t 0) (combine s t)).
    { rewrite <- (combine_nth s t j 0 0 HL). apply nth_In. rewrite combine_length. lia. }
    specialize (F HIn). destruct (j <? length s) eqn:Ej; [|lia]. simpl.
    destruct (nth j t 0 =? 1) eqn:E1; simpl.
    + apply Nat.eqb_eq in E1. destruct (1 <? nth j s 0) eqn:E2; lia.
    + lia.
  - rewrite !select_dims_eq, select_sizes_eq by assumption. cbn [tile_size].
    rewrite !map_length, Nat.eqb_refl. simpl.
    destruct (set_dims_1_spec (dims_where (fun d t => (t =? 1) && (1 <? d)) s t) s) as (l1 & El1 & Hl1 & Hn1).
    { intros k Hk. unfold dims_where in Hk. apply filter_In in Hk. destruct Hk as [Hk _]. apply in_seq in Hk. lia. }
    rewrite El1. simpl.
    destruct (set_blocks_spec s t (dims_where (fun d t => negb ((t =? 1) || (t =? d))) s t) l1
              (forallb (fun '(d, t) => is_mult d (divq d t)) (combine s t))) as (l2 & El2 & Hl2 & Hn2); auto.
    { apply NoDup_filter, seq_NoDup. }
    { intros k Hk. unfold dims_where in Hk. apply filter_In in Hk. destruct Hk as [Hk _]. apply in_seq in Hk.
      destruct (tile_divides_nth _ _ k Hd) as [Ht Hdv]; [lia|]. repeat split; auto; try lia. apply Hsn. lia. }
    rewrite El2. simpl. exists (Tile l2). split; [reflexivity|]. simpl.
    apply list_nth_ext; [lia|]. intros j Hj. rewrite Hn2, existsb_dims, Hn1, existsb_dims.
    assert (Hj' : j < length s) by lia.
    destruct (j <? length s) eqn:Ej; [|lia]. simpl. specialize (Hsn j Hj').
    destruct (nth j t 0 =? 1) eqn:E1; simpl.
    + destruct (1 <? nth j s 0) eqn:E2; lia.
    + destruct (nth j t 0 =? nth j s 0) eqn:E2; simpl; lia.
Qed.

Lemma granularity_eq_sound a b :
  (forall d s p k, a <> PerBlock d s p k) -> granularity_eq a b = true -> a = b.
Proof.
  intros H E. destruct a, b; simpl in E; try discriminate; auto.
  - f_equal. now apply (list_eqb_eq Z.eqb Z.eqb_eq).
  - exfalso. eapply H. reflexivity.
  - f_equal. now apply size_eqb_eq.
Qed.
