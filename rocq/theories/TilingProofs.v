From Verif Require Import Prelude TilingModel TilingSpec.
From Coq Require Import Permutation.

Lemma prod_app s1 s2 : prod (s1 ++ s2) = prod s1 * prod s2.
Proof. induction s1 as [|a s IH]; simpl; [lia|]. unfold prod in *; simpl. rewrite IH. lia. Qed.

Lemma prod_cons a s : prod (a :: s) = a * prod s.
Proof. reflexivity. Qed.

Lemma valid_length s idx : valid s idx -> length idx = length s.
Proof. apply Forall2_length. Qed.

Lemma ravel_lt s idx : valid s idx -> ravel s idx < prod s.
Proof.
  intros H. induction H as [|i n idx s Hi H IH]; simpl; [unfold prod; simpl; lia|].
  rewrite prod_cons. nia.
Qed.

Lemma unravel_valid s p : p < prod s -> valid s (unravel s p).
Proof.
  revert p; induction s as [|n s IH]; intros p Hp; simpl; [constructor|].
  rewrite prod_cons in Hp.
  assert (prod s <> 0) by (intros E; rewrite E in Hp; lia).
  constructor.
  - apply Nat.div_lt_upper_bound; lia.
  - apply IH. apply Nat.mod_upper_bound; lia.
Qed.

Lemma ravel_unravel s p : p < prod s -> ravel s (unravel s p) = p.
Proof.
  revert p; induction s as [|n s IH]; intros p Hp; simpl.
  - unfold prod in Hp; simpl in Hp; lia.
  - rewrite prod_cons in Hp.
    assert (prod s <> 0) by (intros E; rewrite E in Hp; lia).
    rewrite IH by (apply Nat.mod_upper_bound; lia).
    pose proof (Nat.div_mod p (prod s)). lia.
Qed.

Lemma unravel_ravel s idx : valid s idx -> unravel s (ravel s idx) = idx.
Proof.
  intros H. induction H as [|i n idx s Hi H IH]; simpl; [reflexivity|].
  pose proof (ravel_lt _ _ H) as Hl.
  f_equal.
  - rewrite Nat.div_add_l by lia. rewrite Nat.div_small by lia. lia.
  - rewrite Nat.add_comm, Nat.mod_add by lia. rewrite Nat.mod_small by lia. exact IH.
Qed.

Lemma ravel_app s1 s2 i1 i2 :
  length i1 = length s1 ->
  ravel (s1 ++ s2) (i1 ++ i2) = ravel s1 i1 * prod s2 + ravel s2 i2.
Proof.
  revert i1; induction s1 as [|n s1 IH]; intros [|i i1] HL; simpl in *; try discriminate; [lia|].
  rewrite IH by lia. rewrite prod_app. lia.
Qed.

Lemma valid_app s1 s2 i1 i2 : valid s1 i1 -> valid s2 i2 -> valid (s1 ++ s2) (i1 ++ i2).
Proof. intros H1 H2. now apply Forall2_app. Qed.

(** ** Permutation of dimensions *)

Definition pick (perm l : list nat) : list nat := map (fun k => nth k l 0) perm.

Definition is_perm (n : nat) (perm : list nat) : Prop :=
  length perm = n /\ NoDup perm /\ (forall d, In d perm <-> d < n).

Lemma omapM_nth_error_pick (s perm : list nat) :
  (forall d, In d perm -> d < length s) -> omapM (nth_error s) perm = Some (pick perm s).
Proof.
  intros H. induction perm as [|k perm IH]; simpl; [reflexivity|].
  rewrite (nth_error_nth' s 0) by (apply H; now left).
  rewrite IH by (intros; apply H; now right). reflexivity.
Qed.

Lemma index_of_in d l : In d l -> exists k, index_of d l = Some k /\ nth_error l k = Some d.
Proof.
  induction l as [|x l IH]; simpl; [easy|]. intros [->|H].
  - rewrite Nat.eqb_refl. now exists 0.
  - destruct (x =? d) eqn:E.
    + apply Nat.eqb_eq in E; subst. now exists 0.
    + destruct IH as [k [Hk Hn]]; [exact H|]. rewrite Hk. now exists (S k).
Qed.

Lemma index_of_nth l k d : NoDup l -> nth_error l k = Some d -> index_of d l = Some k.
Proof.
  intros ND Hk. destruct (index_of_in d l) as [k' [H1 H2]]; [eapply nth_error_In; eauto|].
  rewrite H1. f_equal. apply (proj1 (NoDup_nth_error l) ND).
  - apply nth_error_Some. congruence.
  - congruence.
Qed.

Definition old_index n (perm j : list nat) : option (list nat) :=
  omapM (fun d => match index_of d perm with
                  | Some k => nth_error j k
                  | None => None
                  end) (seq 0 n).

Lemma map_nth_seq (l : list nat) n : length l = n -> map (fun d => nth d l 0) (seq 0 n) = l.
Proof.
  intros <-. apply nth_error_ext; [rewrite map_length, seq_length; reflexivity|].
  intros i Hi. rewrite map_length, seq_length in Hi.
  rewrite nth_error_map. rewrite (nth_error_nth' _ 0) by (rewrite seq_length; lia).
  rewrite seq_nth by lia. simpl. now rewrite (nth_error_nth' l 0) by lia.
Qed.

Lemma pick_length perm l : length (pick perm l) = length perm.
Proof. apply map_length. Qed.

Lemma old_index_pick n perm i :
  is_perm n perm -> length i = n -> old_index n perm (pick perm i) = Some i.
Proof.
  intros (HL & ND & HI) Hi. unfold old_index.
  rewrite (omapM_ext _ (fun d => Some (nth d i 0))).
  - rewrite <- (omapM_map Some (fun d => nth d i 0)). rewrite omapM_some. f_equal.
    now apply map_nth_seq.
  - intros d Hd. apply in_seq in Hd.
    destruct (index_of_in d perm) as [k [Hk Hn]]; [apply HI; lia|].
    rewrite Hk. unfold pick. rewrite nth_error_map, Hn. reflexivity.
Qed.

Lemma pick_surj n perm j :
  is_perm n perm -> length j = n -> exists i, length i = n /\ pick perm i = j.
Proof.
  intros (HL & ND & HI) Hj.
  exists (map (fun d => match index_of d perm with Some k => nth k j 0 | None => 0 end) (seq 0 n)).
  split; [now rewrite map_length, seq_length|].
  apply nth_error_ext; [rewrite pick_length; lia|].
  intros k Hk. rewrite pick_length in Hk.
  destruct (nth_error_lt_some perm k Hk) as [d Hd].
  unfold pick. rewrite nth_error_map, Hd. simpl.
  assert (d < n) by (apply HI; eapply nth_error_In; eauto).
  rewrite (nth_error_nth' j 0) by lia. f_equal.
  assert (E : nth_error (map (fun d => match index_of d perm with Some k => nth k j 0 | None => 0 end) (seq 0 n)) d
          = Some (nth k j 0)).
  { rewrite nth_error_map. rewrite (nth_error_nth' _ 0) by (rewrite seq_length; lia).
    rewrite seq_nth by lia. simpl. now rewrite (index_of_nth _ _ _ ND Hd). }
  now apply nth_error_nth.
Qed.

Lemma valid_nth s i : length i = length s ->
  (valid s i <-> forall d, d < length s -> nth d i 0 < nth d s 0).
Proof.
  revert i; induction s as [|n s IH]; intros [|x i] HL; simpl in *; try discriminate.
  - split; [intros; lia|constructor].
  - injection HL as HL. split.
    + intros H; inversion H; subst. intros [|d] Hd; [assumption|]. apply IH; auto; lia.
    + intros H. constructor; [apply (H 0); lia|]. apply IH; auto. intros d Hd. apply (H (S d)). lia.
Qed.

Lemma pick_nth perm l k : k < length perm -> nth k (pick perm l) 0 = nth (nth k perm 0) l 0.
Proof.
  intros Hk. unfold pick.
  rewrite (nth_indep _ 0 (nth 0 l 0)) by (rewrite map_length; lia).
  now rewrite (map_nth (fun k => nth k l 0)).
Qed.

Lemma valid_pick n perm s i :
  is_perm n perm -> length s = n -> length i = n ->
  (valid (pick perm s) (pick perm i) <-> valid s i).
Proof.
  intros (HL & ND & HI) Hs Hi.
  rewrite !valid_nth by (rewrite ?pick_length; lia). rewrite pick_length. split; intros H d Hd.
  - destruct (index_of_in d perm) as [k [_ Hn]]; [apply HI; lia|].
    assert (Hk : k < length perm) by (apply nth_error_Some; congruence).
    specialize (H k Hk). rewrite !pick_nth in H by lia.
    rewrite (nth_error_nth _ _ 0 Hn) in H. exact H.
  - rewrite !pick_nth by lia. apply H.
    assert (In (nth d perm 0) perm) by (apply nth_In; lia). apply HI in H0. lia.
Qed.

Lemma permute_spec {A} (t : tensor A) perm :
  wf t -> is_perm (length (shape t)) perm ->
  exists t', permute t perm = Ok t' /\ shape t' = pick perm (shape t) /\ wf t' /\
    (forall i, valid (shape t) i -> at_index t' (pick perm i) = at_index t i).
Proof.
  intros Hwf HP. pose proof HP as (HL & ND & HI). unfold permute.
  rewrite HL, Nat.eqb_refl. simpl.
  rewrite omapM_nth_error_pick by (intros d Hd; now apply HI).
  fold (old_index (length (shape t)) perm).
  set (s' := pick perm (shape t)).
  set (f := fun p => match old_index (length (shape t)) perm (unravel s' p) with
                     | Some i => nth_error (data t) (ravel (shape t) i) | None => None end).
  change (fun p : nat => match omapM _ _ with _ => _ end) with f.
  assert (Hf : forall i, valid (shape t) i -> f (ravel s' (pick perm i)) = at_index t i).
  { intros i Hi. unfold f. rewrite unravel_ravel.
    - rewrite old_index_pick; auto. now apply valid_length.
    - apply valid_pick with (n := length (shape t)); auto. now apply valid_length. }
  assert (Hin : forall p, p < prod s' -> exists i, valid (shape t) i /\ p = ravel s' (pick perm i)).
  { intros p Hp. pose proof (unravel_valid _ _ Hp) as Hv.
    destruct (pick_surj (length (shape t)) perm (unravel s' p)) as [i [Hi1 Hi2]]; auto.
    { rewrite (valid_length _ _ Hv). unfold s'. now rewrite pick_length. }
    exists i. split.
    - rewrite <- Hi2 in Hv. eapply valid_pick; eauto.
    - rewrite Hi2. now rewrite ravel_unravel. }
  destruct (omapM_total f (seq 0 (prod s'))) as [d' Hd'].
  { intros p Hp. apply in_seq in Hp. destruct (Hin p) as [i [Hi ->]]; [lia|].
    rewrite Hf by auto. unfold at_index. apply nth_error_lt_some.
    rewrite Hwf. now apply ravel_lt. }
  rewrite Hd'. exists (mkT s' d'). split; [reflexivity|]. split; [reflexivity|]. split.
  - unfold wf; simpl. rewrite (omapM_length _ _ _ Hd'). apply seq_length.
  - intros i Hi. rewrite <- Hf by auto. unfold at_index; simpl.
    assert (Hr : ravel s' (pick perm i) < prod s').
    { apply ravel_lt. eapply valid_pick; eauto. now apply valid_length. }
    eapply omapM_nth; eauto.
    rewrite (nth_error_nth' _ 0) by (rewrite seq_length; lia). now rewrite seq_nth by lia.
Qed.

(** Two well-formed tensors of one shape with the same elements are equal. *)
Lemma tensor_ext {A} (t u : tensor A) :
  wf t -> wf u -> shape t = shape u ->
  (forall i, valid (shape t) i -> at_index t i = at_index u i) -> t = u.
Proof.
  destruct t as [s d], u as [s' d']. unfold wf, at_index; simpl. intros Ht Hu <- H. f_equal.
  apply nth_error_ext; [lia|]. intros p Hp. rewrite Ht in Hp.
  specialize (H (unravel s p) (unravel_valid _ _ Hp)). now rewrite ravel_unravel in H.
Qed.

(** ** Interleaving *)

Fixpoint zipflat {A} (a b : list A) : list A :=
  match a, b with
  | x :: a', y :: b' => x :: y :: zipflat a' b'
  | _, _ => []
  end.

Lemma interleave_aux {A} (a b full : list A) (b0 : A) k :
  length a = length b -> k + length b <= length full ->
  (forall j, j < length b -> nth_error full (k + j) = nth_error b j) ->
  flat_map (fun '(k, a) => [a; nth (k mod length full) full b0]) (combine (seq k (length a)) a)
  = zipflat a b.
Proof.
  revert b k; induction a as [|x a IH]; intros [|y b] k HL Hk H; simpl in *; try discriminate; [reflexivity|].
  rewrite Nat.mod_small by lia.
  pose proof (H 0 ltac:(lia)) as H0. rewrite Nat.add_0_r in H0. simpl in H0.
  rewrite (nth_error_nth _ _ b0 H0). do 2 f_equal.
  apply IH; try lia. intros j Hj. specialize (H (S j) ltac:(lia)).
  now replace (S k + j) with (k + S j) by lia.
Qed.

Lemma interleave_zipflat {A} (a b : list A) :
  length a = length b -> interleave a b = zipflat a b.
Proof.
  intros HL. unfold interleave.
  destruct b as [|b0 b']; [now destruct a|].
  set (b := b0 :: b') in *.
  assert (E : match a with [a0] => if 1 <? length b then repeat a0 (length b) else a | _ => a end = a).
  { destruct a as [|x [|y a]]; auto. simpl in HL. destruct (1 <? length b) eqn:Eb; auto.
    apply Nat.ltb_lt in Eb. simpl in Eb. lia. }
  rewrite E. apply interleave_aux; auto.
Qed.

Lemma zipflat_length {A} (a b : list A) : length a = length b -> length (zipflat a b) = 2 * length a.
Proof. revert b; induction a as [|x a IH]; intros [|y b] H; simpl in *; try discriminate; auto. rewrite IH; lia. Qed.

Lemma zipflat_nth_even (a b : list nat) k : length a = length b -> nth (2 * k) (zipflat a b) 0 = nth k a 0.
Proof.
  revert b k; induction a as [|x a IH]; intros [|y b] k H; try discriminate.
  - cbn [zipflat]. now destruct (2 * k), k.
  - destruct k; [reflexivity|]. replace (2 * S k) with (S (S (2 * k))) by lia. cbn [zipflat nth].
    apply IH. simpl in H. lia.
Qed.

Lemma zipflat_nth_odd (a b : list nat) k : length a = length b -> nth (2 * k + 1) (zipflat a b) 0 = nth k b 0.
Proof.
  revert b k; induction a as [|x a IH]; intros [|y b] k H; try discriminate.
  - cbn [zipflat]. now destruct (2 * k + 1), k.
  - destruct k; [reflexivity|]. replace (2 * S k + 1) with (S (S (2 * k + 1))) by lia. cbn [zipflat nth].
    apply IH. simpl in H. lia.
Qed.

Lemma pick_evens_odds (a b : list nat) r :
  length a = r -> length b = r -> pick (evens r ++ odds r) (zipflat a b) = a ++ b.
Proof.
  intros Ha Hb. unfold pick, evens, odds. rewrite map_app, !map_map. f_equal.
  - rewrite (map_ext _ (fun k => nth k a 0)) by (intros; apply zipflat_nth_even; lia). now apply map_nth_seq.
  - rewrite (map_ext _ (fun k => nth k b 0)) by (intros; apply zipflat_nth_odd; lia). now apply map_nth_seq.
Qed.


Lemma NoDup_app_disj {A} (a b : list A) :
  NoDup a -> NoDup b -> (forall x, In x a -> ~ In x b) -> NoDup (a ++ b).
Proof.
  induction a as [|x a IH]; simpl; intros Ha Hb H; [assumption|].
  inversion Ha; subst. constructor.
  - rewrite in_app_iff. intros [?|?]; [auto|]. apply (H x); auto.
  - apply IH; auto.
Qed.

Lemma NoDup_map_inj {A B} (f : A -> B) l :
  (forall x y, f x = f y -> x = y) -> NoDup l -> NoDup (map f l).
Proof.
  intros Hf. induction 1 as [|x l Hx Hl IH]; simpl; constructor; auto.
  rewrite in_map_iff. intros (y & Hy & Hin). apply Hf in Hy. now subst.
Qed.

Lemma evens_odds_perm r : is_perm (2 * r) (evens r ++ odds r).
Proof.
  unfold is_perm, evens, odds. split; [|split].
  - rewrite app_length, !map_length, seq_length. lia.
  - apply NoDup_app_disj.
    + apply NoDup_map_inj; [intros; lia|apply seq_NoDup].
    + apply NoDup_map_inj; [intros; lia|apply seq_NoDup].
    + intros x. rewrite !in_map_iff. intros (k & <- & _) (k' & E & _). lia.
  - intros d. rewrite in_app_iff, !in_map_iff. split.
    + intros [(k & <- & H)|(k & <- & H)]; apply in_seq in H; lia.
    + intros Hd. destruct (Nat.Even_or_Odd d) as [[k Hk]|[k Hk]].
      * left. exists k. split; [lia|]. apply in_seq. lia.
      * right. exists k. split; [lia|]. apply in_seq. lia.
Qed.

Lemma zipflat_In {A} (a b : list A) x :
  length a = length b -> (In x (zipflat a b) <-> In x a \/ In x b).
Proof.
  revert b; induction a as [|y a IH]; intros [|z b] H; simpl in *; try discriminate; [tauto|].
  rewrite IH by lia. tauto.
Qed.

Lemma zipflat_NoDup {A} (a b : list A) :
  length a = length b -> NoDup (a ++ b) -> NoDup (zipflat a b).
Proof.
  intros HL H. apply (Permutation_NoDup (l := a ++ b)); auto. clear H.
  revert b HL; induction a as [|y a IH]; intros [|z b] H; simpl in *; try discriminate; auto.
  constructor. rewrite <- Permutation_middle. constructor. apply IH. lia.
Qed.

Lemma rev_perm_perm r : is_perm (2 * r) (zipflat (seq 0 r) (seq r r)).
Proof.
  unfold is_perm. split; [|split].
  - rewrite zipflat_length; rewrite !seq_length; reflexivity.
  - apply zipflat_NoDup; [now rewrite !seq_length|].
    rewrite <- seq_app. apply seq_NoDup.
  - intros d. rewrite zipflat_In by (now rewrite !seq_length). rewrite !in_seq. lia.
Qed.

Lemma pick_rev (a b : list nat) r :
  length a = r -> length b = r -> pick (zipflat (seq 0 r) (seq r r)) (a ++ b) = zipflat a b.
Proof.
  intros Ha Hb.
  assert (G : forall xs ys, pick (zipflat xs ys) (a ++ b) = zipflat (pick xs (a ++ b)) (pick ys (a ++ b))).
  { induction xs as [|x xs IH]; intros [|y ys]; simpl; auto. f_equal. f_equal. apply IH. }
  rewrite G. f_equal.
  - unfold pick. rewrite (map_ext_in _ (fun d => nth d a 0)).
    + now apply map_nth_seq.
    + intros d Hd. apply in_seq in Hd. apply app_nth1. lia.
  - unfold pick. replace (seq r r) with (map (fun k => r + k) (seq 0 r)).
    + rewrite map_map. rewrite (map_ext_in _ (fun d => nth d b 0)).
      * now apply map_nth_seq.
      * intros d Hd. rewrite app_nth2 by lia. f_equal. lia.
    + clear. generalize r at 1 3 as k. intros k.
      assert (forall s n, map (fun j => k + j) (seq s n) = seq (k + s) n).
      { intros s n. revert s; induction n; intros s; simpl; [reflexivity|]. f_equal.
        rewrite IHn. f_equal. lia. }
      rewrite H. f_equal. lia.
Qed.

(** ** Tiling *)

Lemma prod_zipflat a b : length a = length b -> prod (zipflat a b) = prod a * prod b.
Proof.
  revert b; induction a as [|x a IH]; intros [|y b] H; simpl in *; try discriminate; [reflexivity|].
  rewrite !prod_cons, IH by lia. lia.
Qed.

Lemma divides_grid size tile : tile_divides size tile -> prod size = prod (grid size tile) * prod tile.
Proof.
  intros H. induction H as [|n t size tile [Ht [k Hk]] H IH]; [reflexivity|].
  unfold grid, zipmap in *. simpl. rewrite !prod_cons, IH.
  rewrite Hk, Nat.div_mul by lia. lia.
Qed.

Lemma divides_prod_pos size tile : tile_divides size tile -> 0 < prod tile.
Proof.
  intros H. induction H as [|n t size tile [Ht _] H IH]; [unfold prod; simpl; lia|].
  rewrite prod_cons. nia.
Qed.

Lemma divides_length size tile : tile_divides size tile -> length size = length tile.
Proof. apply Forall2_length. Qed.

Lemma zipmap_length f a b : length a = length b -> length (zipmap f a b) = length a.
Proof. intros H. unfold zipmap. rewrite map_length, combine_length. lia. Qed.

Lemma check_ok size tile : tile_divides size tile -> check_tile_compatibility size tile = Ok tt.
Proof.
  intros H. unfold check_tile_compatibility.
  rewrite (divides_length _ _ H), Nat.eqb_refl. simpl.
  match goal with |- (if ?b then _ else _) = _ => assert (b = true) as -> end; [|reflexivity].
  induction H as [|n t size tile [Ht [k Hk]] H IH]; [reflexivity|]. simpl. rewrite IH.
  rewrite Hk, Nat.mod_mul by lia. simpl. now rewrite !andb_false_r.
Qed.

Lemma check_inv size tile :
  check_tile_compatibility size tile = Ok tt -> Forall (fun t => 0 < t) tile -> tile_divides size tile.
Proof.
  unfold check_tile_compatibility.
  destruct (length size =? length tile) eqn:E; simpl; [|discriminate].
  apply Nat.eqb_eq in E. revert tile E.
  induction size as [|n size IH]; intros [|t tile] E H HF; simpl in *; try discriminate; [constructor|].
  inversion HF; subst.
  destruct (negb ((0 <? t) && negb (n mod t =? 0))) eqn:B; simpl in H; [|discriminate].
  constructor.
  - split; [assumption|]. apply Nat.mod_divide; [lia|]. lia.
  - apply IH; auto. 
Qed.

Lemma num_dim_blocks_ok size tile :
  tile_divides size tile -> num_dim_blocks size tile = Ok (grid size tile).
Proof.
  intros H. unfold num_dim_blocks, grid, zipmap.
  induction H as [|n t size tile [Ht _] H IH]; [reflexivity|]. simpl.
  destruct (t =? 0) eqn:E; [lia|]. simpl. now rewrite IH.
Qed.

Lemma ravel_zipflat size tile a b :
  tile_divides size tile -> length a = length tile -> length b = length tile ->
  ravel (zipflat (grid size tile) tile) (zipflat a b)
  = ravel size (zipmap Nat.add (zipmap Nat.mul a tile) b).
Proof.
  intros H. revert a b.
  induction H as [|n t size tile Hd H IH]; intros [|x a] [|y b] Ha Hb; simpl in *; try discriminate; [reflexivity|].
  change (zipmap Nat.div (n :: size) (t :: tile)) with (n / t :: grid size tile) in *.
  rewrite IH by lia. 
  pose proof (divides_grid _ _ H) as E. 
  unfold grid, zipmap in *. simpl.
  rewrite !prod_cons, prod_zipflat.
  - rewrite E. lia.
  - rewrite map_length, combine_length. rewrite (divides_length _ _ H). lia.
Qed.

Lemma split_index tile idx :
  length idx = length tile ->
  zipmap Nat.add (zipmap Nat.mul (tile_coord idx tile) tile) (tile_offset idx tile) = idx.
Proof.
  revert tile; induction idx as [|i idx IH]; intros [|t tile] H; simpl in *; try discriminate; [reflexivity|].
  injection H as H. unfold zipmap, tile_coord, tile_offset in *. simpl. f_equal; [|now apply IH].
  unfold zipmap in IH. pose proof (Nat.div_mod_eq i t). lia.
Qed.

Lemma tile_coord_valid size tile idx :
  tile_divides size tile -> valid size idx -> valid (grid size tile) (tile_coord idx tile).
Proof.
  intros H; revert idx. induction H as [|n t size tile [Ht [k Hk]] H IH]; intros idx Hv; inversion Hv; subst.
  - constructor.
  - unfold grid, tile_coord, zipmap in *; simpl. constructor; [|now apply IH].
    rewrite Nat.div_mul by lia. apply Nat.div_lt_upper_bound; lia.
Qed.

Lemma tile_offset_valid size tile idx :
  tile_divides size tile -> valid size idx -> valid tile (tile_offset idx tile).
Proof.
  intros H; revert idx. induction H as [|n t size tile [Ht Hk] H IH]; intros idx Hv; inversion Hv; subst.
  - constructor.
  - unfold tile_offset, zipmap in *; simpl. constructor; [|now apply IH].
    apply Nat.mod_upper_bound; lia.
Qed.

Lemma zipflat_valid a b s t :
  length s = length t -> valid s a -> valid t b -> valid (zipflat s t) (zipflat a b).
Proof.
  intros HL Ha; revert t b HL. induction Ha as [|i n a s Hi Ha IH]; intros t b HL Hb.
  - destruct t; [|discriminate]. inversion Hb; subst. constructor.
  - destruct t as [|m t]; [discriminate|]. inversion Hb; subst. simpl.
    constructor; auto. constructor; auto. apply IH; auto.
Qed.

Lemma valid_zipflat_inv s t i :
  length s = length t -> valid (zipflat s t) i ->
  exists a b, i = zipflat a b /\ valid s a /\ valid t b.
Proof.
  revert t i; induction s as [|n s IH]; intros [|m t] i HL H; simpl in *; try discriminate.
  - inversion H; subst. exists [], []. repeat split; constructor.
  - inversion H as [|x ? i1 ? Hx H1]; subst. inversion H1 as [|y ? i2 ? Hy H2]; subst.
    destruct (IH t i2) as (a & b & -> & Ha & Hb); [lia|assumption|].
    exists (x :: a), (y :: b). repeat split; constructor; auto.
Qed.

Lemma reshape_ok {A} (t : tensor A) s : prod s = length (data t) -> reshape t s = Ok (mkT s (data t)).
Proof. intros H. unfold reshape. now rewrite H, Nat.eqb_refl. Qed.

Lemma div2_double r : Nat.div2 (2 * r) = r.
Proof. apply Nat.div2_double. Qed.

Lemma div2_succ_double r : Nat.div2 (2 * r + 1) = r.
Proof. replace (2 * r + 1) with (S (2 * r)) by lia. apply Nat.div2_succ_double. Qed.

(** Shape of [tiles_to_rows] as one permutation, for divisible tiles. *)
Lemma tiles_to_rows_main {A} (t : tensor A) (tile : list nat) :
  wf t -> numel t <> 0 -> tile_divides (shape t) tile ->
  exists p,
    tiles_to_rows t (Tile tile) = Ok (mkT [prod (grid (shape t) tile); prod tile] (data p)) /\
    shape p = grid (shape t) tile ++ tile /\ wf p /\
    (forall a b, valid (grid (shape t) tile) a -> valid tile b ->
       at_index p (a ++ b) = at_index t (zipmap Nat.add (zipmap Nat.mul a tile) b)).
Proof.
  intros Hwf Hn Hd. unfold tiles_to_rows.
  destruct (numel t =? 0) eqn:E0; [apply Nat.eqb_eq in E0; lia|]. simpl resolve_tile.
  rewrite check_ok by auto. simpl. rewrite num_dim_blocks_ok by auto. simpl.
  assert (HLg : length (grid (shape t) tile) = length tile).
  { unfold grid. rewrite zipmap_length; now rewrite (divides_length _ _ Hd). }
  rewrite interleave_zipflat by lia.
  pose proof (divides_prod_pos _ _ Hd) as Hp. pose proof (divides_grid _ _ Hd) as Hg.
  destruct (prod tile =? 0) eqn:E1; [lia|].
  rewrite reshape_ok by (rewrite prod_zipflat by lia; unfold wf in Hwf; lia). simpl.
  rewrite zipflat_length by lia.
  set (r := length (grid (shape t) tile)) in *.
  change (r + (r + 0)) with (2 * r). rewrite div2_double, div2_succ_double.
  set (q := mkT (zipflat (grid (shape t) tile) tile) (data t)).
  assert (Hq : wf q). { unfold wf, q; simpl. rewrite prod_zipflat by lia. unfold wf in Hwf. lia. }
  assert (HPq : is_perm (length (shape q)) (evens r ++ odds r)).
  { simpl. rewrite zipflat_length by lia. apply evens_odds_perm. }
  destruct (permute_spec q _ Hq HPq) as (p & Ep & Sp & Wp & Fp).
  rewrite Ep. simpl.
  assert (Sp' : shape p = grid (shape t) tile ++ tile).
  { rewrite Sp. simpl. now apply pick_evens_odds. }
  assert (Hnum : numel t / prod tile = prod (grid (shape t) tile)).
  { unfold numel. rewrite Hwf, Hg. apply Nat.div_mul. lia. }
  rewrite Hnum.
  assert (Hg0 : prod (grid (shape t) tile) <> 0).
  { intros E. unfold wf, numel in *. rewrite Hg, E in Hwf. lia. }
  destruct (prod (grid (shape t) tile) =? 0) eqn:E2; [lia|].
  assert (Hnp : numel p = prod (grid (shape t) tile) * prod tile).
  { unfold numel. rewrite Wp, Sp', prod_app. reflexivity. }
  rewrite Hnp, (Nat.mul_comm (prod (grid _ _))), Nat.div_mul by lia.
  rewrite reshape_ok.
  2:{ unfold numel in Hnp. rewrite Hnp. unfold prod at 1. simpl. lia. }
  exists p. split; [reflexivity|]. split; [assumption|]. split; [assumption|].
  intros a b Ha Hb. rewrite <- (pick_evens_odds a b r) by
    (rewrite ?(valid_length _ _ Ha), ?(valid_length _ _ Hb); lia).
  rewrite Fp.
  - unfold at_index, q; simpl. rewrite ravel_zipflat; auto.
    + rewrite (valid_length _ _ Ha). lia.
    + now apply valid_length.
  - simpl. apply zipflat_valid; auto; lia.
Qed.

Lemma resolve_tile_rows {A} (t : tensor A) ta :
  tiles_to_rows t ta = tiles_to_rows t (Tile (resolve_tile (shape t) ta)).
Proof. destruct ta; reflexivity. Qed.

(** Rows are tiles. *)
Lemma rows_are_tiles {A} (t : tensor A) ta r :
  wf t -> numel t <> 0 -> tile_divides (shape t) (resolve_tile (shape t) ta) ->
  tiles_to_rows t ta = Ok r ->
  let tile := resolve_tile (shape t) ta in
  wf r /\ shape r = [prod (grid (shape t) tile); prod tile] /\
  (forall idx, valid (shape t) idx ->
    valid (shape r) [ravel (grid (shape t) tile) (tile_coord idx tile); ravel tile (tile_offset idx tile)] /\
    at_index r [ravel (grid (shape t) tile) (tile_coord idx tile); ravel tile (tile_offset idx tile)]
    = at_index t idx).
Proof.
  intros Hwf Hn Hd Hr tile. rewrite resolve_tile_rows in Hr. fold tile in Hr, Hd.
  destruct (tiles_to_rows_main t tile Hwf Hn Hd) as (p & E & Sp & Wp & Fp).
  rewrite E in Hr. injection Hr as <-. simpl.
  split; [|split; [reflexivity|]].
  - unfold wf in *; simpl. rewrite Wp, Sp, prod_app. unfold prod at 3. simpl. lia.
  - intros idx Hv.
    pose proof (tile_coord_valid _ _ _ Hd Hv) as Hc. pose proof (tile_offset_valid _ _ _ Hd Hv) as Ho.
    split.
    { repeat constructor; now apply ravel_lt. }
    rewrite <- (split_index tile idx) at 3 by
      (rewrite (valid_length _ _ Hv); now apply divides_length).
    rewrite <- Fp by auto. unfold at_index; simpl. f_equal. rewrite Sp, ravel_app by
      (now apply valid_length). unfold prod. simpl. lia.
Qed.

(** Round trip. *)
Lemma tiling_round_trip {A} (t : tensor A) ta :
  wf t -> tile_divides (shape t) (resolve_tile (shape t) ta) ->
  exists r, tiles_to_rows t ta = Ok r /\ rows_to_tiles r (shape t) ta = Ok t.
Proof.
  intros Hwf Hd. destruct (Nat.eq_dec (numel t) 0) as [E0|Hn].
  { unfold tiles_to_rows. rewrite E0. simpl. unfold reshape. unfold numel in E0.
    unfold prod at 1. simpl. rewrite E0. simpl. eexists; split; [reflexivity|].
    unfold rows_to_tiles, numel; simpl. rewrite E0. simpl. unfold reshape; simpl.
    unfold wf in Hwf. rewrite <- Hwf, Nat.eqb_refl. now destruct t. }
  rewrite resolve_tile_rows.
  set (tile := resolve_tile (shape t) ta) in *.
  destruct (tiles_to_rows_main t tile Hwf Hn Hd) as (p & E & Sp & Wp & Fp).
  eexists; split; [exact E|].
  assert (HLg : length (grid (shape t) tile) = length tile).
  { unfold grid. rewrite zipmap_length; now rewrite (divides_length _ _ Hd). }
  pose proof (divides_prod_pos _ _ Hd) as Hp. pose proof (divides_grid _ _ Hd) as Hg.
  unfold rows_to_tiles, numel; simpl data. simpl shape.
  assert (Hlen : length (data p) = length (data t)).
  { rewrite Wp, Sp, prod_app, Hwf. lia. }
  rewrite Hlen. fold (numel t). destruct (numel t =? 0) eqn:E1; [lia|]. fold tile.
  rewrite check_ok by auto. simpl. destruct (prod tile =? 0) eqn:E2; [lia|].
  rewrite Hg, Nat.div_mul by lia.
  rewrite size_eqb_refl. simpl.
  rewrite num_dim_blocks_ok by auto. simpl. rewrite interleave_zipflat by lia.
  rewrite zipflat_length by lia. set (r := length (grid (shape t) tile)) in *.
  change (r + (r + 0)) with (2 * r). rewrite div2_double, div2_succ_double.
  rewrite (Nat.mul_comm 2 r), Nat.div_mul by lia. replace (r * 2 - r) with r by lia.
  rewrite omapM_nth_error_pick.
  2:{ intros d Hin. rewrite zipflat_length by lia. fold r. 
      destruct (evens_odds_perm r) as (_ & _ & HI). now apply HI. }
  rewrite pick_evens_odds by (auto; lia).
  rewrite interleave_zipflat by (now rewrite !seq_length).
  rewrite reshape_ok by (simpl; rewrite Wp, Sp; reflexivity). simpl.
  rewrite <- Sp.
  destruct p as [sp dp]; simpl in *. subst sp.
  set (q := mkT (grid (shape t) tile ++ tile) dp) in *.
  assert (HP : is_perm (length (shape q)) (zipflat (seq 0 r) (seq r r))).
  { simpl. rewrite app_length. replace (length (grid (shape t) tile) + length tile) with (2 * r) by lia.
    apply rev_perm_perm. }
  destruct (permute_spec q _ Wp HP) as (u & Eu & Su & Wu & Fu). rewrite Eu. simpl.
  simpl in Su. rewrite pick_rev in Su by (auto; lia).
  assert (Heq : u = mkT (zipflat (grid (shape t) tile) tile) (data t)).
  { apply tensor_ext; auto.
    - unfold wf; simpl. rewrite prod_zipflat by lia. unfold wf in Hwf. lia.
    - rewrite Su. intros i Hi. apply valid_zipflat_inv in Hi; [|lia].
      destruct Hi as (a & b & -> & Ha & Hb).
      pose proof (valid_length _ _ Ha). pose proof (valid_length _ _ Hb).
      rewrite <- (pick_rev a b r) at 1 by lia. rewrite Fu by (apply valid_app; auto).
      rewrite Fp by auto. unfold at_index; simpl. rewrite ravel_zipflat; auto; lia. }
  rewrite Heq. rewrite reshape_ok by (simpl; symmetry; exact Hwf). now destruct t.
Qed.

Lemma resolve_tile_tiles {A} (t : tensor A) s ta :
  rows_to_tiles t s ta = rows_to_tiles t s (Tile (resolve_tile s ta)).
Proof. destruct ta; reflexivity. Qed.

Lemma rows_to_tiles_main {A} (r : tensor A) size tile :
  wf r -> numel r <> 0 -> tile_divides size tile ->
  shape r = [prod (grid size tile); prod tile] ->
  exists u,
    rows_to_tiles r size (Tile tile) = Ok (mkT size (data u)) /\
    shape u = zipflat (grid size tile) tile /\ wf u /\
    (forall a b, valid (grid size tile) a -> valid tile b ->
       at_index u (zipflat a b) = at_index (mkT (grid size tile ++ tile) (data r)) (a ++ b)).
Proof.
  intros Hwf Hn Hd Sr.
  assert (HLg : length (grid size tile) = length tile).
  { unfold grid. rewrite zipmap_length; now rewrite (divides_length _ _ Hd). }
  pose proof (divides_prod_pos _ _ Hd) as Hp. pose proof (divides_grid _ _ Hd) as Hg.
  unfold rows_to_tiles. destruct (numel r =? 0) eqn:E1; [lia|]. simpl resolve_tile.
  rewrite check_ok by auto. simpl. destruct (prod tile =? 0) eqn:E2; [lia|].
  rewrite Hg, Nat.div_mul by lia. rewrite Sr, size_eqb_refl. simpl.
  rewrite num_dim_blocks_ok by auto. simpl. rewrite interleave_zipflat by lia.
  rewrite zipflat_length by lia. set (k := length (grid size tile)) in *.
  change (k + (k + 0)) with (2 * k). rewrite div2_double, div2_succ_double.
  rewrite (Nat.mul_comm 2 k), Nat.div_mul by lia. replace (k * 2 - k) with k by lia.
  rewrite omapM_nth_error_pick.
  2:{ intros d Hin. rewrite zipflat_length by lia. fold k.
      destruct (evens_odds_perm k) as (_ & _ & HI). now apply HI. }
  rewrite pick_evens_odds by (auto; lia).
  rewrite interleave_zipflat by (now rewrite !seq_length).
  assert (Hlr : length (data r) = prod (grid size tile) * prod tile).
  { unfold wf in Hwf. rewrite Hwf, Sr. unfold prod at 1. simpl. lia. }
  rewrite reshape_ok by (rewrite Hlr; apply prod_app). simpl.
  set (q := mkT (grid size tile ++ tile) (data r)) in *.
  assert (Wq : wf q). { unfold wf, q; simpl. rewrite Hlr, prod_app. reflexivity. }
  assert (HP : is_perm (length (shape q)) (zipflat (seq 0 k) (seq k k))).
  { simpl. rewrite app_length. replace (length (grid size tile) + length tile) with (2 * k) by lia.
    apply rev_perm_perm. }
  destruct (permute_spec q _ Wq HP) as (u & Eu & Su & Wu & Fu). rewrite Eu. simpl.
  simpl in Su. rewrite pick_rev in Su by (auto; lia).
  exists u. split; [|split; [assumption|split; [assumption|]]].
  - apply reshape_ok. unfold wf in Wu. rewrite Wu, Su, prod_zipflat by lia. lia.
  - intros a b Ha Hb. pose proof (valid_length _ _ Ha). pose proof (valid_length _ _ Hb).
    rewrite <- (pick_rev a b k) by lia. apply Fu. apply valid_app; auto.
Qed.

Lemma valid_app_inv s t i :
  valid (s ++ t) i -> exists a b, i = a ++ b /\ valid s a /\ valid t b.
Proof.
  intros H. apply Forall2_app_inv_r in H. destruct H as (a & b & Ha & Hb & ->). now exists a, b.
Qed.

Lemma rows_round_trip {A} (r : tensor A) size ta :
  wf r -> numel r <> 0 -> tile_divides size (resolve_tile size ta) ->
  shape r = [prod size / prod (resolve_tile size ta); prod (resolve_tile size ta)] ->
  exists t, rows_to_tiles r size ta = Ok t /\ shape t = size /\ wf t /\ tiles_to_rows t ta = Ok r.
Proof.
  intros Hwf Hn Hd Sr. rewrite resolve_tile_tiles.
  set (tile := resolve_tile size ta) in *.
  pose proof (divides_prod_pos _ _ Hd) as Hp. pose proof (divides_grid _ _ Hd) as Hg.
  rewrite Hg, Nat.div_mul in Sr by lia.
  destruct (rows_to_tiles_main r size tile Hwf Hn Hd Sr) as (u & Eu & Su & Wu & Fu).
  assert (HLg : length (grid size tile) = length tile).
  { unfold grid. rewrite zipmap_length; now rewrite (divides_length _ _ Hd). }
  assert (Hlr : length (data r) = prod (grid size tile) * prod tile).
  { unfold wf in Hwf. rewrite Hwf, Sr. unfold prod at 1. simpl. lia. }
  assert (Hlu : length (data u) = prod size).
  { unfold wf in Wu. rewrite Wu, Su, prod_zipflat by lia. lia. }
  exists (mkT size (data u)). split; [exact Eu|]. split; [reflexivity|]. split; [exact Hlu|].
  rewrite resolve_tile_rows. simpl. fold tile.
  destruct (tiles_to_rows_main (mkT size (data u)) tile) as (p & Ep & Sp & Wp & Fp); auto.
  { unfold numel in *; simpl. lia. }
  simpl in *. rewrite Ep. f_equal. rewrite <- Sr.
  assert (p = mkT (grid size tile ++ tile) (data r)) as ->.
  { apply tensor_ext; auto.
    - unfold wf; simpl. rewrite Hlr, prod_app. reflexivity.
    - rewrite Sp. intros i Hi. apply valid_app_inv in Hi. destruct Hi as (a & b & -> & Ha & Hb).
      pose proof (valid_length _ _ Ha). pose proof (valid_length _ _ Hb).
      rewrite Fp by auto. rewrite <- Fu by auto. unfold at_index; simpl.
      rewrite Su, ravel_zipflat by (auto; lia). reflexivity. }
  simpl. now destruct r.
Qed.

(** Each (row, column) is the image of exactly one index. *)
Lemma tile_position_injective size tile i j :
  tile_divides size tile -> valid size i -> valid size j ->
  ravel (grid size tile) (tile_coord i tile) = ravel (grid size tile) (tile_coord j tile) ->
  ravel tile (tile_offset i tile) = ravel tile (tile_offset j tile) -> i = j.
Proof.
  intros Hd Hi Hj E1 E2.
  assert (tile_coord i tile = tile_coord j tile).
  { rewrite <- (unravel_ravel (grid size tile) (tile_coord i tile)) by (now apply tile_coord_valid).
    rewrite E1. apply unravel_ravel. now apply tile_coord_valid. }
  assert (tile_offset i tile = tile_offset j tile).
  { rewrite <- (unravel_ravel tile (tile_offset i tile)) by (now apply tile_offset_valid with size).
    rewrite E2. apply unravel_ravel. now apply tile_offset_valid with size. }
  rewrite <- (split_index tile i), <- (split_index tile j).
  - congruence.
  - rewrite (valid_length _ _ Hj). now apply divides_length.
  - rewrite (valid_length _ _ Hi). now apply divides_length.
Qed.

Lemma tile_position_surjective size tile row col :
  tile_divides size tile -> row < prod (grid size tile) -> col < prod tile ->
  exists i, valid size i /\ ravel (grid size tile) (tile_coord i tile) = row /\
            ravel tile (tile_offset i tile) = col.
Proof.
  intros Hd Hr Hc.
  pose proof (unravel_valid _ _ Hr) as Va. pose proof (unravel_valid _ _ Hc) as Vb.
  set (a := unravel (grid size tile) row) in *. set (b := unravel tile col) in *.
  exists (zipmap Nat.add (zipmap Nat.mul a tile) b).
  assert (G : forall size tile a b, tile_divides size tile -> valid (grid size tile) a -> valid tile b ->
     let i := zipmap Nat.add (zipmap Nat.mul a tile) b in
     valid size i /\ tile_coord i tile = a /\ tile_offset i tile = b).
  { clear. intros size tile a b H. revert a b.
    induction H as [|n t size tile [Ht [k Hk]] H IH]; intros a b Ha Hb; inversion Ha; inversion Hb; subst.
    - repeat split; constructor.
    - unfold grid, tile_coord, tile_offset, zipmap in *; simpl in *.
      match goal with h : Forall2 _ ?l1 (map _ _), h2 : Forall2 _ ?l2 tile |- _ => destruct (IH l1 l2 h h2) as (V & C & O) end.
      rewrite Nat.div_mul in * by lia.
      repeat split.
      + constructor; [nia|exact V].
      + f_equal; [|exact C]. rewrite Nat.div_add_l by lia. rewrite Nat.div_small by lia. lia.
      + f_equal; [|exact O]. rewrite Nat.add_comm, Nat.mod_add by lia. now apply Nat.mod_small. }
  destruct (G size tile a b Hd Va Vb) as (V & C & O). cbv zeta in *.
  rewrite C, O. split; [assumption|]. split; now apply ravel_unravel.
Qed.
