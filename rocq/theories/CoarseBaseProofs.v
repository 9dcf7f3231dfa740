(** Folds, names and the remapping of references. *)
From Coq Require Import String Ascii DecimalString DecimalZ DecimalFacts Relations.
From Verif Require Import Prelude GraphModel GraphSpec GraphProofs EngineModel EngineSpec EngineOptProofs EngineSchedProofs CoarseModel CoarseSpec CoarseValueProofs.
Local Open Scope nat_scope.
Local Open Scope list_scope.

(** ** Folds *)
Lemma in_split_pos {A} (x : A) l : In x l -> exists l1 l2, l = l1 ++ x :: l2.
Proof. apply in_split. Qed.

Lemma encloses_within g p : tidy g -> forall i l1 n l2, g_nodes g = l1 ++ n :: l2 -> length l1 = i ->
  forall fuel, i <= fuel -> (encloses fuel g p n = true <-> within g n p).
Proof.
  intros T i. induction i as [i IH] using (well_founded_induction lt_wf). intros l1 n l2 E Li fuel Lf. destruct (n_parent n) as [q|] eqn:Ep.
  - destruct (tidy_parents g T l1 n l2 q E Ep) as [Hq _]. apply in_map_iff in Hq. destruct Hq as (m & Em & Hm).
    destruct (in_split_pos m l1 Hm) as (a & b & Eab). destruct fuel as [|k]. { subst l1. rewrite app_length in Li. cbn in Li. lia. }
    assert (Gm : g_nodes g = a ++ m :: (b ++ n :: l2)) by (rewrite E, Eab, <- app_assoc; reflexivity).
    assert (Hin : In m (g_nodes g)) by (rewrite Gm; apply in_app_iff; right; now left).
    assert (La : length a < i) by (subst l1; rewrite app_length in Li; cbn in Li; lia).
    assert (W := IH (length a) La a m _ Gm eq_refl k ltac:(lia)).
    cbn [encloses]. rewrite Ep, (get_node_in g q m (tidy_ids g T) Hin Em), Bool.orb_true_iff, Nat.eqb_eq. split.
    + intros [<-|H]; [now constructor|]. apply (within_up g n q m p Ep Hin Em). now apply W.
    + intros H. inversion H as [a1 a2 E1|a1 q2 m2 a2 E1 Hm2 Em2 H2]; [left; congruence|]. right.
      assert (m2 = m) as -> by (apply (node_unique g m2 m (tidy_ids g T) Hm2 Hin); congruence). now apply W.
  - destruct fuel; cbn [encloses]; rewrite Ep; split; try discriminate; intros H; inversion H; congruence.
Qed.

Lemma encloses_iff g p n : tidy g -> In n (g_nodes g) -> (encloses (depth g) g p n = true <-> within g n p).
Proof.
  intros T H. destruct (in_split_pos n _ H) as (l1 & l2 & E). apply (encloses_within g p T (length l1) l1 n l2 E eq_refl).
  unfold depth. rewrite E, app_length. lia.
Qed.

Lemma leaf_iff g n : leaf g n = true <-> ~ In (n_id n) (g_folds g).
Proof. unfold leaf. rewrite Bool.negb_true_iff. apply mem_notin. Qed.

Lemma is_leaf_node g n : In n (g_nodes g) -> (is_leaf g (n_id n) <-> ~ In (n_id n) (g_folds g)).
Proof. intros H. unfold is_leaf, node_in. split; [tauto|]. intros L. split; [now apply in_map|exact L]. Qed.

Lemma fold_leaves_in g p x : tidy g -> (In x (fold_leaves g p) <-> (exists n, In n (g_nodes g) /\ n_id n = x /\ within g n p) /\ is_leaf g x).
Proof.
  intros T. unfold fold_leaves. rewrite in_map_iff. split.
  - intros (n & <- & H). apply filter_In in H. destruct H as [Hn H]. apply Bool.andb_true_iff in H. destruct H as [L E].
    apply leaf_iff in L. apply (encloses_iff g p n T Hn) in E. split; [now exists n|]. now apply (is_leaf_node g n Hn).
  - intros [(n & Hn & <- & W) L]. exists n. split; [reflexivity|]. apply filter_In. split; [exact Hn|]. apply Bool.andb_true_iff. split.
    + apply leaf_iff. exact (proj2 L).
    + now apply encloses_iff.
Qed.

Lemma before_filter_inv {A} (h : A -> bool) l x y : before (filter h l) x y -> before l x y.
Proof.
  intros (l1 & l2 & l3 & E). revert l1 E. induction l as [|z l IH]; intros l1 E; [destruct l1; discriminate|]. cbn [filter] in E. destruct (h z).
  - destruct l1 as [|w l1]; cbn [app] in E; injection E as -> E.
    + assert (Hy : In y l). { assert (In y (filter h l)) as H by (rewrite E; apply in_app_iff; right; now left). now apply filter_In in H. }
      destruct (in_split_pos y l Hy) as (a & b & ->). now exists [], a, b.
    + destruct (IH l1 E) as (a & b & d & ->). now exists (w :: a), b, d.
  - destruct (IH l1 E) as (a & b & d & ->). now exists (z :: a), b, d.
Qed.
Lemma before_map_filter {A B} (k : A -> B) (h : A -> bool) l x y : before (map k (filter h l)) x y -> before (map k l) x y.
Proof.
  intros (l1 & l2 & l3 & E). revert l1 E. induction l as [|z l IH]; intros l1 E; [destruct l1; discriminate|]. cbn [filter map] in *. destruct (h z).
  - destruct l1 as [|w l1]; cbn [app map] in E; injection E as Ez E.
    + assert (Hy : In y (map k l)).
      { assert (In y (map k (filter h l))) as H by (rewrite E; apply in_app_iff; right; now left). apply in_map_iff in H. destruct H as (u & <- & Hu). apply in_map. now apply filter_In in Hu. }
      destruct (in_split_pos y _ Hy) as (a & b & ->). rewrite Ez. now exists [], a, b.
    + destruct (IH l1 E) as (a & b & d & ->). now exists (k z :: a), b, d.
  - destruct (IH l1 E) as (a & b & d & ->). now exists (k z :: a), b, d.
Qed.

Lemma fold_outputs_exposed g p : tidy g -> exposed_list g p (fold_outputs g p).
Proof.
  intros T. unfold fold_outputs. split; [|split].
  - apply NoDup_filter. unfold fold_leaves. apply map_filter_nodup. exact (tidy_ids g T).
  - intros x. rewrite filter_In, (fold_leaves_in g p x T), Bool.orb_true_iff, existsb_exists, nmem_in. unfold output_ids. rewrite base_ids_in. unfold exposed.
    split; [intros [[W L] H]|intros (W & L & H)]; (split; [|try split]); try assumption; try (split; assumption).
    + destruct H as [(y & Hy & Hb)|H]; [left|now right]. apply outputs_feeds in Hy. apply Bool.andb_true_iff in Hb. destruct Hb as [B1 B2].
      assert (Hf := Hy). destruct Hy as (m & r & Hm & <- & _). exists m. apply Bool.negb_true_iff in B1, B2.
      assert (L' : is_leaf g (n_id m)). { apply is_leaf_node; [exact Hm|]. intros I. apply nmem_in in I. congruence. }
      split; [exact Hm|]. split; [exact L'|]. split; [|exact Hf]. intros W'.
      assert (I : In (n_id m) (fold_leaves g p)) by (apply fold_leaves_in; [exact T|split; [now exists m|exact L']]). apply nmem_in in I. congruence.
    + destruct H as [(m & Hm & Lm & Nw & F)|H]; [left|now right]. exists (n_id m). split; [now apply outputs_feeds|]. apply Bool.andb_true_iff. split; apply Bool.negb_true_iff.
      * destruct (nmem (n_id m) (fold_leaves g p)) eqn:E; [|reflexivity]. apply nmem_in in E. apply (fold_leaves_in g p _ T) in E. destruct E as [(n & Hn & En & W') _].
        assert (n = m) as -> by exact (node_unique g n m (tidy_ids g T) Hn Hm En). contradiction.
      * destruct (nmem (n_id m) (g_folds g)) eqn:E; [|reflexivity]. apply nmem_in in E. destruct Lm. contradiction.
  - intros x y B. apply before_filter_inv in B. unfold fold_leaves in B. exact (before_map_filter _ _ _ _ _ B).
Qed.

(** ** Names *)
Lemma smem_in k l : smem k l = true <-> In k l.
Proof. unfold smem. rewrite existsb_exists. split; [intros (x & H & E); apply String.eqb_eq in E; now subst|intros H; exists k; split; [exact H|apply String.eqb_refl]]. Qed.

Lemma cget_cset k k' r cx : cget k (cset k' r cx) = if String.eqb k' k then Some r else cget k cx.
Proof.
  unfold cget, cset. induction cx as [|[j x] cx IH]; cbn [aset aget]; [reflexivity|].
  destruct (String.eqb_spec j k') as [->|N]; cbn [aget].
  - destruct (String.eqb_spec k' k); reflexivity.
  - rewrite IH. destruct (String.eqb_spec j k), (String.eqb_spec k' k); congruence.
Qed.

Lemma cget_in k cx r : cget k cx = Some r -> In (k, r) cx.
Proof.
  unfold cget. induction cx as [|[j x] cx IH]; cbn [aget]; [discriminate|]. destruct (String.eqb_spec j k) as [->|N]; [intros E; injection E as ->; now left|].
  intros E. right. now apply IH.
Qed.
Lemma cget_some k cx : In k (map fst cx) -> exists r, cget k cx = Some r.
Proof.
  unfold cget. induction cx as [|[j x] cx IH]; cbn [aget map fst]; [intros []|]. intros H. destruct (String.eqb_spec j k) as [->|N]; [eauto|].
  destruct H as [H|H]; [contradiction|now apply IH].
Qed.

Lemma has_char_app ch a b : has_char ch (a ++ b)%string <-> has_char ch a \/ has_char ch b.
Proof. induction a as [|x a IH]; cbn; [tauto|]. rewrite IH. tauto. Qed.

Lemma lifted_bracket n a : has_char "["%char (lifted_key n a).
Proof. unfold lifted_key. rewrite has_char_app. right. cbn. now left. Qed.

Lemma partition_app n t : ~ has_char "["%char n -> partition_bracket (n ++ String "["%char t)%string = Some (n, t).
Proof.
  induction n as [|ch n IH]; intros N; cbn [append partition_bracket]; [reflexivity|]. cbn in N.
  destruct (Ascii.eqb_spec ch "["%char) as [->|D]; [tauto|]. rewrite IH by tauto. reflexivity.
Qed.
Lemma partition_none n : ~ has_char "["%char n -> partition_bracket n = None.
Proof.
  induction n as [|ch n IH]; intros N; cbn [partition_bracket]; [reflexivity|]. cbn in N.
  destruct (Ascii.eqb_spec ch "["%char) as [->|D]; [tauto|]. now rewrite IH by tauto.
Qed.
Lemma strip_app t : strip_bracket (t ++ "]")%string = Some t.
Proof.
  induction t as [|ch t IH]; [reflexivity|]. cbn [append strip_bracket]. destruct (t ++ "]")%string eqn:E; [destruct t; discriminate|]. now rewrite IH.
Qed.


(** [int(str(i)) == i] *)
Lemma parse_int i : parse_attr (attr_text (AInt i)) = AInt i.
Proof.
  unfold parse_attr, attr_text. rewrite NilZero.isi.
  - f_equal. apply DecimalZ.of_to.
  - destruct i; cbn; try discriminate. intros E. injection E as E. now apply DecimalPos.Unsigned.to_uint_nonnil in E.
  - destruct i; cbn; try discriminate. intros E. injection E as E. now apply DecimalPos.Unsigned.to_uint_nonnil in E.
Qed.
Lemma parse_attr_text a : match a with AStr t => NilZero.int_of_string t = None | _ => True end -> parse_attr (attr_text a) = a.
Proof. destruct a as [i|t]; [intros _; apply parse_int|]. intros E. unfold parse_attr, attr_text. now rewrite E. Qed.

Lemma partition_lifted n a : ~ has_char "["%char n -> partition_bracket (lifted_key n a) = Some (n, (attr_text a ++ "]")%string).
Proof. intros N. unfold lifted_key. exact (partition_app n _ N). Qed.
Lemma lifted_inj n a n' a' : ~ has_char "["%char n -> ~ has_char "["%char n' -> lifted_key n a = lifted_key n' a' -> n = n' /\ attr_text a = attr_text a'.
Proof.
  intros N N' E. apply (f_equal partition_bracket) in E. rewrite !partition_lifted in E by assumption. injection E as -> E. split; [reflexivity|].
  apply (f_equal strip_bracket) in E. rewrite !strip_app in E. congruence.
Qed.

(** ** Different names *)
Lemma NoDup_l {A} (a b : list A) : NoDup (a ++ b) -> NoDup a.
Proof. induction a as [|x a IH]; cbn; intros N; [constructor|]. inversion N; subst. constructor; [|now apply IH]. intros I. apply H1. apply in_app_iff. now left. Qed.
Lemma NoDup_r {A} (a b : list A) : NoDup (a ++ b) -> NoDup b.
Proof. induction a as [|x a IH]; cbn; intros N; [exact N|]. inversion N; subst. now apply IH. Qed.
Lemma node_name_unique g n m : tidy g -> In n (g_nodes g) -> In m (g_nodes g) -> n_name n = n_name m -> n = m.
Proof.
  intros T Hn Hm E. assert (N := tidy_names g T). apply NoDup_l in N. revert N Hn Hm. generalize (g_nodes g). intros l. induction l as [|x l IH]; [intros _ []|].
  cbn [map]. intros N. inversion N as [|? ? Nx Nl]; subst. intros [->|Hn] [->|Hm]; auto; exfalso; apply Nx; [rewrite E|rewrite <- E]; now apply in_map.
Qed.
Lemma input_not_node g n k i : tidy g -> In n (g_nodes g) -> In (k, i) (g_inputs g) -> n_name n <> k.
Proof.
  intros T Hn Hi E. assert (N := tidy_names g T). revert N. assert (I := in_map n_name _ _ Hn). rewrite E in I. apply in_split in I. destruct I as (a & b & ->).
  rewrite <- app_assoc. cbn [app]. intros N. apply NoDup_remove_2 in N. apply N. rewrite !in_app_iff. right. right. change k with (fst (k, i)). now apply in_map.
Qed.
Lemma fst_unique (l : list (string * nat)) k i j : NoDup (map fst l) -> In (k, i) l -> In (k, j) l -> i = j.
Proof.
  induction l as [|[a b] l IH]; [intros _ []|]. cbn [map fst]. intros N. inversion N as [|? ? Nx Nl]; subst. intros [H1|H1] [H2|H2]; [congruence| | |now apply IH].
  - injection H1 as -> ->. exfalso. apply Nx. change k with (fst (k, j)). now apply in_map.
  - injection H2 as -> ->. exfalso. apply Nx. change k with (fst (k, i)). now apply in_map.
Qed.
Lemma input_name_unique g k i j : tidy g -> In (k, i) (g_inputs g) -> In (k, j) (g_inputs g) -> i = j.
Proof. intros T. apply fst_unique. assert (N := tidy_names g T). now apply NoDup_r in N. Qed.
Lemma node_bracket g n : tidy g -> In n (g_nodes g) -> ~ has_char "["%char (n_name n).
Proof. intros T H. apply (tidy_chars g T). apply in_app_iff. left. now apply in_map. Qed.
Lemma input_bracket g k i : tidy g -> In (k, i) (g_inputs g) -> ~ has_char "["%char k.
Proof. intros T H. apply (tidy_chars g T). apply in_app_iff. right. change k with (fst (k, i)). now apply in_map. Qed.
