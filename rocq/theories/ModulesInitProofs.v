From Coq Require Import String Ascii.
From Verif Require Import Prelude ModulesModel ModulesSpec ModulesProofs ModulesConvProofs.
Local Open Scope nat_scope.
Local Open Scope list_scope.

(** ** Conversion map (C28) *)
Lemma filter_singleton (P : nat -> bool) l m : NoDup l -> (filter P l = [m] <-> only P l m).
Proof.
  intros N. split.
  - intros E. assert (H : In m (filter P l)) by (rewrite E; now left). apply filter_In in H. destruct H as [H1 H2].
    split; [assumption|]. split; [assumption|]. intros b Hb Pb.
    assert (In b (filter P l)) as H by (apply filter_In; auto). rewrite E in H. destruct H as [H|[]]. auto.
  - intros (H1 & H2 & H3). pose proof (NoDup_filter P N) as N'.
    assert (A : forall b, In b (filter P l) <-> b = m).
    { intros b. rewrite filter_In. split; [intros [Hb Pb]; auto|intros ->; auto]. }
    destruct (filter P l) as [|a [|b l']] eqn:E.
    + destruct (proj2 (A m) eq_refl).
    + f_equal. apply A. now left.
    + exfalso. assert (a = m) by (apply A; now left). assert (b = m) by (apply A; right; now left). subst.
      apply NoDup_cons_iff in N'. apply (proj1 N'). now left.
Qed.
Lemma filter_nil_iff {A} (P : A -> bool) l : filter P l = [] <-> forall x, In x l -> P x = false.
Proof.
  induction l as [|a l IH]; simpl; [split; easy|]. destruct (P a) eqn:E; split; intros H.
  - discriminate.
  - rewrite (H a (or_introl eq_refl)) in E. discriminate.
  - intros x [<-|Hx]; [assumption|]. now apply IH.
  - apply IH. intros x Hx. apply H. now right.
Qed.
Lemma last_opt_snoc {A} (l : list A) x : last_opt (l ++ [x]) = Some x.
Proof. induction l as [|a l IH]; [reflexivity|]. simpl. destruct (l ++ [x]) eqn:E; [destruct l; discriminate|]. assumption. Qed.
Lemma last_opt_none {A} (l : list A) : last_opt l = None <-> l = [].
Proof.
  destruct l as [|x l _] using rev_ind; [tauto|]. rewrite last_opt_snoc. split; [discriminate|]. destruct l; discriminate.
Qed.

Section Map_.
  Variables (is_module is_qmodule : nat -> bool) (base_module : nat).
  Notation mb := (module_bases is_module is_qmodule base_module).
  Notation rec1 := (record_quantized_module is_module is_qmodule base_module).
  Notation record_all := (record_all is_module is_qmodule base_module).
  Notation std := (std is_module is_qmodule base_module).
  Notation sf := (stands_for is_module is_qmodule base_module).

  Lemma module_bases_iff bases mro m : NoDup bases -> NoDup mro -> (mb bases mro = [m] <-> sf bases mro m).
  Proof.
    intros N1 N2. unfold module_bases, stands_for.
    rewrite <- (filter_singleton _ bases m N1), <- (filter_singleton _ mro m N2), <- filter_nil_iff.
    destruct (filter _ bases) as [|a l] eqn:E; split.
    - intros H. right. auto.
    - intros [H|[_ H]]; [discriminate|assumption].
    - intros H. now left.
    - intros [H|[H _]]; [assumption|discriminate].
  Qed.

  (** entries of the map for one float class *)
  Definition entries (q : qmap) (m : nat) : list nat := match lookup m q with Some cs => cs | None => [] end.
  Lemma record_entry_lookup m c q k : entries (record_entry m c q) k = if k =? m then entries q k ++ [c] else entries q k.
  Proof.
    unfold entries. induction q as [|[m' cs] q IH]; simpl.
    - destruct (k =? m); reflexivity.
    - destruct (m =? m') eqn:E; simpl.
      + apply Nat.eqb_eq in E. subst m'. destruct (k =? m); [reflexivity|]. destruct (lookup k q); reflexivity.
      + destruct (k =? m') eqn:E2; [|exact IH]. apply Nat.eqb_eq in E2. subst m'. now rewrite Nat.eqb_sym, E.
  Qed.
  Lemma record_entry_keys m c q k : In k (map fst (record_entry m c q)) <-> k = m \/ In k (map fst q).
  Proof.
    induction q as [|[m' cs] q IH]; simpl; [intuition|]. destruct (m =? m') eqn:E; simpl.
    - apply Nat.eqb_eq in E. subst. intuition.
    - rewrite IH. intuition.
  Qed.
  Lemma record_entry_nodup m c q : NoDup (map fst q) -> NoDup (map fst (record_entry m c q)).
  Proof.
    induction q as [|[m' cs] q IH]; intros N; simpl; [constructor; [easy|constructor]|].
    apply NoDup_cons_iff in N. destruct N as [N1 N2]. destruct (m =? m') eqn:E; simpl.
    - now constructor.
    - constructor; [|auto]. intros H. apply record_entry_keys in H. destruct H as [->|H]; [|auto]. now rewrite Nat.eqb_refl in E.
  Qed.
  Lemma qmm_lookup allowed q m : NoDup (map fst q) -> lookup m (quantized_module_map allowed q) = last_opt (filter allowed (entries q m)).
  Proof.
    unfold quantized_module_map, entries. induction q as [|[m' cs] q IH]; intros N; simpl; [reflexivity|].
    apply NoDup_cons_iff in N. destruct N as [N1 N2]. destruct (m =? m') eqn:E.
    - apply Nat.eqb_eq in E. subst m'. destruct (last_opt (filter allowed cs)) as [c|]; simpl; [now rewrite Nat.eqb_refl|].
      rewrite (IH N2). destruct (lookup m q) eqn:El; [|reflexivity]. exfalso. apply N1.
      clear - El. induction q as [|[k v] q IH]; simpl in *; [discriminate|]. destruct (m =? k) eqn:E; [apply Nat.eqb_eq in E; now left|right; auto].
    - destruct (last_opt (filter allowed cs)) as [c|]; simpl; [rewrite E|]; now apply IH.
  Qed.
  Lemma qmm_keys_nodup allowed q : NoDup (map fst q) -> NoDup (map fst (quantized_module_map allowed q)).
  Proof.
    unfold quantized_module_map. induction q as [|[m' cs] q IH]; intros N; simpl; [constructor|].
    apply NoDup_cons_iff in N. destruct N as [N1 N2]. destruct (last_opt (filter allowed cs)) as [c|]; simpl; [|auto].
    constructor; [|auto]. intros H. apply N1. apply in_map_iff in H. destruct H as ([k v] & Ek & H). simpl in Ek. subst k.
    apply in_flat_map in H. destruct H as ([k cs'] & Hin & H). simpl in H. destruct (last_opt (filter allowed cs')); [|easy].
    destruct H as [H|[]]. injection H as -> _. apply (in_map fst) in Hin. exact Hin.
  Qed.

  Lemma record_all_app q a b : record_all q (a ++ b) = record_all (record_all q a) b.
  Proof. unfold record_all. now rewrite fold_left_app. Qed.
  Lemma record_all_one q r : record_all q [r] = rec1 q (fst (fst r)) (snd (fst r)) (snd r).
  Proof. reflexivity. Qed.
  Lemma record_all_nodup rs : forall q, NoDup (map fst q) -> NoDup (map fst (record_all q rs)).
  Proof.
    induction rs as [|r rs IH]; intros q N; [assumption|]. apply IH. unfold record_quantized_module.
    destruct (mb _ _) as [|m [|]]; auto. now apply record_entry_nodup.
  Qed.
  Lemma rec1_entries q c bases mro m : NoDup bases -> NoDup mro ->
    (sf bases mro m /\ entries (rec1 q c bases mro) m = entries q m ++ [c]) \/ (~ sf bases mro m /\ entries (rec1 q c bases mro) m = entries q m).
  Proof.
    intros N1 N2. unfold record_quantized_module. rewrite <- (module_bases_iff _ _ m N1 N2).
    destruct (mb bases mro) as [|m' [|m2 l]].
    - right. split; [discriminate|reflexivity].
    - rewrite record_entry_lookup. destruct (m =? m') eqn:E.
      + apply Nat.eqb_eq in E. subst. now left.
      + right. split; [|reflexivity]. intros [= ->]. now rewrite Nat.eqb_refl in E.
    - right. split; [discriminate|reflexivity].
  Qed.
  Lemma last_of_history allowed rs m c : Forall proper rs ->
    (last_opt (filter allowed (entries (record_all [] rs) m)) = Some c <-> last_registered std allowed rs m c).
  Proof.
    induction rs as [|r rs IH] using rev_ind; intros HP.
    - unfold entries. simpl. split; [discriminate|]. intros (pre & r & post & E & _). destruct pre; discriminate.
    - apply Forall_app in HP. destruct HP as [HP Hr]. inversion Hr as [|? ? [N1 N2] _]; subst. specialize (IH HP).
      rewrite record_all_app, record_all_one.
      destruct (rec1_entries (record_all [] rs) (fst (fst r)) (snd (fst r)) (snd r) m N1 N2) as [[Hs E]|[Hs E]]; rewrite E.
      + rewrite filter_app. cbn [filter]. destruct (allowed (fst (fst r))) eqn:Ea.
        * rewrite last_opt_snoc. split.
          -- intros [= <-]. exists rs, r, []. split; [reflexivity|]. split; [reflexivity|]. split; [exact Hs|]. split; [assumption|easy].
          -- intros (pre & r' & post & Eq & Hc & Hst & Hal & Hpost).
             destruct post as [|x post _] using rev_ind.
             ++ apply app_inj_tail in Eq. destruct Eq as [_ <-]. now subst.
             ++ exfalso. rewrite app_comm_cons, app_assoc in Eq. apply app_inj_tail in Eq. destruct Eq as [_ <-].
                rewrite (Hpost r) in Ea; [discriminate|apply in_or_app; right; now left|exact Hs].
        * rewrite app_nil_r, IH. split.
          -- intros (pre & r' & post & -> & Hc & Hst & Hal & Hpost). exists pre, r', (post ++ [r]). rewrite <- app_assoc. split; [reflexivity|].
             do 3 (split; [assumption|]). intros r2 Hin. apply in_app_or in Hin. destruct Hin as [Hin|[<-|[]]]; auto.
          -- intros (pre & r' & post & Eq & Hc & Hst & Hal & Hpost). destruct post as [|x post _] using rev_ind.
             ++ apply app_inj_tail in Eq. destruct Eq as [_ <-]. subst c. congruence.
             ++ rewrite app_comm_cons, app_assoc in Eq. apply app_inj_tail in Eq. destruct Eq as [-> <-]. exists pre, r', post.
                split; [reflexivity|]. do 3 (split; [assumption|]). intros r2 Hin. apply Hpost. apply in_or_app. now left.
      + rewrite IH. split.
        * intros (pre & r' & post & -> & Hc & Hst & Hal & Hpost). exists pre, r', (post ++ [r]). rewrite <- app_assoc. split; [reflexivity|].
          do 3 (split; [assumption|]). intros r2 Hin Hst2. apply in_app_or in Hin. destruct Hin as [Hin|[<-|[]]]; [auto|contradiction].
        * intros (pre & r' & post & Eq & Hc & Hst & Hal & Hpost). destruct post as [|x post _] using rev_ind.
          -- apply app_inj_tail in Eq. destruct Eq as [_ <-]. contradiction.
          -- rewrite app_comm_cons, app_assoc in Eq. apply app_inj_tail in Eq. destruct Eq as [-> <-]. exists pre, r', post.
             split; [reflexivity|]. do 3 (split; [assumption|]). intros r2 Hin. apply Hpost. apply in_or_app. now left.
  Qed.
  Lemma map_is_last_registered allowed rs m c : Forall proper rs ->
    (lookup m (quantized_module_map allowed (record_all [] rs)) = Some c <-> last_registered std allowed rs m c).
  Proof. intros HP. rewrite qmm_lookup; [now apply last_of_history|]. apply record_all_nodup. constructor. Qed.
  Lemma registering_keeps_entries allowed rs rs' m c : Forall proper (rs ++ rs') ->
    lookup m (quantized_module_map allowed (record_all [] rs)) = Some c ->
    exists c', lookup m (quantized_module_map allowed (record_all [] (rs ++ rs'))) = Some c'.
  Proof.
    intros HP H. assert (N : forall l, NoDup (map fst (record_all [] l))) by (intros l; apply record_all_nodup; constructor).
    rewrite qmm_lookup in H |- * by apply N.
    induction rs' as [|r rs' IH] using rev_ind; [rewrite app_nil_r; eauto|].
    rewrite app_assoc in HP |- *. apply Forall_app in HP. destruct HP as [HP Hr]. destruct (IH HP) as (c' & Hc'). inversion Hr as [|? ? [N1 N2] _]; subst.
    rewrite record_all_app, record_all_one.
    destruct (rec1_entries (record_all [] (rs ++ rs')) (fst (fst r)) (snd (fst r)) (snd r) m N1 N2) as [[_ E]|[_ E]]; rewrite E; [|eauto].
    rewrite filter_app. cbn [filter]. destruct (allowed (fst (fst r))); [rewrite last_opt_snoc; eauto|rewrite app_nil_r; eauto].
  Qed.

  (** programs *)
  Variable mod_of : nat -> string.
  Notation run := (frun is_module is_qmodule base_module mod_of).
  Lemma frun_spec p : forall past flt,
    run (record_all [] past) flt p = (record_all [] (past ++ registrations p), flt,
      map (fun fq => quantized_module_map (allow_listed mod_of (fst fq)) (record_all [] (snd fq))) (queries past flt p)).
  Proof.
    induction p as [|c b mro rest IH|rest IH|ms raises body IHb rest IHr]; intros past flt.
    - cbn. now rewrite app_nil_r.
    - cbn [frun registrations queries].
      change (rec1 (record_all [] past) c b mro) with (record_all (record_all [] past) [(c, b, mro)]). rewrite <- record_all_app, IH.
      now rewrite <- app_assoc.
    - cbn [frun registrations queries]. rewrite IH. reflexivity.
    - cbn [frun registrations queries]. rewrite IHb, IHr, map_app, app_assoc. reflexivity.
  Qed.
End Map_.

(** ** Tags (C66) *)
Lemma str_app_assoc a b c : ((a ++ b) ++ c)%string = (a ++ (b ++ c))%string.
Proof. induction a as [|x a IH]; simpl; [reflexivity|now rewrite IH]. Qed.
Lemma str_app_nil a : (a ++ "")%string = a.
Proof. induction a as [|x a IH]; simpl; [reflexivity|now rewrite IH]. Qed.
Lemma split_slash_nonempty s : forall cur, split_slash cur s <> [].
Proof. induction s as [|c s IH]; intros cur; simpl; [discriminate|]. destruct (Ascii.eqb c "/"); [discriminate|apply IH]. Qed.
Lemma join_cons x l : l <> [] -> join (x :: l) = (x ++ "/" ++ join l)%string.
Proof. destruct l; [congruence|reflexivity]. Qed.
Lemma join_split s : forall cur, join (split_slash cur s) = (cur ++ s)%string.
Proof.
  induction s as [|c s IH]; intros cur; cbn [split_slash]; [simpl; now rewrite str_app_nil|].
  destruct (Ascii.eqb c "/") eqn:E.
  - apply Ascii.eqb_eq in E. subst c. rewrite join_cons by apply split_slash_nonempty. rewrite IH. reflexivity.
  - rewrite IH, str_app_assoc. reflexivity.
Qed.
Lemma join_split_id s : join (split s) = s.
Proof. apply join_split. Qed.
Lemma split_app a b : forall cur, split_slash cur (a ++ "/" ++ b) = split_slash cur a ++ split b.
Proof.
  induction a as [|c a IH]; intros cur; cbn [split_slash append]; [reflexivity|].
  destruct (Ascii.eqb c "/"); [now rewrite IH|apply IH].
Qed.
Lemma join_app l1 l2 : l1 <> [] -> l2 <> [] -> join (l1 ++ l2) = (join l1 ++ "/" ++ join l2)%string.
Proof.
  intros H1 H2. induction l1 as [|x l1 IH]; [congruence|]. destruct l1 as [|y l1].
  - simpl app. now rewrite join_cons.
  - change ((x :: y :: l1) ++ l2) with (x :: ((y :: l1) ++ l2)). rewrite !join_cons by discriminate. rewrite IH by discriminate. now rewrite !str_app_assoc.
Qed.
Lemma hierarchy_iff u t : In t (hierarchy u) <-> descends u t.
Proof.
  unfold hierarchy, descends. rewrite in_map_iff. split.
  - intros (i & <- & Hi). apply in_rev, in_seq in Hi.
    destruct (Nat.eq_dec i (length (split u))) as [->|Hne].
    + left. now rewrite firstn_all, join_split_id.
    + right. exists (join (skipn i (split u))). rewrite <- join_app.
      * now rewrite firstn_skipn, join_split_id.
      * intros H. apply (f_equal (@length _)) in H. rewrite firstn_length in H. cbn [length] in H. lia.
      * intros H. apply (f_equal (@length _)) in H. rewrite skipn_length in H. cbn [length] in H. lia.
  - assert (L : forall s, 1 <= length (split s)).
    { intros s. pose proof (split_slash_nonempty s EmptyString) as H. unfold split. destruct (split_slash "" s); [congruence|simpl; lia]. }
    intros [->|(s & ->)].
    + exists (length (split t)). rewrite firstn_all, join_split_id. split; [reflexivity|]. apply -> in_rev. apply in_seq. pose proof (L t). lia.
    + assert (E : split (t ++ "/" ++ s) = split t ++ split s) by apply split_app. rewrite E.
      exists (length (split t)). rewrite firstn_app, firstn_all, Nat.sub_diag. cbn [firstn]. rewrite app_nil_r, join_split_id.
      split; [reflexivity|]. apply -> in_rev. apply in_seq. rewrite app_length. pose proof (L t). lia.
Qed.
Lemma has_tag_in ts t : has_tag ts t = true <-> In t ts.
Proof.
  unfold has_tag. rewrite existsb_exists. split.
  - intros (x & H & E). apply String.eqb_eq in E. now subst.
  - intros H. exists t. split; [assumption|apply String.eqb_refl].
Qed.
Lemma metadata_iff us t : has_tag (metadata_tags us) t = true <-> exists u, In u us /\ descends u t.
Proof.
  rewrite has_tag_in. unfold metadata_tags.
  assert (G : forall acc, In t (fold_left add_tag us acc) <-> In t acc \/ exists u, In u us /\ descends u t).
  { induction us as [|u us IH]; intros acc; cbn [fold_left].
    - split; [now left|]. intros [H|(u & [] & _)]; assumption.
    - rewrite IH. unfold add_tag. rewrite in_app_iff, hierarchy_iff. split.
      + intros [[H|H]|(v & Hv & H)]; [right; exists u; split; [now left|assumption]|now left|right; exists v; split; [now right|assumption]].
      + intros [H|(v & [<-|Hv] & H)]; [left; now right|left; now left|right; eauto]. }
  rewrite G. simpl. split; [intros [[]|H]; assumption|now right].
Qed.
Lemma tag_query_iff tags us : tag_fragment_match tags (Some (metadata_tags us)) = true <->
  forall t, In t tags -> exists u, In u us /\ descends u t.
Proof.
  unfold tag_fragment_match. rewrite forallb_forall. split; intros H t Ht.
  - apply metadata_iff. auto.
  - apply metadata_iff. auto.
Qed.
Lemma descends_refl t : descends t t.
Proof. now left. Qed.
Lemma descends_trans a b c : descends a b -> descends b c -> descends a c.
Proof.
  intros [->|(s & ->)] [->|(s' & ->)]; [now left|right; eauto|right; eauto|].
  right. exists (s' ++ "/" ++ s)%string. now rewrite !str_app_assoc.
Qed.

(** is_extension *)
Lemma attrs_extend_true self other : (forall k v, In (k, v) self -> (k = "shape"%string /\ v = None) \/ slookup k other <> None) ->
  exists b, attrs_extend self other = Ok b /\
    (b = true <-> forall k v, In (k, v) self -> (k = "shape"%string /\ v = None) \/ slookup k other = Some v).
Proof.
  induction self as [|[k v] self IH]; intros H; cbn [attrs_extend]; [exists true; split; [reflexivity|]; split; [intros _ ? ? []|reflexivity]|].
  destruct (IH (fun k' v' Hin => H k' v' (or_intror Hin))) as (b & Eb & Hb).
  assert (Skip : (k = "shape"%string /\ v = None) -> (b = true <-> forall k' v', In (k', v') ((k, v) :: self) -> (k' = "shape"%string /\ v' = None) \/ slookup k' other = Some v')).
  { intros Hs. rewrite Hb. split; [intros G k' v' [E|Hin]; [injection E as <- <-; now left|auto]|intros G k' v' Hin; apply G; now right]. }
  destruct (String.eqb k "shape" && match v with None => true | _ => false end) eqn:Es.
  - exists b. split; [assumption|]. apply Skip. apply andb_true_iff in Es. destruct Es as [E1 E2]. apply String.eqb_eq in E1.
    destruct v; [discriminate|auto].
  - assert (Hns : ~ (k = "shape"%string /\ v = None)). { intros [-> ->]. cbn in Es. discriminate. }
    destruct (H k v (or_introl eq_refl)) as [Hk|Hk]; [contradiction|]. destruct (slookup k other) as [v'|] eqn:El; [|congruence].
    assert (Go : v = v' -> (b = true <-> forall k' w, In (k', w) ((k, v) :: self) -> (k' = "shape"%string /\ w = None) \/ slookup k' other = Some w)).
    { intros <-. rewrite Hb. split; [intros G k' w [E|Hin]; [injection E as <- <-; now right|auto]|intros G k' w Hin; apply G; now right]. }
    assert (No : v <> v' -> (false = true <-> forall k' w, In (k', w) ((k, v) :: self) -> (k' = "shape"%string /\ w = None) \/ slookup k' other = Some w)).
    { intros Hne. split; [discriminate|]. intros G. destruct (G k v (or_introl eq_refl)) as [?|G']; [contradiction|]. congruence. }
    destruct v as [a|], v' as [a'|].
    + destruct (a =? a') eqn:E.
      * apply Nat.eqb_eq in E. subst. exists b. split; [assumption|]. now apply Go.
      * exists false. split; [reflexivity|]. apply No. intros [= ->]. now rewrite Nat.eqb_refl in E.
    + exists false. split; [reflexivity|]. now apply No.
    + exists false. split; [reflexivity|]. now apply No.
    + exists b. split; [assumption|]. now apply Go.
Qed.

(** ** Initialization *)
Lemma getattr_slookup n kids : getattr_mod n kids = match slookup n kids with Some v => v | None => None end.
Proof. induction kids as [|[k v] kids IH]; simpl; [reflexivity|]. destruct (String.eqb n k); auto. Qed.

Section Collect.
  Variable score : nat -> fresult -> Z.
  Notation ups := (upsert score).
  Notation col := (collect score).
  Lemma upsert_keys q it ms k : In k (map fst (ups q it ms)) <-> k = q \/ In k (map fst ms).
  Proof.
    induction ms as [|[q' it'] ms IH]; simpl; [intuition|]. destruct (q =? q') eqn:E.
    - apply Nat.eqb_eq in E. subst q'. destruct (_ <=? _)%Z; simpl; intuition.
    - simpl. rewrite IH. intuition.
  Qed.
  Lemma upsert_nodup q it ms : NoDup (map fst ms) -> NoDup (map fst (ups q it ms)).
  Proof.
    induction ms as [|[q' it'] ms IH]; intros N; simpl; [constructor; [easy|constructor]|].
    apply NoDup_cons_iff in N. destruct N as [N1 N2]. destruct (q =? q') eqn:E.
    - destruct (_ <=? _)%Z; simpl; now constructor.
    - simpl. constructor; [|auto]. intros H. apply upsert_keys in H. destruct H as [->|H]; [|auto]. now rewrite Nat.eqb_refl in E.
  Qed.
  Lemma upsert_in q it ms k x : NoDup (map fst ms) -> In (k, x) (ups q it ms) ->
    (k <> q /\ In (k, x) ms) \/
    (k = q /\ x = it /\ forall y, In (q, y) ms -> (score (snd y) (fst y) <= score (snd it) (fst it))%Z) \/
    (k = q /\ In (q, x) ms /\ (score (snd it) (fst it) < score (snd x) (fst x))%Z).
  Proof.
    induction ms as [|[q' it'] ms IH]; intros N H; cbn [upsert] in H.
    - destruct H as [H|[]]. injection H as <- <-. right. left. easy.
    - cbn [map fst] in N. apply NoDup_cons_iff in N. destruct N as [N1 N2]. destruct (q =? q') eqn:E.
      + apply Nat.eqb_eq in E. subst q'. assert (Hno : forall y, ~ In (q, y) ms). { intros y Hy. apply N1. apply (in_map fst) in Hy. exact Hy. }
        destruct (score (snd it') (fst it') <=? score (snd it) (fst it))%Z eqn:El.
        * destruct H as [H|H].
          -- injection H as <- <-. right. left. split; [reflexivity|]. split; [reflexivity|]. intros y [Hy|Hy]; [injection Hy as <-; now apply Z.leb_le|exfalso; eapply Hno; eauto].
          -- left. split; [|now right]. intros ->. eapply Hno; eauto.
        * destruct H as [H|H].
          -- injection H as <- <-. right. right. split; [reflexivity|]. split; [now left|]. apply Z.leb_gt in El. assumption.
          -- left. split; [|now right]. intros ->. eapply Hno; eauto.
      + destruct H as [H|H].
        * injection H as <- <-. left. split; [intros ->; now rewrite Nat.eqb_refl in E|now left].
        * destruct (IH N2 H) as [[A B]|[(A & B & C)|(A & B & C)]].
          -- left. split; [assumption|now right].
          -- right. left. split; [assumption|]. split; [assumption|]. intros y [Hy|Hy]; [injection Hy as -> _; now rewrite Nat.eqb_refl in E|auto].
          -- right. right. split; [assumption|]. split; [now right|assumption].
  Qed.
  Lemma collect_spec cands : NoDup (map fst (col cands)) /\
    (forall q, In q (map fst (col cands)) <-> exists it, In it cands /\ f_mod (fst it) = q) /\
    (forall q it, In (q, it) (col cands) -> wins score cands q it).
  Proof.
    unfold collect. induction cands as [|c cands IH] using rev_ind.
    - cbn. split; [constructor|]. split; [|easy]. intros q. split; [easy|]. intros (it & [] & _).
    - rewrite fold_left_app. cbn [fold_left]. destruct IH as (N & K & W).
      set (ms := fold_left (fun ms it => ups (f_mod (fst it)) it ms) cands []) in *. split; [now apply upsert_nodup|]. split.
      + intros q. rewrite upsert_keys, K. split.
        * intros [->|(it & H1 & H2)]; [exists c; split; [apply in_or_app; right; now left|reflexivity]|exists it; split; [apply in_or_app; now left|assumption]].
        * intros (it & H1 & H2). apply in_app_or in H1. destruct H1 as [H1|[<-|[]]]; [right; eauto|now left].
      + intros q it H. destruct (upsert_in _ _ _ _ _ N H) as [[A B]|[(A & B & C)|(A & B & C)]].
        * destruct (W q it B) as (pre & post & E & Hf & H1 & H2). exists pre, (post ++ [c]). rewrite E, <- app_assoc. split; [reflexivity|].
          split; [assumption|]. split; [assumption|]. intros it' Hin Hq. apply in_app_or in Hin. destruct Hin as [Hin|[<-|[]]]; [auto|congruence].
        * subst it. exists cands, []. split; [reflexivity|]. split; [now symmetry|]. split; [|easy].
          intros it' Hin Hq.
          (* the best so far dominates every earlier candidate *)
          assert (Hk : In q (map fst ms)) by (apply K; eauto). apply in_map_iff in Hk. destruct Hk as ([q2 y] & Eq & Hy). simpl in Eq. subst q2.
          rewrite A in Hy. specialize (C y Hy). rewrite <- A in Hy. destruct (W q y Hy) as (pre & post & E & Hf & H1 & H2).
          subst cands. apply in_app_or in Hin. destruct Hin as [Hin|[<-|Hin]].
          -- specialize (H1 it' Hin Hq). lia.
          -- lia.
          -- specialize (H2 it' Hin Hq). lia.
        * rewrite <- A in B. destruct (W q it B) as (pre & post & E & Hf & H1 & H2). exists pre, (post ++ [c]). rewrite E, <- app_assoc. split; [reflexivity|].
          split; [assumption|]. split; [assumption|]. intros it' Hin Hq. apply in_app_or in Hin. destruct Hin as [Hin|[<-|[]]]; [auto|assumption].
  Qed.
End Collect.

Lemma Forall2_impl_in {A B} (P Q : A -> B -> Prop) l l' : (forall a b, In a l -> P a b -> Q a b) -> Forall2 P l l' -> Forall2 Q l l'.
Proof. intros H F. induction F; constructor; [apply H; [now left|assumption]|]. apply IHF. intros a b Ha. apply H. now right. Qed.

Section InitP.
  Variables (is_quantizer is_stub : nat -> bool).
  Variable factory : nat -> string -> modrec -> result modrec.
  Notation init1 := (initialize_quantizer is_quantizer is_stub factory).
  Notation inits := (initialize_all is_quantizer is_stub factory).
  Notation ready := (ready is_quantizer factory).
  Notation touched := (touched is_stub).
  Notation runs := (runs is_stub).

  Lemma init_one h r rule pol safe : ready h (r, rule) -> touched pol h (r, rule) = true ->
    exists m new h' p p', nth_error h (f_mod r) = Some m /\ factory rule (f_name r) m = Ok new /\
      init1 h r rule pol safe = (h', Ok (mkF (f_name r) (length h) (f_parent r) (f_attr r)), [(f_mod r, rule)]) /\
      length h' = S (length h) /\ nth_error h' (length h) = Some new /\
      nth_error h (f_parent r) = Some p /\ nth_error h' (f_parent r) = Some p' /\
      p' = mkM (mcls p) (set_kid (f_attr r) (length h) (mkids p)) (mparams p) /\
      (forall x, x < length h -> x <> f_parent r -> nth_error h' x = nth_error h x).
  Proof.
    intros ((p & Ep & Np & Hp) & Hq & m & Em & new & Ef) Ht. cbn [fst snd] in *.
    assert (Hpl : f_parent r < length h) by (apply nth_error_Some; congruence).
    exists m, new, (setattr_mod (h ++ [new]) (f_parent r) (f_attr r) (length h)), p, (mkM (mcls p) (set_kid (f_attr r) (length h) (mkids p)) (mparams p)).
    split; [assumption|]. split; [assumption|].
    assert (E' : nth_error (h ++ [new]) (f_parent r) = Some p) by (rewrite nth_error_app1; assumption).
    split; [|split; [|split; [|split; [|split; [|split]]]]].
    - unfold initialize_quantizer. rewrite Em. unfold cls_of in Hq. rewrite Em in Hq. rewrite Hq. cbn [negb].
      rewrite Ef. unfold update_module. rewrite Ep, getattr_slookup, Hp, Nat.eqb_refl. cbn [negb]. rewrite andb_false_r.
      unfold touched, cls_of in Ht. cbn [fst] in Ht. rewrite Em in Ht. destruct (is_stub (mcls m)); [reflexivity|].
      destruct pol; try discriminate. reflexivity.
    - unfold setattr_mod. rewrite upd_mod_length, app_length. simpl. lia.
    - unfold setattr_mod. rewrite upd_mod_other by lia. rewrite nth_error_app2 by lia. now rewrite Nat.sub_diag.
    - assumption.
    - unfold setattr_mod. now rewrite (upd_mod_same _ _ _ _ E').
    - reflexivity.
    - intros x Hx Hne. unfold setattr_mod. rewrite upd_mod_other by assumption. now rewrite nth_error_app1.
  Qed.

  Lemma init_all_spec pol safe its : forall h, Forall (ready h) its -> NoDup (map (fun it => f_mod (fst it)) its) ->
    (forall a b, In a its -> In b its -> f_parent (fst a) <> f_mod (fst b)) -> runs pol h its ->
    exists h' rs, inits h its pol safe = (h', Ok rs, map (fun it => (f_mod (fst it), snd it)) (filter (touched pol h) its)) /\
      initialized factory (touched pol h) h its h' rs.
  Proof.
    induction its as [|[r rule] its IH]; intros h HR HN HP Hruns.
    - exists h, []. split; [reflexivity|]. split; [constructor|]. split; [simpl; lia|]. split; [|reflexivity]. intros x m E. exists m. auto.
    - inversion HR as [|? ? R1 R2]; subst. cbn [map fst] in HN. apply NoDup_cons_iff in HN. destruct HN as [HN1 HN2].
      cbn [initialize_all filter].
      destruct (touched pol h (r, rule)) eqn:Et.
      + destruct (init_one h r rule pol safe R1 Et) as (m & new & h1 & p & p' & Em & Ef & E1 & L1 & En & Ep & Ep' & Hp' & Hfr).
        rewrite E1.
        assert (Hsame : forall it, In it its -> nth_error h1 (f_mod (fst it)) = nth_error h (f_mod (fst it))).
        { intros it Hin. apply Hfr.
          - rewrite Forall_forall in R2. destruct (R2 it Hin) as (_ & _ & m2 & Em2 & _). apply nth_error_Some. congruence.
          - intros Heq. apply (HP (r, rule) it (or_introl eq_refl) (or_intror Hin)). now symmetry. }
        assert (Hcls : forall it, In it its -> cls_of h1 (f_mod (fst it)) = cls_of h (f_mod (fst it))).
        { intros it Hin. unfold cls_of. now rewrite (Hsame it Hin). }
        assert (Ht : forall it, In it its -> touched pol h1 it = touched pol h it).
        { intros it Hin. unfold touched. now rewrite (Hcls it Hin). }
        destruct (IH h1) as (h' & rs & E2 & I1 & I2 & I3 & I4).
        { rewrite Forall_forall in R2 |- *. intros it Hin. destruct (R2 it Hin) as ((p2 & Ep2 & Np2 & Hp2) & Hq2 & m2 & Em2 & Ef2).
          split; [|split].
          - destruct (Nat.eq_dec (f_parent (fst it)) (f_parent r)) as [He|He].
            + exists p'. rewrite He. split; [assumption|]. rewrite He in Ep2. assert (p2 = p) by congruence. subst p2. subst p'. cbn [mkids].
              split; [now apply set_kid_nodup|]. rewrite slookup_set_other; [assumption|].
              intros Ha. destruct R1 as ((p3 & Ep3 & _ & Hp3) & _). cbn [fst] in *. assert (p3 = p) by congruence. subst p3.
              rewrite Ha, Hp3 in Hp2. injection Hp2 as Hp2. apply HN1. rewrite Hp2. now apply (in_map (fun it : fresult * nat => f_mod (fst it))).
            + exists p2. rewrite Hfr; [auto|apply nth_error_Some; congruence|assumption].
          - now rewrite (Hcls it Hin).
          - exists m2. rewrite (Hsame it Hin). auto. }
        { assumption. }
        { intros a b Ha Hb. apply HP; now right. }
        { destruct Hruns as [H|[H|H]]; [now left|right; now left|]. right. right. inversion H as [|? ? _ H']; subst.
          rewrite Forall_forall in H' |- *. intros it Hin. rewrite (Hcls it Hin). auto. }
        assert (Hfl : filter (touched pol h1) its = filter (touched pol h) its) by (apply filter_ext_in; intros it Hin; auto).
        rewrite E2, Hfl. exists h', (mkF (f_name r) (length h) (f_parent r) (f_attr r) :: rs). split.
        { reflexivity. }
        assert (Hstable : forall x mx, x < length h -> nth_error h1 x = Some mx -> forall n, x = f_parent r -> n = f_attr r ->
          exists m', nth_error h' x = Some m' /\ slookup n (mkids m') = slookup n (mkids mx)).
        { intros x mx Hx Ex n Hxr Hnr. destruct (I3 x mx Ex) as (m' & Em' & _ & _ & Hn). exists m'. split; [assumption|]. apply Hn.
          intros it Hin _ [Ha Hb]. rewrite Forall_forall in R2. destruct (R2 it Hin) as ((p2 & Ep2 & _ & Hp2) & _).
          destruct R1 as ((p3 & Ep3 & _ & Hp3) & _). cbn [fst] in *. rewrite Ha, Hxr in Ep2. assert (p2 = p3) by congruence. subst p2.
          rewrite Hb, Hnr, Hp3 in Hp2. injection Hp2 as Hp2. apply HN1. rewrite Hp2. now apply (in_map (fun it : fresult * nat => f_mod (fst it))). }
        assert (Hnpar : forall it, In it its -> f_parent (fst it) < length h).
        { intros it Hin. rewrite Forall_forall in R2. destruct (R2 it Hin) as ((p2 & Ep2 & _) & _). apply nth_error_Some. congruence. }
        assert (Hpl : f_parent r < length h) by (apply nth_error_Some; congruence).
        split; [|split; [|split]].
        * constructor.
          -- rewrite Et.
             assert (Hnew : nth_error h' (length h) = Some new).
             { rewrite I4; [assumption|lia|]. intros it Hin _. pose proof (Hnpar it Hin). lia. }
             destruct (Hstable (f_parent r) p' Hpl Ep' (f_attr r) eq_refl eq_refl) as (p2 & Ep2 & Hs2).
             exists m, new, (length h), p2. cbn [fst snd]. split; [assumption|]. split; [assumption|]. split; [lia|]. split; [assumption|]. split; [assumption|].
             split; [|reflexivity]. rewrite Hs2. subst p'. cbn [mkids]. apply slookup_set_same.
          -- eapply Forall2_impl_in; [|exact I1]. cbn beta. intros it r' Hin Hit. rewrite (Ht it Hin) in Hit.
             destruct (touched pol h it); [|assumption]. destruct Hit as (m2 & new2 & id & p2 & A1 & A2 & A3 & A4).
             exists m2, new2, id, p2. rewrite (Hsame it Hin) in A1. split; [assumption|]. split; [assumption|]. split; [lia|assumption].
        * rewrite I2, L1, Hfl. cbn [filter]. rewrite Et. cbn [length]. lia.
        * intros x mx Ex. assert (Hx : x < length h) by (apply nth_error_Some; congruence).
          destruct (Nat.eq_dec x (f_parent r)) as [->|Hne].
          -- assert (mx = p) by congruence. subst mx. destruct (I3 _ _ Ep') as (m' & Em' & C1 & C2 & C3). exists m'.
             subst p'. cbn [mcls mparams mkids] in *. split; [assumption|]. split; [assumption|]. split; [assumption|].
             intros n Hn. rewrite C3.
             ++ apply slookup_set_other. intros ->. apply (Hn (r, rule) (or_introl eq_refl) Et). auto.
             ++ intros it Hin Hti. apply Hn; [now right|]. now rewrite <- (Ht it Hin).
          -- rewrite <- (Hfr x Hx Hne) in Ex. destruct (I3 _ _ Ex) as (m' & Em' & C1 & C2 & C3). exists m'. split; [assumption|].
             split; [assumption|]. split; [assumption|]. intros n Hn. apply C3. intros it Hin Hti. apply Hn; [now right|]. now rewrite <- (Ht it Hin).
        * intros x Hx Hn. rewrite I4.
          -- apply Hfr; [assumption|]. intros ->. apply (Hn (r, rule) (or_introl eq_refl) Et). reflexivity.
          -- lia.
          -- intros it Hin Hti. apply Hn; [now right|]. now rewrite <- (Ht it Hin).
      + assert (Hsk : pol = PSkip).
        { unfold touched in Et. apply orb_false_iff in Et. destruct Et as [Et1 Et2]. destruct Hruns as [H|[H|H]]; [subst; discriminate|assumption|].
          inversion H as [|? ? H1 _]; subst. cbn [fst] in H1, Et1. rewrite H1 in Et1. discriminate. }
        destruct R1 as (_ & Hq & m & Em & _). cbn [fst] in *.
        assert (E1 : init1 h r rule pol safe = (h, Ok r, [])).
        { unfold initialize_quantizer. rewrite Em. unfold cls_of in Hq. rewrite Em in Hq. rewrite Hq. cbn [negb].
          unfold touched, cls_of in Et. cbn [fst] in Et. rewrite Em in Et. apply orb_false_iff in Et. rewrite (proj1 Et). now subst pol. }
        rewrite E1. destruct (IH h R2 HN2) as (h' & rs & E2 & I1 & I2 & I3 & I4).
        { intros a b Ha Hb. apply HP; now right. }
        { right. now left. }
        rewrite E2. exists h', (r :: rs). split; [reflexivity|]. split; [constructor; [rewrite Et; reflexivity|assumption]|].
        split; [cbn [filter]; now rewrite Et|]. split.
        * intros x mx Ex. destruct (I3 x mx Ex) as (m' & A & B & C & D). exists m'. do 3 (split; [assumption|]). intros n Hn. apply D.
          intros it Hin. apply Hn. now right.
        * intros x Hx Hn. apply I4; [assumption|]. intros it Hin. apply Hn. now right.
  Qed.

  (** "error": the first concrete quantizer stops the run; the ones before it are done *)
  Lemma init_error_spec safe pre it post : forall h, Forall (ready h) (pre ++ it :: post) -> NoDup (map (fun it => f_mod (fst it)) pre) ->
    (forall a b, In a pre -> In b (pre ++ [it]) -> f_parent (fst a) <> f_mod (fst b)) ->
    Forall (fun it => is_stub (cls_of h (f_mod (fst it))) = true) pre -> is_stub (cls_of h (f_mod (fst it))) = false ->
    exists h' rs, inits h (pre ++ it :: post) PError safe = (h', Err QuantizationError, map (fun it => (f_mod (fst it), snd it)) pre) /\
      initialized factory (touched PError h) h pre h' rs.
  Proof.
    intros h HR HN HP HS Hit. apply Forall_app in HR. destruct HR as [HR1 HR2]. inversion HR2 as [|? ? R1 _]; subst.
    destruct (init_all_spec PError safe pre h HR1 HN) as (h' & rs & E & I).
    { intros a b Ha Hb. apply HP; [assumption|]. apply in_or_app. now left. }
    { right. now right. }
    exists h', rs. split; [|assumption].
    assert (Hfa : filter (touched PError h) pre = pre).
    { clear - HS. induction HS as [|x l Hx _ IH]; [reflexivity|]. cbn [filter]. unfold touched at 1. rewrite Hx. cbn [orb]. now rewrite IH. }
    rewrite Hfa in E.
    assert (Happ : forall l h0 h1 r1 log1, inits h0 l PError safe = (h1, Ok r1, log1) ->
      inits h0 (l ++ it :: post) PError safe = match inits h1 (it :: post) PError safe with
        | (h2, Err e, log') => (h2, Err e, log1 ++ log') | (h2, Ok r2, log') => (h2, Ok (r1 ++ r2), log1 ++ log') end).
    { induction l as [|[r rule] l IHl]; intros h0 h1 r1 log1 E0.
      - cbn [initialize_all] in E0. injection E0 as <- <- <-. cbn [app]. destruct (inits h0 (it :: post) PError safe) as [[h2 [r2|e]] log2]; reflexivity.
      - cbn [initialize_all] in E0. cbn [app]. change (inits h0 ((r, rule) :: l ++ it :: post) PError safe) with (match init1 h0 r rule PError safe with (h1, Err e, log) => (h1, Err e, log) | (h1, Ok r', log) => match inits h1 (l ++ it :: post) PError safe with (h2, Err e, log') => (h2, Err e, log ++ log') | (h2, Ok rs, log') => (h2, Ok (r' :: rs), log ++ log') end end).
        destruct (init1 h0 r rule PError safe) as [[h3 [r3|e]] log3]; [|discriminate].
        destruct (inits h3 l PError safe) as [[h4 [r4|e]] log4] eqn:E4; [|discriminate]. injection E0 as <- <- <-.
        rewrite (IHl _ _ _ _ E4). destruct (inits h4 (it :: post) PError safe) as [[h5 [r5|e]] log5]; cbn [app]; rewrite <- ?app_assoc; reflexivity. }
    rewrite (Happ pre h h' rs _ E). destruct it as [r rule]. cbn [initialize_all].
    destruct I as (_ & _ & _ & I4). destruct R1 as (_ & Hq & m & Em & _). cbn [fst] in *.
    assert (Em' : nth_error h' (f_mod r) = Some m).
    { rewrite I4; [assumption|apply nth_error_Some; rewrite Em; discriminate|]. intros a Ha _ Heq.
      apply (HP a (r, rule) Ha); [apply in_or_app; right; now left|exact Heq]. }
    unfold initialize_quantizer. rewrite Em'. unfold cls_of in Hq, Hit. rewrite Em in Hq, Hit. rewrite Hq, Hit. cbn [negb]. now rewrite app_nil_r.
  Qed.
End InitP.

Section Config.
  Variables (is_quantizer is_stub : nat -> bool).
  Variable factory : nat -> string -> modrec -> result modrec.
  Variable score : nat -> fresult -> Z.
  Lemma config_spec find h rules pol safe :
    let cands := flat_map (fun rule => map (fun r => (r, rule)) (find rule h)) rules in
    Forall (ready is_quantizer factory h) cands ->
    (forall a b, In a cands -> In b cands -> f_parent (fst a) <> f_mod (fst b)) ->
    runs is_stub pol h cands ->
    exists its h' rs,
      config_initialize is_quantizer is_stub factory score find h rules pol safe =
        (h', Ok rs, map (fun it => (f_mod (fst it), snd it)) (filter (touched is_stub pol h) its)) /\
      NoDup (map (fun it => f_mod (fst it)) its) /\
      (forall q, In q (map (fun it => f_mod (fst it)) its) <-> exists rule r, In rule rules /\ In r (find rule h) /\ f_mod r = q) /\
      (forall it, In it its -> wins score cands (f_mod (fst it)) it) /\
      initialized factory (touched is_stub pol h) h its h' rs.
  Proof.
    intros cands HR HP Hruns. destruct (collect_spec score cands) as (N & K & W).
    set (its := map snd (collect score cands)).
    assert (Em : map (fun it => f_mod (fst it)) its = map fst (collect score cands)).
    { unfold its. rewrite map_map. apply map_ext_in. intros [q it] Hin. cbn [fst snd]. destruct (W q it Hin) as (pre & post & _ & Hf & _). exact Hf. }
    assert (Hin : forall it, In it its -> In it cands).
    { intros it Hi. unfold its in Hi. apply in_map_iff in Hi. destruct Hi as ([q it'] & E & Hi). simpl in E. subst it'.
      destruct (W q it Hi) as (pre & post & E & _). rewrite E. apply in_or_app. right. now left. }
    destruct (init_all_spec is_quantizer is_stub factory pol safe its h) as (h' & rs & E & I).
    - apply Forall_forall. intros it Hi. rewrite Forall_forall in HR. auto.
    - now rewrite Em.
    - intros a b Ha Hb. auto.
    - destruct Hruns as [H|[H|H]]; [now left|right; now left|]. right. right. rewrite Forall_forall in H |- *. auto.
    - exists its, h', rs. split; [exact E|]. split; [now rewrite Em|]. split; [|split; [|exact I]].
      + intros q. rewrite Em, K. unfold cands. split.
        * intros ([r rule] & Hi & Hq). apply in_flat_map in Hi. destruct Hi as (rule' & Hr & Hi). apply in_map_iff in Hi.
          destruct Hi as (r' & E' & Hi). injection E' as <- <-. exists rule', r'. auto.
        * intros (rule & r & H1 & H2 & H3). exists (r, rule). split; [|assumption]. apply in_flat_map. exists rule. split; [assumption|].
          apply in_map_iff. eauto.
      + intros it Hi. unfold its in Hi. apply in_map_iff in Hi. destruct Hi as ([q it'] & E' & Hi). simpl in E'. subst it'.
        pose proof (W q it Hi) as Hw. destruct Hw as (pre & post & A & B & C). rewrite B. exists pre, post. auto.
  Qed.
End Config.

(** ** Witnesses *)
Definition isq (c : nat) : bool := (c =? 50) || (c =? 51).   (* quantizers: 50 stub, 51 concrete *)
Definition iss (c : nat) : bool := c =? 50.
Definition isqm (c : nat) : bool := (10 <=? c) && (c <? 20).
Definition ex_map (c : nat) : option entry :=
  if c =? 1 then Some (To 11) else if c =? 2 then Some (To 12) else if c =? 3 then Some Skip else None.
Definition ex_stubs (c : nat) : list string := if c =? 12 then ["input_quantizer"; "weight_quantizer"]%string else [].
(* 0: root (1) -> a:1 (2), b:2 (1) -> c:3 (2), d:4 (3, skipped) -> e:5 (2);  f: None *)
Definition ex_heap : heap :=
  [mkM 1 [("a"%string, Some 1); ("b"%string, Some 2); ("f"%string, None)] [("w"%string, 7)];
   mkM 2 [] [("w"%string, 8)];
   mkM 1 [("c"%string, Some 3); ("d"%string, Some 4)] [];
   mkM 2 [("old"%string, Some 6)] [("w"%string, 9)];
   mkM 3 [("e"%string, Some 5)] [];
   mkM 2 [] [];
   mkM 51 [] []].
Lemma ex_run : exists h', quantize_model isq isqm 0 ex_map false ex_stubs 50 10 true ex_heap 0 = (h', Ok tt) /\
  map mcls h' = [11; 12; 11; 12; 3; 2; 51; 50; 50; 50; 50].
Proof. eexists. split; vm_compute; reflexivity. Qed.

(** checkers used for the examples *)
Fixpoint nodupb (l : list string) : bool := match l with [] => true | x :: l' => negb (existsb (String.eqb x) l') && nodupb l' end.
Lemma nodupb_ok l : nodupb l = true -> NoDup l.
Proof.
  induction l as [|x l IH]; intros H; [constructor|]. simpl in H. apply andb_true_iff in H. destruct H as [H1 H2]. constructor; [|auto].
  intros Hin. apply negb_true_iff in H1. assert (existsb (String.eqb x) l = true); [|congruence]. apply existsb_exists. exists x. split; [assumption|apply String.eqb_refl].
Qed.
Definition heap_okb (h : heap) : bool :=
  forallb (fun m => nodupb (map fst (mkids m)) && forallb (fun k => match snd k with Some c => c <? length h | None => true end) (mkids m)) h.
Lemma heap_okb_ok h : heap_okb h = true -> heap_ok h.
Proof.
  intros H id m E. unfold heap_okb in H. rewrite forallb_forall in H. specialize (H m (nth_error_In _ _ E)). apply andb_true_iff in H. destruct H as [H1 H2].
  split; [now apply nodupb_ok|]. intros n c Hin. rewrite forallb_forall in H2. specialize (H2 _ Hin). simpl in H2. now apply Nat.ltb_lt.
Qed.
Definition rankedb (h : heap) (rank : nat -> nat) : bool :=
  forallb (fun im => forallb (fun k => match snd k with Some c => rank c <? rank (fst im) | None => true end) (mkids (snd im))) (combine (seq 0 (length h)) h).
Lemma nth_combine_seq {A} (l : list A) : forall s i x, nth_error l i = Some x -> In (s + i, x) (combine (seq s (length l)) l).
Proof.
  induction l as [|y l IH]; intros s [|i] x E; try discriminate; simpl in *.
  - injection E as ->. left. f_equal. lia.
  - right. replace (s + S i) with (S s + i) by lia. now apply IH.
Qed.
Lemma rankedb_ok h rank : rankedb h rank = true -> ranked h rank.
Proof.
  intros H id m n c E Hin. unfold rankedb in H. rewrite forallb_forall in H. pose proof (nth_combine_seq h 0 id m E) as Hc. specialize (H _ Hc). cbn [fst snd Nat.add] in H.
  rewrite forallb_forall in H. specialize (H _ Hin). cbn [snd] in H. now apply Nat.ltb_lt.
Qed.
Definition one_parentb (h : heap) : bool :=
  let edges := flat_map (fun im => map (fun c => (fst im, c)) (kid_ids (mkids (snd im)))) (combine (seq 0 (length h)) h) in
  forallb (fun e => forallb (fun e' => negb (snd e =? snd e') || (fst e =? fst e')) edges) edges.
Lemma edge_in (h : heap) a (ma : modrec) n c : nth_error h a = Some ma -> In (n, Some c) (mkids ma) ->
  In (a, c) (flat_map (fun im => map (fun c => (fst im, c)) (kid_ids (mkids (snd im)))) (combine (seq 0 (length h)) h)).
Proof.
  intros E Hin. apply in_flat_map. exists (a, ma). split; [apply (nth_combine_seq h 0 a ma E)|]. cbn [fst snd]. apply in_map_iff. exists c. split; [reflexivity|].
  unfold kid_ids. apply in_flat_map. exists (n, Some c). split; [assumption|now left].
Qed.
Lemma one_parentb_ok h root : one_parentb h = true -> one_parent h root.
Proof.
  intros H p1 a ma n1 p2 b mb n2 c _ _ Ea Ha Eb Hb. unfold one_parentb in H. rewrite forallb_forall in H.
  specialize (H _ (edge_in h a ma n1 c Ea Ha)). rewrite forallb_forall in H. specialize (H _ (edge_in h b mb n2 c Eb Hb)).
  cbn [fst snd] in H. rewrite Nat.eqb_refl in H. cbn [negb orb] in H. now apply Nat.eqb_eq.
Qed.
Lemma visits_nonq isq isqm mm sk sn h x z : visits isq isqm mm sk sn h x z -> z = x \/ exists mz, nth_error h z = Some mz /\ isq (mcls mz) = false.
Proof. induction 1 as [|x m n y my z _ _ _ _ Ey Hq _ IH]; [now left|]. right. destruct IH as [->|IH]; eauto. Qed.

Lemma ex_hypotheses :
  (forall c c', ex_map c = Some (To c') -> isqm c' = true /\ isq c' = false) /\ isq 50 = true /\
  heap_ok ex_heap /\ ranked ex_heap (fun x => 10 - x) /\ isq (cls_of ex_heap 0) = false /\
  (forall p x m, leads ex_heap 0 p x -> nth_error ex_heap x = Some m -> supported isq isqm 0 ex_map false (mcls m)) /\
  (forall x m, visits isq isqm ex_map false ex_stubs ex_heap 0 x -> nth_error ex_heap x = Some m -> ex_map (mcls m) <> None \/ (false = true /\ isqm (mcls m) = true)) /\
  (false = true \/ one_parent ex_heap 0).
Proof.
  assert (Hok : heap_ok ex_heap) by (apply heap_okb_ok; vm_compute; reflexivity).
  split; [|split; [reflexivity|split; [assumption|split; [|split; [reflexivity|split; [|split]]]]]].
  - intros c c'. unfold ex_map. destruct (c =? 1); [intros [= <-]; split; reflexivity|]. destruct (c =? 2); [intros [= <-]; split; reflexivity|].
    destruct (c =? 3); discriminate.
  - apply rankedb_ok. vm_compute. reflexivity.
  - intros p x m Hl E. apply class_ok_iff. assert (Q : quantizable isq isqm 0 ex_map false ex_heap 0 = true) by (vm_compute; reflexivity).
    rewrite quantizable_iff in Q; [|assumption|cbn; lia]. specialize (Q p x Hl). unfold cls_of in Q. rewrite E in Q. exact Q.
  - intros x m Hv Em. left. apply visits_nonq in Hv. destruct Hv as [->|(mz & E & Hq)]; [injection Em as <-; discriminate|].
    assert (m = mz) by congruence. subst m. clear Em. do 7 (destruct x as [|x]; [injection E as <-; (discriminate || now vm_compute in Hq)|]). destruct x; discriminate.
  - right. apply one_parentb_ok. vm_compute. reflexivity.
Qed.

(** a plain [torch.nn.Module] container passes the check and then stops the conversion halfway *)
Definition plain_heap : heap := [mkM 1 [("a"%string, Some 1); ("b"%string, Some 2)] []; mkM 2 [] []; mkM 0 [] []].
Lemma plain_witness : quantize_model isq isqm 0 ex_map false ex_stubs 50 10 true plain_heap 0 =
  ([mkM 11 [("a"%string, Some 1); ("b"%string, Some 2)] []; mkM 12 [("input_quantizer"%string, Some 3); ("weight_quantizer"%string, Some 4)] []; mkM 0 [] [];
    mkM 50 [] []; mkM 50 [] []], Err QuantizationError).
Proof. vm_compute. reflexivity. Qed.
(** a module shared by two parents is met a second time as an already quantized module *)
Definition shared_heap : heap := [mkM 1 [("a"%string, Some 1); ("b"%string, Some 2)] []; mkM 1 [("x"%string, Some 3)] []; mkM 1 [("y"%string, Some 3)] []; mkM 2 [] []].
Lemma shared_witness : exists h', quantize_model isq isqm 0 ex_map false ex_stubs 50 10 true shared_heap 0 = (h', Err QuantizationError) /\
  map mcls h' = [11; 11; 1; 12; 50; 50].
Proof. eexists. split; vm_compute; reflexivity. Qed.

(** initialization *)
Definition init_heap : heap :=
  [mkM 1 [("q1"%string, Some 1); ("q2"%string, Some 2); ("q3"%string, Some 3)] []; mkM 50 [] []; mkM 51 [] [("old"%string, 1)]; mkM 50 [] []].
Definition ex_factory (rule : nat) (_ : string) (_ : modrec) : result modrec := Ok (mkM 51 [] [("rule"%string, rule)]).
Definition ex_find (rule : nat) (_ : heap) : list fresult :=
  match rule with 0 => [mkF "q1" 1 0 "q1"; mkF "q2" 2 0 "q2"] | 1 => [mkF "q1" 1 0 "q1"] | _ => [] end.
Lemma init_hypotheses : forall it, In it (flat_map (fun rule => map (fun r => (r, rule)) (ex_find rule init_heap)) [0; 1; 2]) ->
  ready isq ex_factory init_heap it.
Proof.
  intros it H. cbn in H. destruct H as [<-|[<-|[<-|[]]]]; (split; [eexists; split; [reflexivity|split; [apply nodupb_ok; vm_compute; reflexivity|reflexivity]]|split; [reflexivity|eexists; split; [reflexivity|eexists; reflexivity]]]).
Qed.
Lemma init_runs_witness : config_initialize isq iss ex_factory (fun _ _ => 1%Z) ex_find init_heap [0; 1; 2] POverwrite true =
  ([mkM 1 [("q1"%string, Some 4); ("q2"%string, Some 5); ("q3"%string, Some 3)] []; mkM 50 [] []; mkM 51 [] [("old"%string, 1)]; mkM 50 [] [];
    mkM 51 [] [("rule"%string, 1)]; mkM 51 [] [("rule"%string, 0)]],
   Ok [mkF "q1" 4 0 "q1"; mkF "q2" 5 0 "q2"], [(1, 1); (2, 0)]).
Proof. vm_compute. reflexivity. Qed.
Lemma error_witness : collection_initialize isq iss ex_factory init_heap [mkF "q1" 1 0 "q1"; mkF "q2" 2 0 "q2"; mkF "q3" 3 0 "q3"] PError true =
  ([mkM 1 [("q1"%string, Some 4); ("q2"%string, Some 2); ("q3"%string, Some 3)] []; mkM 50 [] []; mkM 51 [] [("old"%string, 1)]; mkM 50 [] [];
    mkM 51 [] [("rule"%string, 0)]], Err QuantizationError, [(1, 0)]).
Proof. vm_compute. reflexivity. Qed.
Lemma extension_key_error : is_extension ([]%list, [("bits"%string, Some 4)]) ([]%list, []) = Err KeyError.
Proof. reflexivity. Qed.
Lemma is_extension_spec (a b : meta) : (forall k v, In (k, v) (snd a) -> (k = "shape"%string /\ v = None) \/ slookup k (snd b) <> None) ->
  exists r, is_extension a b = Ok r /\
    (r = true <-> (forall t, In t (fst a) -> In t (fst b)) /\
                  forall k v, In (k, v) (snd a) -> (k = "shape"%string /\ v = None) \/ slookup k (snd b) = Some v).
Proof.
  intros H. unfold is_extension. destruct (attrs_extend_true (snd a) (snd b) H) as (r & Er & Hr).
  destruct (forallb (has_tag (fst b)) (fst a)) eqn:E.
  - exists r. split; [assumption|]. rewrite Hr. rewrite forallb_forall in E. split; [|tauto]. intros G. split; [|assumption].
    intros t Ht. apply has_tag_in. auto.
  - exists false. split; [reflexivity|]. split; [discriminate|]. intros [G _].
    assert (forallb (has_tag (fst b)) (fst a) = true); [|congruence]. apply forallb_forall. intros t Ht. apply has_tag_in. auto.
Qed.
