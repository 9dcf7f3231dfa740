(** The selectors a search can come across, and why their markers tell them apart. *)
From Coq Require Import String Ascii.
From Verif Require Import Prelude ModulesModel ModulesSpec MpathModel MpathSpec MpathLangProofs.
Local Open Scope nat_scope.
Local Open Scope list_scope.

Inductive inA : sel -> sel -> Prop :=
| A_self s : inA s s
| A_rem s t : remove_root s = Some t -> inA s t
| A_next i f n t : n <> [] -> inA n t -> inA (NFrag i f :: n) t
| A_alt alts alt nx t : In alt alts -> inA (alt ++ nx) t -> inA (NMulti alts :: nx) t.
Definition der (s t : sel) : Prop :=
  match s with
  | [] => False
  | NFrag _ _ :: n => n <> [] /\ inA n t
  | NMulti alts :: nx => exists alt, In alt alts /\ inA (alt ++ nx) t
  end.
Lemma inA_cases s t : inA s t <-> t = s \/ remove_root s = Some t \/ der s t.
Proof.
  split.
  - intros H. destruct H; auto; right; right; cbn; eauto.
  - intros [->|[H|H]]; [constructor|now apply A_rem|]. destruct s as [|[i f|alts] nx]; cbn in H; [easy|..].
    + destruct H. now apply A_next.
    + destruct H as (alt & H1 & H2). now apply A_alt with alt.
Qed.

Lemma ids_app a b : ids (a ++ b) = ids a ++ ids b.
Proof. unfold ids. apply flat_map_app. Qed.
Lemma ids_cons n s : ids (n :: s) = ids_node n ++ ids s.
Proof. reflexivity. Qed.
Lemma ids_multi alts : ids_node (NMulti alts) = flat_map ids alts.
Proof. reflexivity. Qed.
Lemma fl_app a b : fragment_list (a ++ b) = fragment_list a ++ fragment_list b.
Proof. unfold fragment_list. apply flat_map_app. Qed.
Lemma fl_multi alts nx : fragment_list (NMulti alts :: nx) = TOpen :: flat_map fragment_list alts ++ TClose :: fragment_list nx.
Proof.
  unfold fragment_list at 1. cbn [flat_map toks_node]. cbn. rewrite <- app_assoc. reflexivity.
Qed.

Lemma remove_app a b : remove_root (a ++ b) = match remove_root a with Some a' => Some (a' ++ b) | None => remove_root b end.
Proof.
  induction a as [|[i f|alts] nx IH]; cbn [app]; [reflexivity|..].
  - rewrite !remove_frag. destruct (is_mw f); [apply IH|reflexivity].
  - rewrite !remove_multi. reflexivity.
Qed.
Lemma groups_inv alts nx : groups_ok (NMulti alts :: nx) ->
  alts <> [] /\ (forall a, In a alts -> substantial a /\ groups_ok a) /\ groups_ok nx.
Proof. intros G. inversion G; auto. Qed.
Lemma substantial_ne s : substantial s -> s <> [].
Proof. intros H. inversion H; discriminate. Qed.

Lemma remove_ids k : forall s r, size s < k -> remove_root s = Some r -> incl (ids r) (ids s).
Proof.
  induction k; [lia|]. intros s r Hk E. destruct s as [|[i f|alts] nx]; [discriminate|..].
  - rewrite remove_frag in E. destruct (is_mw f).
    + rewrite ids_cons. intros x Hx. apply in_app_iff. right. apply (IHk nx r); [|assumption|assumption].
      rewrite size_cons in Hk. cbn in Hk. lia.
    + assert (r = NFrag i f :: nx) by congruence. subst. intros x Hx; exact Hx.
  - rewrite remove_multi in E. assert (r = NMulti (stripped alts) :: nx) by congruence. subst r.
    intros x. rewrite !ids_cons, !in_app_iff, !ids_multi, !in_flat_map. intros [(a' & Ha' & Hx)|Hx]; [|now right].
    left. apply stripped_in in Ha'. destruct Ha' as (a & Ha & Er). exists a. split; [assumption|].
    apply (IHk a a'); [|assumption|assumption]. pose proof (size_alt' alts a nx Ha). lia.
Qed.
Lemma inA_ids s t : inA s t -> incl (ids t) (ids s).
Proof.
  induction 1.
  - intros x Hx; exact Hx.
  - apply (remove_ids _ _ _ (Nat.lt_succ_diag_r _) H).
  - intros x Hx. rewrite ids_cons, in_app_iff. right. now apply IHinA.
  - intros x Hx. apply IHinA in Hx. rewrite ids_app in Hx. rewrite ids_cons, ids_multi. apply in_app_iff in Hx. apply in_app_iff.
    destruct Hx as [Hx|Hx]; [left; apply in_flat_map; eauto|now right].
Qed.
Lemma remove_size k : forall s r, size s < k -> remove_root s = Some r -> size r <= size s.
Proof.
  induction k; [lia|]. intros s r Hk E. destruct s as [|[i f|alts] nx]; [discriminate|..].
  - rewrite remove_frag in E. destruct (is_mw f).
    + rewrite size_cons in *. cbn [size_node] in *. assert (size r <= size nx) by (apply IHk; [lia|assumption]). lia.
    + assert (r = NFrag i f :: nx) by congruence. subst. lia.
  - rewrite remove_multi in E. assert (r = NMulti (stripped alts) :: nx) by congruence. subst r.
    rewrite !size_cons. change (size_node (NMulti alts)) with (S (list_sum (map size alts))).
    change (size_node (NMulti (stripped alts))) with (S (list_sum (map size (stripped alts)))).
    enough (list_sum (map size (stripped alts)) <= list_sum (map size alts)) by lia.
    assert (IA : forall a a', In a alts -> remove_root a = Some a' -> size a' <= size a).
    { intros a a' Ha Er. apply IHk; [|assumption]. pose proof (size_alt' alts a nx Ha). lia. }
    clear -IA. induction alts as [|a l IH]; [cbn; lia|]. change (stripped (a :: l)) with ((match remove_root a with Some a => [a] | None => [] end) ++ stripped l).
    rewrite map_app, list_sum_app. change (list_sum (map size (a :: l))) with (size a + list_sum (map size l)).
    assert (list_sum (map size (stripped l)) <= list_sum (map size l)) by (apply IH; intros; apply IA; [now right|assumption]).
    destruct (remove_root a) as [a'|] eqn:Er.
    + specialize (IA a a' (or_introl eq_refl) Er). change (list_sum (map size [a'])) with (size a' + 0). lia.
    + change (list_sum (map size [])) with 0. lia.
Qed.
Lemma inA_size s t : inA s t -> size t <= size s.
Proof.
  induction 1.
  - lia.
  - apply (remove_size _ _ _ (Nat.lt_succ_diag_r _) H).
  - rewrite size_cons. lia.
  - pose proof (size_alt alts alt nx H). lia.
Qed.
Lemma inA_groups s t : inA s t -> groups_ok s -> groups_ok t /\ (s <> [] -> t <> []).
Proof.
  induction 1; intros G.
  - auto.
  - destruct (remove_lang (fun _ _ => true) (fun _ _ => true) (fun _ _ _ => true) _ _ _ (Nat.lt_succ_diag_r _) G H) as (G' & S & _).
    split; [assumption|]. intros _. now apply substantial_ne.
  - destruct IHinA as [G' NE]; [now inversion G|]. split; [assumption|]. intros _. now apply NE.
  - apply groups_inv in G. destruct G as (NE & GA & GN). destruct (GA _ H) as [S Ga].
    destruct IHinA as [G' NE']; [now apply groups_ok_app|]. split; [assumption|]. intros _. apply NE'.
    apply substantial_ne in S. destruct alt; [congruence|discriminate].
Qed.

(** ** Transitivity *)
Lemma remove_idem k : forall s r, size s < k -> groups_ok s -> remove_root s = Some r -> remove_root r = Some r.
Proof.
  induction k; [lia|]. intros s r Hk G E. destruct s as [|[i f|alts] nx]; [discriminate|..].
  - rewrite remove_frag in E. destruct (is_mw f) eqn:F.
    + apply (IHk nx); [|now inversion G|assumption]. rewrite size_cons in Hk. cbn in Hk. lia.
    + assert (r = NFrag i f :: nx) by congruence. subst. now rewrite remove_frag, F.
  - rewrite remove_multi in E. assert (r = NMulti (stripped alts) :: nx) by congruence. subst r. rewrite remove_multi.
    enough (ES : stripped (stripped alts) = stripped alts) by (now rewrite ES). apply groups_inv in G. destruct G as (_ & GA & _).
    assert (IA : forall a a', In a alts -> remove_root a = Some a' -> remove_root a' = Some a').
    { intros a a' Ha Er. apply (IHk a); [|now apply GA|assumption]. pose proof (size_alt' alts a nx Ha). lia. }
    assert (IB : forall a', In a' (stripped alts) -> remove_root a' = Some a').
    { intros a' Ha'. apply stripped_in in Ha'. destruct Ha' as (a & Ha & Er). eauto. }
    clear -IB. induction (stripped alts) as [|a l IH]; [reflexivity|]. change (stripped (a :: l)) with ((match remove_root a with Some a => [a] | None => [] end) ++ stripped l).
    rewrite (IB a (or_introl eq_refl)). cbn. f_equal. apply IH. intros; apply IB; now right.
Qed.
Lemma remove_der k : forall s r u, size s < k -> groups_ok s -> remove_root s = Some r -> der r u -> der s u.
Proof.
  induction k; [lia|]. intros s r u Hk G E D. destruct s as [|[i f|alts] nx]; [discriminate|..].
  - rewrite remove_frag in E. destruct (is_mw f) eqn:F.
    + cbn. split; [intros ->; discriminate|]. apply inA_cases. right. right. apply (IHk nx r); [|now inversion G|assumption|assumption].
      rewrite size_cons in Hk. cbn in Hk. lia.
    + assert (r = NFrag i f :: nx) by congruence. now subst.
  - rewrite remove_multi in E. assert (r = NMulti (stripped alts) :: nx) by congruence. subst r. cbn in D.
    destruct D as (a' & Ha' & D). apply stripped_in in Ha'. destruct Ha' as (a & Ha & Er). cbn. exists a. split; [assumption|].
    apply groups_inv in G. destruct G as (_ & GA & GN).
    assert (Er' : remove_root (a ++ nx) = Some (a' ++ nx)) by (rewrite remove_app, Er; reflexivity).
    assert (Ga : groups_ok (a ++ nx)) by (apply groups_ok_app; [now apply GA|assumption]).
    apply inA_cases in D. destruct D as [->|[D|D]].
    + now apply A_rem.
    + apply A_rem. rewrite (remove_idem _ _ _ (Nat.lt_succ_diag_r _) Ga Er') in D. injection D as <-. exact Er'.
    + apply inA_cases. right. right. apply (IHk (a ++ nx) (a' ++ nx)); [|assumption|assumption|assumption].
      pose proof (size_alt alts a nx Ha). lia.
Qed.
Lemma inA_trans s t u : inA s t -> groups_ok s -> der t u -> inA s u.
Proof.
  induction 1; intros G D.
  - apply inA_cases. auto.
  - apply inA_cases. right. right. now apply (remove_der _ _ _ _ (Nat.lt_succ_diag_r _) G H).
  - apply A_next; [assumption|]. apply IHinA; [now inversion G|assumption].
  - apply A_alt with alt; [assumption|]. apply groups_inv in G. destruct G as (_ & GA & GN).
    apply IHinA; [apply groups_ok_app; [now apply GA|assumption]|assumption].
Qed.

(** ** Keys: how deep the first fragment is, and which one it is *)
Fixpoint lead (l : list tok) : nat * option nat :=
  match l with
  | TOpen :: l' => let (d, i) := lead l' in (S d, i)
  | TI i :: _ => (0, Some i)
  | _ => (0, None)
  end.
Definition key (s : sel) (d i : nat) : Prop := lead (fragment_list s) = (d, Some i).
Lemma lead_app l l' d i : lead l = (d, Some i) -> lead (l ++ l') = (d, Some i).
Proof.
  revert d. induction l as [|[j| |] l IH]; intros d; cbn; try discriminate; auto.
  destruct (lead l) as [d0 i0] eqn:E. intros H. injection H as <- ->. now rewrite (IH d0 eq_refl).
Qed.
Lemma key_app a b d i : key a d i -> key (a ++ b) d i.
Proof. unfold key. rewrite fl_app. apply lead_app. Qed.
Lemma key_multi a l nx d i : key a d i -> key (NMulti (a :: l) :: nx) (S d) i.
Proof.
  unfold key. intros H. rewrite fl_multi. cbn [lead flat_map]. rewrite <- app_assoc. now rewrite (lead_app _ _ _ _ H).
Qed.
Lemma key_fun s d i d' i' : key s d i -> key s d' i' -> d = d' /\ i = i'.
Proof. unfold key. intros H H'. rewrite H in H'. injection H' as <- <-. auto. Qed.
Lemma key_ex k : forall s, size s < k -> groups_ok s -> s <> [] -> exists d i, key s d i /\ In i (ids s).
Proof.
  induction k; [lia|]. intros s Hk G NE. destruct s as [|[i f|alts] nx]; [easy|..].
  - exists 0, i. split; [reflexivity|now left].
  - destruct (groups_inv _ _ G) as (NA & GA & GN). destruct alts as [|a l]; [easy|].
    destruct (GA a (or_introl eq_refl)) as [S Ga].
    destruct (IHk a) as (d & i & K & Hi); [|assumption|now apply substantial_ne|].
    { pose proof (size_alt' (a :: l) a nx (or_introl eq_refl)). lia. }
    exists (Datatypes.S d), i. split; [now apply key_multi|]. rewrite ids_cons, ids_multi. cbn [flat_map]. rewrite !in_app_iff. auto.
Qed.
Lemma key_in s d i : groups_ok s -> s <> [] -> key s d i -> In i (ids s).
Proof.
  intros G NE K. destruct (key_ex _ s (Nat.lt_succ_diag_r _) G NE) as (d' & i' & K' & Hi).
  destruct (key_fun _ _ _ _ _ K K') as [-> ->]. assumption.
Qed.
Lemma key_multi_inv a l nx d i : groups_ok a -> a <> [] -> key (NMulti (a :: l) :: nx) d i -> exists d', d = S d' /\ key a d' i /\ In i (ids a).
Proof.
  intros G NE K. destruct (key_ex _ a (Nat.lt_succ_diag_r _) G NE) as (d' & i' & K' & Hi).
  pose proof (key_multi a l nx _ _ K') as K2. destruct (key_fun _ _ _ _ _ K K2) as [-> ->]. eauto.
Qed.
Lemma nodup_app_l {A} (a b : list A) : NoDup (a ++ b) -> NoDup a.
Proof. induction a; cbn; [constructor|]. intros H. apply NoDup_cons_iff in H. destruct H as [H1 H2]. constructor; [|auto]. intros Hc. apply H1. apply in_app_iff. now left. Qed.
Lemma nodup_app_r {A} (a b : list A) : NoDup (a ++ b) -> NoDup b.
Proof. induction a; cbn; [auto|]. intros H. apply NoDup_cons_iff in H. tauto. Qed.
Lemma nodup_disj {A} (a b : list A) x : NoDup (a ++ b) -> In x a -> In x b -> False.
Proof. induction a; cbn; [easy|]. intros H. apply NoDup_cons_iff in H. destruct H as [H1 H2]. intros [->|Ha] Hb; [|auto]. apply H1. apply in_app_iff. now right. Qed.
Lemma nodup_join {A} (a b : list A) : NoDup a -> NoDup b -> (forall x, In x a -> In x b -> False) -> NoDup (a ++ b).
Proof.
  induction a; cbn; intros Ha Hb D; [assumption|]. apply NoDup_cons_iff in Ha. destruct Ha as [H1 H2]. constructor.
  - rewrite in_app_iff. intros [H|H]; [auto|]. apply (D a); [now left|assumption].
  - apply IHa; [assumption|assumption|]. intros x Hx. apply D. now right.
Qed.
Lemma nodup_alt alts alt nx : In alt alts -> NoDup (ids (NMulti alts :: nx)) -> NoDup (ids (alt ++ nx)).
Proof.
  intros H N. rewrite ids_cons, ids_multi in N. rewrite ids_app. apply nodup_join.
  - apply nodup_app_l in N. induction alts as [|a l IH]; [easy|]. cbn [flat_map] in N. destruct H as [->|H].
    + now apply nodup_app_l in N.
    + apply IH; [assumption|]. now apply nodup_app_r in N.
  - now apply nodup_app_r in N.
  - intros x H1 H2. eapply nodup_disj; [exact N| |exact H2]. apply in_flat_map. eauto.
Qed.
Lemma alt_disj a l alt nx i : NoDup (ids (NMulti (a :: l) :: nx)) -> In i (ids a) -> In alt l -> In i (ids (alt ++ nx)) -> False.
Proof.
  intros N Hi Ha H. rewrite ids_cons, ids_multi in N. cbn [flat_map] in N. rewrite <- app_assoc in N.
  eapply nodup_disj; [exact N|exact Hi|]. rewrite ids_app in H. apply in_app_iff in H. apply in_app_iff.
  destruct H as [H|H]; [left; apply in_flat_map; eauto|now right].
Qed.

Lemma multi_first alts nx : groups_ok (NMulti alts :: nx) -> exists a l a', alts = a :: l /\ remove_root a = Some a' /\
  stripped alts = a' :: stripped l /\ groups_ok a /\ a <> [] /\ groups_ok a' /\ a' <> [] /\ incl (ids a') (ids a) /\ groups_ok nx.
Proof.
  intros G. destruct (groups_inv _ _ G) as (NA & GA & GN). destruct alts as [|a l]; [easy|].
  destruct (GA a (or_introl eq_refl)) as [S Ga]. destruct (remove_substantial (fun _ _ => true) (fun _ _ => true) (fun _ _ _ => true) a S) as [a' Er].
  destruct (remove_lang (fun _ _ => true) (fun _ _ => true) (fun _ _ _ => true) _ _ _ (Nat.lt_succ_diag_r _) Ga Er) as (G' & S' & _).
  exists a, l, a'. repeat split; auto.
  - unfold stripped. cbn [flat_map]. rewrite Er. reflexivity.
  - now apply substantial_ne.
  - now apply substantial_ne.
  - apply (remove_ids _ _ _ (Nat.lt_succ_diag_r _) Er).
Qed.

Lemma key_E k : forall s r d d' i, size s < k -> groups_ok s -> NoDup (ids s) -> remove_root s = Some r ->
  key s d i -> key r d' i -> d = d'.
Proof.
  induction k; [lia|]. intros s r d d' i Hk G U E Ks Kr. destruct s as [|[j f|alts] nx]; [discriminate|..].
  - rewrite remove_frag in E. destruct (is_mw f) eqn:F.
    + exfalso. assert (j = i) by (unfold key in Ks; cbn in Ks; congruence). subst j. rewrite ids_cons in U. cbn in U.
      apply NoDup_cons_iff in U. destruct U as [U _]. apply U.
      assert (Gn : groups_ok nx) by (now inversion G).
      destruct (remove_lang (fun _ _ => true) (fun _ _ => true) (fun _ _ _ => true) _ _ _ (Nat.lt_succ_diag_r _) Gn E) as (G' & S' & _).
      apply (remove_ids _ nx r (Nat.lt_succ_diag_r _) E). apply key_in with d'; [assumption|now apply substantial_ne|assumption].
    + assert (r = NFrag j f :: nx) by congruence. subst. now destruct (key_fun _ _ _ _ _ Ks Kr).
  - rewrite remove_multi in E. assert (r = NMulti (stripped alts) :: nx) by congruence. subst r.
    destruct (multi_first _ _ G) as (a & l & a' & -> & Er & Es & Ga & NEa & Ga' & NEa' & Inc & _). rewrite Es in Kr.
    apply key_multi_inv in Ks; [|assumption|assumption]. apply key_multi_inv in Kr; [|assumption|assumption].
    destruct Ks as (d1 & -> & K1 & _). destruct Kr as (d2 & -> & K2 & _). f_equal.
    apply (IHk a a' d1 d2 i); auto.
    + pose proof (size_alt' (a :: l) a nx (or_introl eq_refl)). lia.
    + pose proof (nodup_alt (a :: l) a nx (or_introl eq_refl) U) as U'. rewrite ids_app in U'. now apply nodup_app_l in U'.
Qed.
Lemma key_B k : forall s t d d' i, size s < k -> groups_ok s -> NoDup (ids s) -> der s t ->
  key s d i -> key t d' i -> d' < d.
Proof.
  induction k; [lia|]. intros s t d d' i Hk G U D Ks Kt. destruct s as [|[j f|alts] nx]; [easy|..].
  - exfalso. cbn in D. destruct D as [NE D]. assert (j = i) by (unfold key in Ks; cbn in Ks; congruence). subst j.
    rewrite ids_cons in U. cbn in U. apply NoDup_cons_iff in U. destruct U as [U _]. apply U.
    assert (Gn : groups_ok nx) by (now inversion G). destruct (inA_groups _ _ D Gn) as [Gt NEt].
    apply (inA_ids _ _ D). apply key_in with d'; auto.
  - cbn in D. destruct D as (alt & Ha & D).
    destruct (multi_first _ _ G) as (a & l & a' & -> & Er & Es & Ga & NEa & Ga' & NEa' & Inc & Gn).
    destruct (groups_inv _ _ G) as (_ & GA & _).
    apply key_multi_inv in Ks; [|assumption|assumption]. destruct Ks as (d1 & -> & K1 & Hi).
    assert (Galt : groups_ok (alt ++ nx)) by (apply groups_ok_app; [now apply GA|assumption]).
    assert (NEalt : alt ++ nx <> []).
    { destruct (GA _ Ha) as [S _]. apply substantial_ne in S. destruct alt; [easy|discriminate]. }
    destruct Ha as [<-|Ha].
    + pose proof (nodup_alt (a :: l) a nx (or_introl eq_refl) U) as U'.
      assert (Hk' : size (a ++ nx) < k) by (pose proof (size_alt (a :: l) a nx (or_introl eq_refl)); lia).
      pose proof (key_app a nx _ _ K1) as K1'.
      apply inA_cases in D. destruct D as [->|[D|D]].
      * destruct (key_fun _ _ _ _ _ K1' Kt). lia.
      * pose proof (key_E _ _ _ _ _ _ (Nat.lt_succ_diag_r _) Galt U' D K1' Kt). lia.
      * pose proof (IHk (a ++ nx) t d1 d' i Hk' Galt U' D K1' Kt). lia.
    + exfalso. destruct (inA_groups _ _ D Galt) as [Gt NEt].
      apply (alt_disj a l alt nx i U Hi Ha). apply (inA_ids _ _ D). apply key_in with d'; auto.
Qed.
Lemma key_D k : forall s t r d d' i, size s < k -> groups_ok s -> NoDup (ids s) -> der s t -> remove_root s = Some r ->
  key r d i -> key t d' i -> d' <= d /\ ((exists alts nx, s = NMulti alts :: nx) -> d' < d).
Proof.
  induction k; [lia|]. intros s t r d d' i Hk G U D E Kr Kt. destruct s as [|[j f|alts] nx]; [easy|..].
  - rewrite remove_frag in E. destruct (is_mw f) eqn:F.
    + split; [|intros (? & ? & ?); discriminate]. cbn in D. destruct D as [NE D]. assert (Gn : groups_ok nx) by (now inversion G).
      assert (Un : NoDup (ids nx)) by (rewrite ids_cons in U; cbn in U; now apply NoDup_cons_iff in U).
      apply inA_cases in D. destruct D as [->|[D|D]].
      * pose proof (key_E _ _ _ _ _ _ (Nat.lt_succ_diag_r _) Gn Un E Kt Kr). lia.
      * assert (t = r) by congruence. subst. destruct (key_fun _ _ _ _ _ Kr Kt). lia.
      * apply (IHk nx t r d d' i); auto. rewrite size_cons in Hk. cbn in Hk. lia.
    + assert (r = NFrag j f :: nx) by congruence. subst r. pose proof (key_B _ _ _ _ _ _ (Nat.lt_succ_diag_r _) G U D Kr Kt).
      split; [lia|]. intros _. lia.
  - enough (d' < d) by (split; [lia|auto]). rewrite remove_multi in E. assert (r = NMulti (stripped alts) :: nx) by congruence. subst r.
    cbn in D. destruct D as (alt & Ha & D).
    destruct (multi_first _ _ G) as (a & l & a' & -> & Er & Es & Ga & NEa & Ga' & NEa' & Inc & Gn). rewrite Es in Kr.
    destruct (groups_inv _ _ G) as (_ & GA & _).
    apply key_multi_inv in Kr; [|assumption|assumption]. destruct Kr as (d1 & -> & K1 & Hi).
    assert (Galt : groups_ok (alt ++ nx)) by (apply groups_ok_app; [now apply GA|assumption]).
    assert (NEalt : alt ++ nx <> []).
    { destruct (GA _ Ha) as [S _]. apply substantial_ne in S. destruct alt; [easy|discriminate]. }
    destruct Ha as [<-|Ha].
    + pose proof (nodup_alt (a :: l) a nx (or_introl eq_refl) U) as U'.
      assert (Hk' : size (a ++ nx) < k) by (pose proof (size_alt (a :: l) a nx (or_introl eq_refl)); lia).
      pose proof (key_app a' nx _ _ K1) as K1'. assert (Er' : remove_root (a ++ nx) = Some (a' ++ nx)) by (rewrite remove_app, Er; reflexivity).
      apply inA_cases in D. destruct D as [->|[D|D]].
      * pose proof (key_E _ _ _ _ _ _ (Nat.lt_succ_diag_r _) Galt U' Er' Kt K1'). lia.
      * assert (t = a' ++ nx) by congruence. subst t. destruct (key_fun _ _ _ _ _ K1' Kt). lia.
      * destruct (IHk (a ++ nx) t (a' ++ nx) d1 d' i Hk' Galt U' D Er' K1' Kt). lia.
    + exfalso. destruct (inA_groups _ _ D Galt) as [Gt NEt].
      apply (alt_disj a l alt nx i U (Inc _ Hi) Ha). apply (inA_ids _ _ D). apply key_in with d'; auto.
Qed.

Lemma remove_shorter k : forall s r, size s < k -> groups_ok s -> remove_root s = Some r ->
  r = s \/ length (fragment_list r) < length (fragment_list s).
Proof.
  induction k; [lia|]. intros s r Hk G E. destruct s as [|[i f|alts] nx]; [discriminate|..].
  - rewrite remove_frag in E. destruct (is_mw f) eqn:F.
    + right. destruct (IHk nx r) as [->|L]; [|now inversion G|assumption|..].
      * rewrite size_cons in Hk. cbn in Hk. lia.
      * change (fragment_list (NFrag i f :: nx)) with (TI i :: fragment_list nx). cbn [length]. lia.
      * change (fragment_list (NFrag i f :: nx)) with (TI i :: fragment_list nx). cbn [length]. lia.
    + left. congruence.
  - rewrite remove_multi in E. assert (r = NMulti (stripped alts) :: nx) by congruence. subst r.
    destruct (groups_inv _ _ G) as (_ & GA & _).
    assert (IA : forall a, In a alts -> exists a', remove_root a = Some a' /\ (a' = a \/ length (fragment_list a') < length (fragment_list a))).
    { intros a Ha. destruct (GA a Ha) as [S Ga]. destruct (remove_substantial (fun _ _ => true) (fun _ _ => true) (fun _ _ _ => true) a S) as [a' Er].
      exists a'. split; [assumption|]. apply IHk; [|assumption|assumption]. pose proof (size_alt' alts a nx Ha). lia. }
    rewrite !fl_multi. cbn [length]. rewrite !app_length.
    enough (stripped alts = alts \/ length (flat_map fragment_list (stripped alts)) < length (flat_map fragment_list alts)) as [->|L]; [now left|right; lia|].
    clear -IA. induction alts as [|a l IH]; [now left|].
    destruct (IA a (or_introl eq_refl)) as (a' & Er & Ha'). destruct IH as [E|L]; [intros; apply IA; now right|..];
      (change (stripped (a :: l)) with ((match remove_root a with Some a => [a] | None => [] end) ++ stripped l); rewrite Er; cbn [app flat_map]; rewrite ?app_length).
    + rewrite E. destruct Ha' as [->|L]; [now left|right; lia].
    + right. destruct Ha' as [->|L']; lia.
Qed.

Lemma inA_split k : forall alt nx t, size alt < k -> alt <> [] -> inA (alt ++ nx) t -> groups_ok alt ->
  (exists t0, inA alt t0 /\ t = t0 ++ nx) \/ (nx <> [] /\ inA nx t).
Proof.
  induction k; [lia|]. intros alt nx t Hk NE D G. apply inA_cases in D. destruct D as [->|[D|D]].
  - left. exists alt. split; [constructor|reflexivity].
  - rewrite remove_app in D. destruct (remove_root alt) as [a'|] eqn:Er.
    + left. exists a'. split; [now apply A_rem|congruence].
    + right. split; [intros ->; discriminate|now apply A_rem].
  - destruct alt as [|[i f|alts] n]; [easy|..]; cbn in D.
    + destruct D as [NE' D]. destruct n as [|n0 n].
      * right. auto.
      * destruct (IHk (n0 :: n) nx t) as [(t0 & H1 & H2)|H]; [|discriminate|assumption|now inversion G|..].
        -- rewrite size_cons in Hk. cbn [size_node] in Hk. lia.
        -- left. exists t0. split; [|assumption]. apply A_next; [discriminate|assumption].
        -- now right.
    + destruct D as (alt2 & Ha & D). rewrite app_assoc in D. destruct (groups_inv _ _ G) as (_ & GA & Gn). destruct (GA _ Ha) as [S Ga].
      destruct (IHk (alt2 ++ n) nx t) as [(t0 & H1 & H2)|H]; [| |assumption| | |].
      * pose proof (size_alt alts alt2 n Ha). lia.
      * apply substantial_ne in S. destruct alt2; [easy|discriminate].
      * now apply groups_ok_app.
      * left. exists t0. split; [|assumption]. now apply A_alt with alt2.
      * now right.
Qed.

Lemma nodup_two alts a b : In a alts -> In b alts -> NoDup (flat_map ids alts) -> a = b \/ (forall x, In x (ids a) -> In x (ids b) -> False).
Proof.
  induction alts as [|c l IH]; [easy|]. cbn [flat_map]. intros Ha Hb N. destruct Ha as [->|Ha], Hb as [->|Hb].
  - now left.
  - right. intros x H1 H2. eapply nodup_disj; [exact N|exact H1|]. apply in_flat_map. eauto.
  - right. intros x H1 H2. eapply nodup_disj; [exact N|exact H2|]. apply in_flat_map. eauto.
  - apply IH; auto. now apply nodup_app_r in N.
Qed.

Theorem inA_inj k : forall s t t', size s < k -> s <> [] -> groups_ok s -> NoDup (ids s) -> inA s t -> inA s t' ->
  fragment_list t = fragment_list t' -> t = t'.
Proof.
  induction k; [lia|]. intros s t t' Hk NE G U D D' E.
  destruct (inA_groups _ _ D G) as [Gt NEt]. destruct (inA_groups _ _ D' G) as [Gt' NEt'].
  destruct (key_ex _ t (Nat.lt_succ_diag_r _) Gt (NEt NE)) as (d & i & Kt & _).
  assert (Kt' : key t' d i) by (unfold key in *; congruence).
  destruct (key_ex _ s (Nat.lt_succ_diag_r _) G NE) as (ds & is & Ks & _).
  assert (SD : forall u, der s u -> fragment_list s = fragment_list u -> False).
  { intros u Du Eu. assert (Ku : key u ds is) by (unfold key in *; congruence).
    pose proof (key_B _ _ _ _ _ _ (Nat.lt_succ_diag_r _) G U Du Ks Ku). lia. }
  assert (SR : forall r, remove_root s = Some r -> fragment_list r = fragment_list s -> r = s).
  { intros r Er El. destruct (remove_shorter _ _ _ (Nat.lt_succ_diag_r _) G Er) as [->|L]; [reflexivity|]. rewrite El in L. lia. }
  assert (DD : forall u u', der s u -> der s u' -> fragment_list u = fragment_list u' -> u = u').
  { intros u u' Du Du' Eu. destruct s as [|[j f|alts] nx]; [easy|..]; cbn in Du, Du'.
    - destruct Du as [NEn Du], Du' as [_ Du']. apply (IHk nx); auto.
      + rewrite size_cons in Hk. cbn [size_node] in Hk. lia.
      + now inversion G.
      + rewrite ids_cons in U. cbn in U. now apply NoDup_cons_iff in U.
    - destruct Du as (alt & Ha & Du), Du' as (alt' & Ha' & Du').
      destruct (groups_inv _ _ G) as (_ & GA & Gn).
      assert (NA : forall a, In a alts -> groups_ok (a ++ nx) /\ a ++ nx <> []).
      { intros a H. destruct (GA _ H) as [S Ga]. split; [now apply groups_ok_app|]. apply substantial_ne in S. destruct a; [easy|discriminate]. }
      destruct (NA _ Ha) as [Galt NEalt]. destruct (NA _ Ha') as [Galt' NEalt'].
      assert (Un : NoDup (flat_map ids alts)) by (rewrite ids_cons, ids_multi in U; now apply nodup_app_l in U).
      destruct (nodup_two alts alt alt' Ha Ha' Un) as [->|Dj].
      + apply (IHk (alt' ++ nx)); auto.
        * pose proof (size_alt alts alt' nx Ha). lia.
        * now apply nodup_alt with alts.
      + destruct (inA_groups _ _ Du Galt) as [Gu NEu]. destruct (inA_groups _ _ Du' Galt') as [Gu' NEu'].
        destruct (key_ex _ u (Nat.lt_succ_diag_r _) Gu (NEu NEalt)) as (d0 & i0 & Ku & _).
        assert (Ku' : key u' d0 i0) by (unfold key in *; congruence).
        pose proof U as U0. rewrite ids_cons, ids_multi in U0.
        destruct (inA_split _ alt nx u (Nat.lt_succ_diag_r _)) as [(t0 & D0 & ->)|[Nn D0]];
          [intros ->; destruct (GA _ Ha) as [S _]; inversion S|assumption|now apply GA|..];
        (destruct (inA_split _ alt' nx u' (Nat.lt_succ_diag_r _)) as [(t1 & D1 & ->)|[Nn' D1]];
          [intros ->; destruct (GA _ Ha') as [S _]; inversion S|assumption|now apply GA|..]).
        * exfalso. destruct (GA _ Ha) as [S Ga]. destruct (GA _ Ha') as [S' Ga'].
          destruct (inA_groups _ _ D0 Ga) as [G0 N0]. destruct (inA_groups _ _ D1 Ga') as [G1 N1].
          destruct (key_ex _ t0 (Nat.lt_succ_diag_r _) G0 (N0 (substantial_ne _ S))) as (d2 & i2 & K2 & H2).
          destruct (key_ex _ t1 (Nat.lt_succ_diag_r _) G1 (N1 (substantial_ne _ S'))) as (d3 & i3 & K3 & H3).
          destruct (key_fun _ _ _ _ _ (key_app _ nx _ _ K2) Ku) as [-> ->]. destruct (key_fun _ _ _ _ _ (key_app _ nx _ _ K3) Ku') as [-> ->].
          apply (Dj i0); [now apply (inA_ids _ _ D0)|now apply (inA_ids _ _ D1)].
        * exfalso. destruct (GA _ Ha) as [S Ga]. destruct (inA_groups _ _ D0 Ga) as [G0 N0].
          destruct (key_ex _ t0 (Nat.lt_succ_diag_r _) G0 (N0 (substantial_ne _ S))) as (d2 & i2 & K2 & H2).
          destruct (key_fun _ _ _ _ _ (key_app _ nx _ _ K2) Ku) as [-> ->].
          destruct (inA_groups _ _ D1 Gn) as [G1 N1]. pose proof (key_in _ _ _ G1 (N1 Nn') Ku') as H3.
          apply (nodup_disj _ _ i0 U0); [apply in_flat_map; exists alt; split; [assumption|now apply (inA_ids _ _ D0)]|now apply (inA_ids _ _ D1)].
        * exfalso. destruct (GA _ Ha') as [S Ga]. destruct (inA_groups _ _ D1 Ga) as [G0 N0].
          destruct (key_ex _ t1 (Nat.lt_succ_diag_r _) G0 (N0 (substantial_ne _ S))) as (d2 & i2 & K2 & H2).
          destruct (key_fun _ _ _ _ _ (key_app _ nx _ _ K2) Ku') as [-> ->].
          destruct (inA_groups _ _ D0 Gn) as [G1 N1]. pose proof (key_in _ _ _ G1 (N1 Nn) Ku) as H3.
          apply (nodup_disj _ _ i0 U0); [apply in_flat_map; exists alt'; split; [assumption|now apply (inA_ids _ _ D1)]|now apply (inA_ids _ _ D0)].
        * apply (IHk nx); auto.
          -- rewrite size_cons in Hk. pose proof (size_node_pos (NMulti alts)). lia.
          -- now apply nodup_app_r in U0. }
  assert (RD : forall r u, remove_root s = Some r -> der s u -> fragment_list r = fragment_list u -> r = u).
  { intros r u Er Du Eu. destruct s as [|[j f|alts] nx]; [easy|..].
    - pose proof Er as Er0. rewrite remove_frag in Er. destruct (is_mw f).
      + apply DD; [|assumption|assumption]. cbn. split; [intros ->; discriminate|now apply A_rem].
      + assert (r = NFrag j f :: nx) by congruence. subst r. exfalso. now apply (SD u).
    - exfalso. assert (Dr : inA (NMulti alts :: nx) r) by (now apply A_rem). destruct (inA_groups _ _ Dr G) as [Gr NEr].
      destruct (key_ex _ r (Nat.lt_succ_diag_r _) Gr (NEr NE)) as (d0 & i0 & Kr & _).
      assert (Ku : key u d0 i0) by (unfold key in *; congruence).
      destruct (key_D _ _ _ _ _ _ _ (Nat.lt_succ_diag_r _) G U Du Er Kr Ku) as [_ L].
      assert (d0 < d0) by (apply L; eauto). lia. }
  apply inA_cases in D. apply inA_cases in D'.
  destruct D as [->|[D|D]], D' as [->|[D'|D']].
  - reflexivity.
  - symmetry. apply SR; auto.
  - exfalso. now apply (SD t').
  - apply SR; auto.
  - congruence.
  - now apply RD.
  - exfalso. apply (SD t); auto.
  - symmetry. apply RD; auto.
  - now apply DD.
Qed.

(** ** Queries without groups *)
Lemma straight_ok s : straight s -> groups_ok s.
Proof.
  induction s as [|n s IH]; intros H; [constructor|]. destruct (H n (or_introl eq_refl)) as (i & f & ->). constructor.
  apply IH. intros n Hn. apply H. now right.
Qed.
Lemma straight_inA s t : inA s t -> straight s -> straight t /\ incl t s.
Proof.
  induction 1; intros St.
  - split; [assumption|apply incl_refl].
  - revert t H. induction s as [|n s IH]; intros t E; [discriminate|].
    destruct (St n (or_introl eq_refl)) as (i & f & ->). rewrite remove_frag in E. destruct (is_mw f).
    + destruct (IH (fun n Hn => St n (or_intror Hn)) t E) as [S I]. split; [assumption|]. intros x Hx. right. now apply I.
    + assert (t = NFrag i f :: s) by congruence. subst. split; [assumption|apply incl_refl].
  - destruct IHinA as [S I]; [intros x Hx; apply St; now right|]. split; [assumption|]. intros x Hx. right. now apply I.
  - destruct (St (NMulti alts) (or_introl eq_refl)) as (i & f & E). discriminate.
Qed.
Lemma straight_inj s t t' : straight s -> consistent s -> inA s t -> inA s t' -> fragment_list t = fragment_list t' -> t = t'.
Proof.
  intros St C D D' E. destruct (straight_inA _ _ D St) as [S1 I1]. destruct (straight_inA _ _ D' St) as [S2 I2].
  clear D D'. revert t' S2 I2 E. induction t as [|n t IH]; intros [|n' t'] S2 I2 E.
  - reflexivity.
  - destruct (S2 n' (or_introl eq_refl)) as (i & f & ->). discriminate.
  - destruct (S1 n (or_introl eq_refl)) as (i & f & ->). discriminate.
  - destruct (S1 n (or_introl eq_refl)) as (i & f & ->). destruct (S2 n' (or_introl eq_refl)) as (i' & f' & ->).
    cbn in E. injection E as <- E. f_equal.
    + f_equal. apply (C i); [apply I1; now left|apply I2; now left].
    + apply IH; auto.
      * intros x Hx. apply S1. now right.
      * intros x Hx. apply I1. now right.
      * intros x Hx. apply S2. now right.
      * intros x Hx. apply I2. now right.
Qed.
