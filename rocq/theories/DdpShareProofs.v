(** Sharing of repeated quantizer calls in all blocks of a function. *)
From Coq Require Import List Arith Bool Lia Permutation Sorted.
From Verif Require Import Prelude DdpModel DdpSpec DdpProofs DdpSimProofs.
Import ListNotations.

(** ** The calls of a treated block *)

Definition kept (es : list entry) (k : key) : bool :=
  match lookup k es with Some _ => false | None => true end.

Lemma rp_noop es e : calls_in e = [] -> rp_expr es e = e.
Proof.
  induction e as [x|f a IHa b IHb|q a IHa|a IHa c IHc b IHb]; cbn; intros H.
  - reflexivity.
  - apply app_eq_nil in H. rewrite IHa, IHb by tauto. reflexivity.
  - discriminate.
  - apply app_eq_nil in H. destruct H as [H1 H]. apply app_eq_nil in H. rewrite IHa, IHb, IHc by tauto. reflexivity.
Qed.

Lemma rp_calls es e : (forall k, In k (calls_in e) -> calls_in (snd k) = []) ->
  calls_in (rp_expr es e) = filter (kept es) (calls_in e).
Proof.
  induction e as [x|f a IHa b IHb|q a IHa|a IHa c IHc b IHb]; cbn [rp_expr calls_in]; intros H.
  - reflexivity.
  - rewrite filter_app, IHa, IHb; [reflexivity| |]; intros k I; apply H; apply in_or_app; auto.
  - pose proof (H (q, a) (or_introl eq_refl)) as Ha. cbn in Ha. rewrite Ha. cbn [filter]. unfold kept.
    destruct (lookup (q, a) es) as [n|]; [reflexivity|]. cbn. rewrite (rp_noop es a Ha), Ha. reflexivity.
  - rewrite !filter_app, IHa, IHb, IHc; [reflexivity| | |]; intros k I; apply H; rewrite !in_app_iff; auto.
Qed.

Lemma rp_own_exprs es s : own_exprs (rp_stmt es s) = map (rp_expr es) (own_exprs s).
Proof.
  unfold own_exprs. destruct s as [x e|e b o|x e b]; cbn; try reflexivity. f_equal.
  induction o; cbn; congruence.
Qed.

Lemma rp_own_calls es s : (forall k, In k (own_calls s) -> calls_in (snd k) = []) ->
  own_calls (rp_stmt es s) = filter (kept es) (own_calls s).
Proof.
  unfold own_calls. rewrite rp_own_exprs. generalize (own_exprs s). intros l.
  induction l as [|e l IH]; intros H; [reflexivity|]. cbn [map flat_map] in *. rewrite IH.
  - rewrite rp_calls; [symmetry; apply filter_app|]. intros k I. apply H. apply in_or_app. auto.
  - intros k I. apply H. apply in_or_app. auto.
Qed.

Lemma rp_list_calls es l : (forall k, In k (flat_map own_calls l) -> calls_in (snd k) = []) ->
  flat_map own_calls (map (rp_stmt es) l) = filter (kept es) (flat_map own_calls l).
Proof.
  induction l as [|s l IH]; intros H; [reflexivity|]. cbn [map flat_map] in *. rewrite IH.
  - rewrite rp_own_calls; [symmetry; apply filter_app|]. intros k I. apply H. apply in_or_app. auto.
  - intros k I. apply H. apply in_or_app. auto.
Qed.

Lemma filter_from i (new : list (nat * stmt)) :
  Permutation (filter (fun p => i <=? fst p) new)
    (filter (fun p => fst p =? i) new ++ filter (fun p => S i <=? fst p) new).
Proof.
  induction new as [|p new IH]; cbn [filter]; [constructor|].
  destruct (lt_eq_lt_dec (fst p) i) as [[L|E]|L].
  - rewrite (proj2 (Nat.leb_gt i (fst p))), (proj2 (Nat.eqb_neq (fst p) i)), (proj2 (Nat.leb_gt (S i) (fst p))) by lia.
    exact IH.
  - rewrite (proj2 (Nat.leb_le i (fst p))), (proj2 (Nat.eqb_eq (fst p) i)), (proj2 (Nat.leb_gt (S i) (fst p))) by lia.
    cbn. constructor. exact IH.
  - rewrite (proj2 (Nat.leb_le i (fst p))), (proj2 (Nat.eqb_neq (fst p) i)), (proj2 (Nat.leb_le (S i) (fst p))) by lia.
    apply Permutation_cons_app. exact IH.
Qed.

Lemma woven_perm new body : forall i, (forall p, In p new -> fst p < i + length body) ->
  Permutation (woven i new body) (map snd (filter (fun p => i <=? fst p) new) ++ body).
Proof.
  induction body as [|s body IH]; intros i B; cbn [woven].
  - rewrite filter_none; [constructor|]. intros p I. apply Nat.leb_gt. specialize (B p I). cbn in B. lia.
  - rewrite (IH (S i)) by (intros p I; specialize (B p I); cbn in B; lia).
    rewrite (filter_from i new), map_app, <- app_assoc. apply Permutation_app_head.
    apply Permutation_middle.
Qed.

Lemma filter_all {A} (f : A -> bool) l : (forall x, In x l -> f x = true) -> filter f l = l.
Proof.
  induction l as [|a l IH]; intros H; cbn; [reflexivity|]. rewrite (H a (or_introl eq_refl)), IH; [reflexivity|].
  intros; apply H; right; assumption.
Qed.

Lemma shared_perm l es : good_entries l es -> Permutation (shared l es) (map snd (map new_stmt es) ++ map (rp_stmt es) l).
Proof.
  intros (M & _ & _). unfold shared. rewrite woven_perm.
  - rewrite filter_all by reflexivity. reflexivity.
  - intros p I. rewrite map_length. cbn. apply in_map_iff in I. destruct I as ([[[q a] i] n] & <- & I). cbn.
    assert (In ((q, a), i) (repeated l)) as J by (rewrite <- M; apply (in_map fst _ _ I)).
    destruct (proj1 (repeated_first _ _ _ J)) as (s & E & _). apply nth_error_Some. congruence.
Qed.

Lemma repeated_call l k i : In (k, i) (repeated l) -> In k (flat_map own_calls l).
Proof.
  intros I. destruct (proj1 (repeated_first _ _ _ I)) as (s & E & J). apply in_flat_map. exists s.
  split; [eapply nth_error_In; exact E|exact J].
Qed.

Lemma new_calls l (es : list entry) : (forall p, In p es -> In (fst p) (repeated l)) ->
  (forall k, In k (flat_map own_calls l) -> calls_in (snd k) = []) ->
  flat_map own_calls (map snd (map new_stmt es)) = map fst (map fst es).
Proof.
  induction es as [|[[[q a] i] n] es IH]; intros H F; [reflexivity|]. cbn [map flat_map].
  rewrite IH; [|intros p I; apply H; right; exact I|exact F].
  specialize (H _ (or_introl eq_refl)). cbn [fst] in H. pose proof (F _ (repeated_call _ _ _ H)) as Fa. cbn in Fa.
  cbn. rewrite Fa. reflexivity.
Qed.

Lemma shared_calls l es : good_entries l es ->
  (forall k, In k (flat_map own_calls l) -> calls_in (snd k) = []) ->
  Permutation (flat_map own_calls (shared l es))
    (map fst (repeated l) ++ filter (kept es) (flat_map own_calls l)).
Proof.
  intros G F. rewrite (Permutation_flat_map _ (shared_perm l es G)), flat_map_app, (rp_list_calls _ _ F).
  destruct G as (M & G). rewrite (new_calls l); [rewrite M; reflexivity| |exact F].
  intros p I. rewrite <- M. apply in_map. exact I.
Qed.

Lemma count_filter_le (f : key -> bool) L k : count_occ key_dec (filter f L) k <= count_occ key_dec L k.
Proof.
  induction L as [|a L IH]; cbn; [lia|]. destruct (f a); cbn; destruct (key_dec a k); lia.
Qed.

Lemma shared_once l es : good_entries l es ->
  (forall k, In k (flat_map own_calls l) -> calls_in (snd k) = []) ->
  NoDup (flat_map own_calls (shared l es))
  /\ (forall k, In k (flat_map own_calls (shared l es)) <-> In k (flat_map own_calls l)).
Proof.
  intros G F. pose proof (shared_calls l es G F) as P. split.
  - apply (Permutation_NoDup (Permutation_sym P)). apply (NoDup_count_occ key_dec). intros k.
    rewrite count_occ_app. pose proof (proj1 (NoDup_count_occ key_dec _) (repeated_nodup l) k) as N1.
    destruct (in_dec key_dec k (map fst (repeated l))) as [I|N].
    + assert (count_occ key_dec (filter (kept es) (flat_map own_calls l)) k = 0) as Z; [|lia].
      apply (count_occ_not_In key_dec). intros J. apply filter_In in J. destruct J as [_ J]. unfold kept in J.
      destruct (lookup k es) eqn:L; [discriminate|]. apply (lookup_none l es k G) in L. contradiction.
    + apply (count_occ_not_In key_dec) in N as Z. rewrite Z.
      pose proof (count_filter_le (kept es) (flat_map own_calls l) k) as L1.
      destruct (le_lt_dec (count_occ key_dec (flat_map own_calls l) k) 1) as [L2|L2]; [lia|].
      apply repeated_key in L2. contradiction.
  - intros k. split.
    + intros I. apply (Permutation_in _ P) in I. apply in_app_iff in I. destruct I as [I|I].
      * apply in_map_iff in I. destruct I as ([k' i] & <- & I). eapply repeated_call. exact I.
      * apply filter_In in I. tauto.
    + intros I. apply (Permutation_in _ (Permutation_sym P)). apply in_or_app.
      destruct (in_dec key_dec k (map fst (repeated l))) as [J|N]; [left; exact J|right].
      apply filter_In. split; [exact I|]. unfold kept. rewrite (proj2 (lookup_none l es k G) N). reflexivity.
Qed.

(** ** Blocks that have been treated are left alone *)

Lemma dedup_block_once b c : NoDup (calls_of b) -> exists c', dedup_block (b, c) = (b, c').
Proof.
  intros N. unfold dedup_block, dedup. cbn [fst snd]. rewrite (proj2 (repeated_nil (to_list b)) N).
  eexists. rewrite of_to_list. reflexivity.
Qed.

Lemma visit_once :
  (forall s c, (forall b, In b (blocks_stmt s) -> NoDup (calls_of b)) -> exists c', visit_stmt c s = (s, c'))
  /\ (forall o c, (forall b, In b (blocks_orelse o) -> NoDup (calls_of b)) -> exists c', visit_orelse c o = (o, c'))
  /\ (forall b c, (forall b', In b' (inner b) -> NoDup (calls_of b')) -> exists c', visit_items c b = (b, c')).
Proof.
  apply syntax_ind.
  - intros x e c _. exists c. reflexivity.
  - intros e b IHb o IHo c H. cbn in *.
    destruct (IHb c) as (c1 & E1); [intros b' I; apply H; right; apply in_or_app; auto|].
    destruct (dedup_block_once b c1) as (c2 & E2); [apply H; left; reflexivity|].
    destruct (IHo c2) as (c3 & E3); [intros b' I; apply H; right; apply in_or_app; auto|].
    exists c3. rewrite E1, E2, E3. reflexivity.
  - intros x e b IHb c H. cbn in *.
    destruct (IHb c) as (c1 & E1); [intros b' I; apply H; right; auto|].
    destruct (dedup_block_once b c1) as (c2 & E2); [apply H; left; reflexivity|].
    exists c2. rewrite E1, E2. reflexivity.
  - intros c _. exists c. reflexivity.
  - intros b IHb c H. cbn in *.
    destruct (IHb c) as (c1 & E1); [intros b' I; apply H; right; auto|].
    destruct (dedup_block_once b c1) as (c2 & E2); [apply H; left; reflexivity|].
    exists c2. rewrite E1, E2. reflexivity.
  - intros e b IHb o IHo c H. cbn in *.
    destruct (IHb c) as (c1 & E1); [intros b' I; apply H; right; apply in_or_app; auto|].
    destruct (dedup_block_once b c1) as (c2 & E2); [apply H; left; reflexivity|].
    destruct (IHo c2) as (c3 & E3); [intros b' I; apply H; right; apply in_or_app; auto|].
    exists c3. rewrite E1, E2, E3. reflexivity.
  - intros c _. exists c. reflexivity.
  - intros s IHs b IHb c H. cbn in *.
    destruct (IHs c) as (c1 & E1); [intros b' I; apply H; apply in_or_app; auto|].
    destruct (IHb c1) as (c2 & E2); [intros b' I; apply H; apply in_or_app; auto|].
    exists c2. rewrite E1, E2. reflexivity.
Qed.

Lemma visit_block_shared b : (forall b', In b' (inner b) -> NoDup (calls_of b')) ->
  exists es, visit_block b = of_list (shared (to_list b) es) /\ good_entries (to_list b) es.
Proof.
  intros H. unfold visit_block. destruct (proj2 (proj2 visit_once) b [] H) as (c & E). rewrite E.
  unfold dedup_block. cbn [fst snd]. destruct (dedup_shared c (to_list b)) as (es & c' & E2 & G). rewrite E2.
  exists es. auto.
Qed.

Lemma visit_block_once b : (forall b', In b' (blocks b) -> NoDup (calls_of b')) -> visit_block b = b.
Proof.
  intros H. unfold visit_block. destruct (proj2 (proj2 visit_once) b []) as (c & E);
    [intros b' I; apply H; right; exact I|]. rewrite E.
  destruct (dedup_block_once b c) as (c' & E'); [apply H; left; reflexivity|]. rewrite E'. reflexivity.
Qed.

Lemma share_once :
  (forall s, (forall b, In b (blocks_stmt s) -> NoDup (calls_of b)) -> share_stmt s = s)
  /\ (forall o, (forall b, In b (blocks_orelse o) -> NoDup (calls_of b)) -> share_orelse o = o)
  /\ (forall b, (forall b', In b' (inner b) -> NoDup (calls_of b')) -> share_items b = b).
Proof.
  apply syntax_ind.
  - reflexivity.
  - intros e b IHb o IHo H. cbn in *. rewrite IHb, IHo, visit_block_once; [reflexivity| | |];
      intros b' I; apply H; cbn in *; rewrite ?in_app_iff; tauto.
  - intros x e b IHb H. cbn in *. rewrite IHb, visit_block_once; [reflexivity| |];
      intros b' I; apply H; cbn in *; tauto.
  - reflexivity.
  - intros b IHb H. cbn in *. rewrite IHb, visit_block_once; [reflexivity| |];
      intros b' I; apply H; cbn in *; tauto.
  - intros e b IHb o IHo H. cbn in *. rewrite IHb, IHo, visit_block_once; [reflexivity| | |];
      intros b' I; apply H; cbn in *; rewrite ?in_app_iff; tauto.
  - reflexivity.
  - intros s IHs b IHb H. cbn in *. rewrite IHs, IHb; [reflexivity| |];
      intros b' I; apply H; apply in_or_app; tauto.
Qed.

Lemma share_unchanged f : (forall b, In b (blocks f) -> NoDup (calls_of b)) -> share_calls f = f.
Proof.
  intros H. unfold share_calls. rewrite (proj2 (proj2 share_once)).
  - apply visit_block_once. exact H.
  - intros b I. apply H. right. exact I.
Qed.

(** ** All blocks *)

Definition blocks_of_list (l : list stmt) : list block := flat_map blocks_stmt l.

Lemma inner_list b : inner b = blocks_of_list (to_list b).
Proof.
  unfold blocks_of_list. induction b as [|s b IH]; [reflexivity|].
  change (blocks_stmt s ++ inner b = blocks_stmt s ++ flat_map blocks_stmt (to_list b)). rewrite IH. reflexivity.
Qed.

Lemma blocks_rp es s : blocks_stmt (rp_stmt es s) = blocks_stmt s.
Proof.
  destruct s as [x e|e b o|x e b]; try reflexivity.
  change ((b :: inner b) ++ blocks_orelse (rp_orelse es o) = (b :: inner b) ++ blocks_orelse o). f_equal.
  induction o as [| |e' b' o IH]; try reflexivity.
  change ((b' :: inner b') ++ blocks_orelse (rp_orelse es o) = (b' :: inner b') ++ blocks_orelse o).
  rewrite IH. reflexivity.
Qed.

Lemma blocks_woven es l : forall i new, (forall p, In p new -> blocks_stmt (snd p) = []) ->
  blocks_of_list (woven i new (map (rp_stmt es) l)) = blocks_of_list l.
Proof.
  unfold blocks_of_list. induction l as [|s l IH]; intros i new H; cbn [map woven]; [reflexivity|].
  rewrite flat_map_app. cbn [flat_map]. rewrite blocks_rp, (IH (S i) new H).
  replace (flat_map blocks_stmt (map snd (filter (fun p => fst p =? i) new))) with (@nil block); [reflexivity|].
  symmetry. clear - H. induction new as [|p new IHn]; [reflexivity|]. cbn [filter].
  destruct (fst p =? i); [cbn [map flat_map]; rewrite (H p (or_introl eq_refl))|]; apply IHn; intros; apply H; right; assumption.
Qed.

Lemma inner_shared l es : inner (of_list (shared l es)) = blocks_of_list l.
Proof.
  rewrite inner_list, to_of_list. apply blocks_woven. intros p I. apply in_map_iff in I.
  destruct I as ([[[q a] i] n] & <- & _). reflexivity.
Qed.

Lemma share_items_list b : to_list (share_items b) = map share_stmt (to_list b).
Proof.
  induction b as [|s b IH]; [reflexivity|].
  change (share_stmt s :: to_list (share_items b) = share_stmt s :: map share_stmt (to_list b)). rewrite IH. reflexivity.
Qed.

Lemma share_own_exprs s : own_exprs (share_stmt s) = own_exprs s.
Proof.
  unfold own_exprs. destruct s as [x e|e b o|x e b]; try reflexivity. 
  change (e :: elif_tests (share_orelse o) = e :: elif_tests o). f_equal.
  induction o as [| |e' b' o IH]; try reflexivity.
  change (e' :: elif_tests (share_orelse o) = e' :: elif_tests o). rewrite IH. reflexivity.
Qed.

Lemma share_calls_list b : map own_calls (to_list (share_items b)) = map own_calls (to_list b).
Proof.
  rewrite share_items_list, map_map. apply map_ext. intros s. unfold own_calls. rewrite share_own_exprs. reflexivity.
Qed.

Lemma flat_map_calls l : flat_map own_calls l = concat (map own_calls l).
Proof. apply flat_map_concat_map. Qed.

(** The calls of a block and of the treated block. *)
Definition calls_shared (b b' : block) : Prop :=
  NoDup (calls_of b') /\ (forall c, In c (calls_of b') <-> In c (calls_of b)).

Definition flat_in (bs : list block) : Prop :=
  forall b c, In b bs -> In c (calls_of b) -> calls_in (snd c) = [].

Lemma shared_nodup bs bs' : Forall2 calls_shared bs bs' -> forall b, In b bs' -> NoDup (calls_of b).
Proof.
  induction 1 as [|b b' bs bs' [N _] _ IH]; intros c; cbn; [tauto|]. intros [<-|I]; auto.
Qed.

Lemma visit_shared b :
  flat_in (b :: inner b) -> Forall2 calls_shared (inner b) (inner (share_items b)) ->
  exists es, visit_block (share_items b) = of_list (shared (to_list (share_items b)) es)
    /\ good_entries (to_list (share_items b)) es
    /\ Forall2 calls_shared (b :: inner b) (visit_block (share_items b) :: inner (visit_block (share_items b))).
Proof.
  intros Fl H. destruct (visit_block_shared (share_items b)) as (es & E & G); [apply (shared_nodup _ _ H)|].
  exists es. split; [exact E|]. split; [exact G|]. rewrite E. constructor.
  - unfold calls_shared, calls_of. rewrite to_of_list.
    assert (flat_map own_calls (to_list (share_items b)) = flat_map own_calls (to_list b)) as EC.
    { rewrite !flat_map_calls, share_calls_list. reflexivity. }
    rewrite <- EC. apply shared_once; [exact G|]. rewrite EC. intros k I. apply (Fl b k); [left; reflexivity|exact I].
  - rewrite inner_shared, <- inner_list. exact H.
Qed.

Lemma share_blocks :
  (forall s, flat_in (blocks_stmt s) -> Forall2 calls_shared (blocks_stmt s) (blocks_stmt (share_stmt s)))
  /\ (forall o, flat_in (blocks_orelse o) -> Forall2 calls_shared (blocks_orelse o) (blocks_orelse (share_orelse o)))
  /\ (forall b, flat_in (inner b) -> Forall2 calls_shared (inner b) (inner (share_items b))).
Proof.
  assert (forall a c, flat_in (a ++ c) -> flat_in a /\ flat_in c) as FA.
  { intros a c H. split; intros b k I; apply H; apply in_or_app; auto. }
  assert (forall b c, flat_in (b :: c) -> flat_in c) as FC.
  { intros b c H b' k I. apply H. right. exact I. }
  apply syntax_ind.
  - constructor.
  - intros e b IHb o IHo H. change (flat_in ((b :: inner b) ++ blocks_orelse o)) in H.
    change (Forall2 calls_shared ((b :: inner b) ++ blocks_orelse o)
              ((visit_block (share_items b) :: inner (visit_block (share_items b))) ++ blocks_orelse (share_orelse o))).
    apply FA in H. destruct H as [Hb Ho].
    destruct (visit_shared b Hb (IHb (FC _ _ Hb))) as (_ & _ & _ & R).
    apply Forall2_app; [exact R|apply IHo; exact Ho].
  - intros x e b IHb Hb. change (flat_in (b :: inner b)) in Hb.
    destruct (visit_shared b Hb (IHb (FC _ _ Hb))) as (_ & _ & _ & R). exact R.
  - constructor.
  - intros b IHb Hb. change (flat_in (b :: inner b)) in Hb.
    destruct (visit_shared b Hb (IHb (FC _ _ Hb))) as (_ & _ & _ & R). exact R.
  - intros e b IHb o IHo H. change (flat_in ((b :: inner b) ++ blocks_orelse o)) in H.
    change (Forall2 calls_shared ((b :: inner b) ++ blocks_orelse o)
              ((visit_block (share_items b) :: inner (visit_block (share_items b))) ++ blocks_orelse (share_orelse o))).
    apply FA in H. destruct H as [Hb Ho].
    destruct (visit_shared b Hb (IHb (FC _ _ Hb))) as (_ & _ & _ & R).
    apply Forall2_app; [exact R|apply IHo; exact Ho].
  - constructor.
  - intros s IHs b IHb H. change (flat_in (blocks_stmt s ++ inner b)) in H. apply FA in H. destruct H as [Hs Hb].
    change (Forall2 calls_shared (blocks_stmt s ++ inner b) (blocks_stmt (share_stmt s) ++ inner (share_items b))).
    apply Forall2_app; auto.
Qed.

Lemma share_calls_once f : flat f -> Forall2 calls_shared (blocks f) (blocks (share_calls f)).
Proof.
  intros Fl. unfold blocks, share_calls.
  destruct (visit_shared f Fl) as (_ & _ & _ & R); [|exact R].
  apply (proj2 (proj2 share_blocks)). intros b c I. apply Fl. right. exact I.
Qed.

(** ** Meaning *)

Definition nice (b : block) : Prop :=
  (forall s, In s (to_list b) ->
     (forall x, In x (assigned s) -> user_name x)
     /\ (forall e x, In e (own_exprs s) -> In x (vars e) -> user_name x))
  /\ (forall c, In c (calls_of b) -> calls_in (snd c) = [])
  /\ (forall s, In s (to_list b) -> unconditional (main_expr s) /\ (forall e, In e (own_tests s) -> calls_in e = []))
  /\ (forall pre s1 mid s2 post c x, to_list b = pre ++ s1 :: mid ++ s2 :: post ->
      In c (own_calls s1) -> In c (own_calls s2) -> In x (vars (snd c)) ->
      ~ In x (flat_map assigned (s1 :: mid))).

Section Meaning.
Variable w : world.

Lemma like_block b : Forall nice (b :: inner b) ->
  Forall2 (like_stmt w) (to_list b) (to_list (share_items b)) ->
  like w b (visit_block (share_items b)).
Proof.
  intros HN HL. assert (flat_in (b :: inner b)) as Fl.
  { intros b' c I. rewrite Forall_forall in HN. destruct (HN b' I) as (_ & H & _). apply H. }
  destruct (visit_shared b Fl) as (es & E & G & _).
  { apply (proj2 (proj2 share_blocks)). intros b' c I. apply Fl. right. exact I. }
  rewrite E. intros g g' A. rewrite !run_to_list, to_of_list.
  inversion HN as [|? ? Hb _]; subst. destruct Hb as (H1 & H2 & H3 & H4).
  apply simulate_block; [exact HL|exact G| | |exact H3|exact H4|exact A].
  - intros s x Is. apply (proj1 (H1 s Is)).
  - intros s e x Is. apply (proj2 (H1 s Is)).
Qed.

Lemma share_like :
  (forall s, Forall nice (blocks_stmt s) -> like_stmt w s (share_stmt s))
  /\ (forall o, Forall nice (blocks_orelse o) -> like_orelse w o (share_orelse o))
  /\ (forall b, Forall nice (inner b) -> Forall2 (like_stmt w) (to_list b) (to_list (share_items b))).
Proof.
  apply syntax_ind.
  - constructor.
  - intros e b IHb o IHo H. change (Forall nice ((b :: inner b) ++ blocks_orelse o)) in H.
    apply Forall_app in H. destruct H as [Hb Ho]. constructor; [|apply IHo; exact Ho].
    apply like_block; [exact Hb|]. apply IHb. inversion Hb; assumption.
  - intros x e b IHb Hb. change (Forall nice (b :: inner b)) in Hb. constructor.
    apply like_block; [exact Hb|]. apply IHb. inversion Hb; assumption.
  - constructor.
  - intros b IHb Hb. change (Forall nice (b :: inner b)) in Hb. constructor.
    apply like_block; [exact Hb|]. apply IHb. inversion Hb; assumption.
  - intros e b IHb o IHo H. change (Forall nice ((b :: inner b) ++ blocks_orelse o)) in H.
    apply Forall_app in H. destruct H as [Hb Ho]. constructor; [|apply IHo; exact Ho].
    apply like_block; [exact Hb|]. apply IHb. inversion Hb; assumption.
  - constructor.
  - intros s IHs b IHb H. change (Forall nice (blocks_stmt s ++ inner b)) in H.
    apply Forall_app in H. destruct H as [Hs Hb].
    change (Forall2 (like_stmt w) (s :: to_list b) (share_stmt s :: to_list (share_items b))).
    constructor; auto.
Qed.
End Meaning.

Lemma share_same w f (g : env w) :
  no_temporaries f -> flat f -> stable f -> strict f ->
  same_outcome w (run w f g) (run w (share_calls f) g).
Proof.
  intros H1 H2 H3 H4. assert (Forall nice (blocks f)) as HN.
  { apply Forall_forall. intros b I. split; [|split; [|split]].
    - intros s. apply H1. exact I.
    - intros c. apply H2. exact I.
    - intros s. apply H4. exact I.
    - intros pre s1 mid s2 post c x E. eapply H3; eassumption. }
  apply (like_block w f HN).
  - apply (proj2 (proj2 (share_like w))). unfold blocks in HN. inversion HN; assumption.
  - intros n. reflexivity.
Qed.

Lemma share_idempotent f : flat f -> share_calls (share_calls f) = share_calls f.
Proof.
  intros H. apply share_unchanged. apply (shared_nodup _ _ (share_calls_once f H)).
Qed.
