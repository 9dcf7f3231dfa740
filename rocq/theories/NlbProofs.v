(** Placement, hoisting and numbering of quantizers of non-local expressions. *)
From Coq Require Import List Arith Bool Lia.
From Verif Require Import Prelude NlbModel NlbSpec NlbScopeProofs NlbInsertProofs NlbSemProofs.
Import ListNotations.

Lemma anns_adds : forall f i e us, us <> [] -> In (i, (e, us)) (all_adds (S_ f)) ->
  exists a, In (i, a) (annotate f) /\ an_expr a = e /\ an_uses a = us.
Proof.
  intros f i e us Hus H. destruct (resolve_ok (record_function f)) as [_ E].
  change (record_function f) with (S_ f) in E.
  assert (H' : In (i, (e, us)) (map strip (c_anns (resolve (S_ f))))).
  { rewrite E. apply filter_In. split; [exact H|]. unfold nonempty. cbn. destruct us; congruence. }
  apply in_map_iff in H'. destruct H' as ([j a] & Ea & Ha). unfold strip in Ea. cbn in Ea.
  injection Ea as -> <- <-. exists a. auto.
Qed.

Theorem covered_raw : forall f, no_elif_block f = true -> forall u e, In (u, e) (uses_block f) ->
  exists B a, In B (blocks f) /\ In (u, e) (uses_block B)
    /\ In (block_id B, a) (annotate f) /\ an_expr a = e /\ In u (an_uses a).
Proof.
  intros f Hno u e H. destruct (cover_S f Hno e u H) as [(us & Hin & Hu)|(B & us & H1 & H2 & H3 & H4)].
  - destruct (anns_adds f (block_id f) e us) as (a & A1 & A2 & A3).
    + intros ->. exact Hu.
    + unfold all_adds. apply in_or_app. right. apply in_map_iff. exists (e, us). rewrite S_block. auto.
    + exists f, a. split; [apply self_block|]. split; [exact H|]. split; [exact A1|]. split; [exact A2|].
      rewrite A3. exact Hu.
  - destruct (anns_adds f (block_id B) e us) as (a & A1 & A2 & A3).
    + intros ->. exact H4.
    + unfold all_adds. apply in_or_app. left. exact H3.
    + exists B, a. split; [exact H1|]. split; [exact H2|]. split; [exact A1|]. split; [exact A2|].
      rewrite A3. exact H4.
Qed.

(** Everything recorded is a use, also with elif. *)
Inductive recorded_in : scope -> nat -> expr -> Prop :=
| ri_here : forall b ch r u e, InR r e u -> recorded_in (Scope b ch r) u e
| ri_below : forall b ch r k u e, In k ch -> recorded_in k u e -> recorded_in (Scope b ch r) u e.

Lemma recorded_add_child : forall s c u e,
  recorded_in (add_child s c) u e -> recorded_in s u e \/ recorded_in c u e.
Proof.
  intros [b ch r] c u e H. cbn in H. inversion H as [? ? ? ? ? K|? ? ? k ? ? K1 K2]; subst.
  - left. constructor. exact K.
  - apply in_app_or in K1. destruct K1 as [K1|[<-|[]]]; [left; eapply ri_below; eauto|right; exact K2].
Qed.

Lemma recorded_args : forall l s u e,
  recorded_in (rec_args s l) u e -> recorded_in s u e \/ In (u, e) (flat_map arg_uses l).
Proof.
  induction l as [|a l IH]; intros s u e H; [auto|]. cbn [rec_args flat_map] in *.
  destruct a as [x|e'|u' e']; cbn; try (apply IH; exact H).
  destruct (IH _ _ _ H) as [K|K]; [|auto]. destruct s as [b ch r]. cbn in K.
  inversion K as [? ? ? ? ? K'|? ? ? k ? ? K1 K2]; subst.
  - apply extend_InR in K'. destruct K' as [K'|[-> [->|[]]]]; [left; constructor; exact K'|auto].
  - left. eapply ri_below; eauto.
Qed.

Lemma recorded_fresh : forall i u e, ~ recorded_in (fresh i) u e.
Proof.
  intros i u e H. unfold fresh in H. inversion H as [? ? ? ? ? K|? ? ? k ? ? K1 K2]; subst.
  - destruct K as (us & [] & _).
  - destruct K1.
Qed.

Lemma recorded_uses :
  (forall st s u e, recorded_in (rec_stmt s st) u e -> recorded_in s u e \/ In (u, e) (uses st))
  /\ (forall b s u e, recorded_in (rec_block s b) u e -> recorded_in s u e \/ In (u, e) (uses_block b))
  /\ (forall o s u e, recorded_in (rec_orelse s o) u e -> recorded_in s u e \/ In (u, e) (uses_orelse o)).
Proof.
  apply syntax_ind; cbn [rec_stmt rec_orelse uses uses_orelse]; auto.
  - intros x c s u e H. apply recorded_args. exact H.
  - intros c b o Hb Ho s u e H. rewrite !in_app_iff.
    destruct (Ho _ _ _ H) as [K|K]; [|auto]. apply recorded_add_child in K. destruct K as [K|K].
    + apply recorded_args in K. destruct K as [K|K]; auto.
    + destruct (Hb _ _ _ K) as [K'|K']; [destruct (recorded_fresh _ _ _ K')|auto].
  - intros x c b Hb s u e H. rewrite in_app_iff.
    destruct (Hb _ _ _ H) as [K|K]; [|auto]. destruct (Hb _ _ _ K) as [K'|K']; [|auto].
    apply recorded_args in K'. destruct K' as [K'|K']; auto.
  - intros i l HF s u e H. rewrite rec_block_eq in H. cbn. revert s H.
    induction l as [|st l IH]; intros s H; [auto|]. inversion HF as [|? ? H1 H2]; subst.
    cbn in H. destruct (IH H2 _ H) as [K|K].
    + destruct (H1 _ _ _ K) as [K'|K']; [auto|]. right. cbn. apply in_or_app. auto.
    + right. cbn. apply in_or_app. auto.
  - intros b Hb s u e H. apply recorded_add_child in H. destruct H as [K|K]; [auto|].
    destruct (Hb _ _ _ K) as [K'|K']; [destruct (recorded_fresh _ _ _ K')|auto].
  - intros c b o Hb Ho s u e H. rewrite !in_app_iff. apply recorded_add_child in H.
    destruct H as [K|K]; [auto|]. destruct (Ho _ _ _ K) as [K'|K']; [|auto].
    apply recorded_add_child in K'. destruct K' as [K'|K'].
    + apply recorded_args in K'. destruct K' as [K'|K']; [destruct (recorded_fresh _ _ _ K')|auto].
    + destruct (Hb _ _ _ K') as [K2|K2]; [destruct (recorded_fresh _ _ _ K2)|auto].
Qed.

Lemma up_recorded : forall s e u, InR (up s) e u -> recorded_in s u e.
Proof.
  intros s. induction s as [b ch r HF] using scope_ind3. intros e u H. apply up_InR in H.
  destruct H as [H|(_ & k & Hk & H)]; [constructor; exact H|].
  rewrite Forall_forall in HF. eapply ri_below; eauto.
Qed.

Lemma down_recorded : forall s i e us u, In (i, (e, us)) (down s) -> In u us -> recorded_in s u e.
Proof.
  intros s. induction s as [b ch r HF] using scope_ind3. intros i e us u H Hu. apply down_In in H.
  rewrite Forall_forall in HF.
  destruct H as [(k & Hk & H)|(_ & k & Hk & _ & H)]; eapply ri_below; eauto.
  apply up_recorded. exists us. auto.
Qed.

Theorem annotations_are_uses : forall f i a u, In (i, a) (annotate f) -> In u (an_uses a) ->
  In (u, an_expr a) (uses_block f).
Proof.
  intros f i a u H Hu. destruct (resolve_ok (record_function f)) as [_ E].
  unfold annotate in H. apply (in_map strip) in H. rewrite E in H. apply filter_In in H.
  destruct H as [H _]. unfold all_adds, strip in H. cbn in H.
  assert (R : recorded_in (record_function f) u (an_expr a)).
  { apply in_app_or in H. destruct H as [H|H]; [eapply down_recorded; eauto|].
    apply in_map_iff in H. destruct H as (p & Ep & Hp). injection Ep as _ E2. subst p.
    apply up_recorded. exists (an_uses a). auto. }
  unfold record_function in R. destruct (proj1 (proj2 recorded_uses) _ _ _ _ R) as [K|K]; [|exact K].
  destruct (recorded_fresh _ _ _ K).
Qed.

Theorem ids_spec : forall f,
  (forall i a j b, In (i, a) (annotate f) -> In (j, b) (annotate f) ->
     (an_id a = an_id b <-> an_expr a = an_expr b))
  /\ (forall q i a, In (i, a) (annotate f) -> q <= an_id a ->
        exists j b, In (j, b) (annotate f) /\ an_id b = q).
Proof.
  intros f. destruct (resolve_ok (record_function f)) as [[I1 I2 I3] _]. unfold annotate. split.
  - intros i a j b Ha Hb. apply I2 in Ha, Hb. split; [congruence|].
    intros E. rewrite E in Ha. apply (proj1 (NoDup_nth_error _) I1); [|congruence].
    apply nth_error_Some. congruence.
  - intros q i a Ha Hq. pose proof (I2 _ _ Ha) as N.
    assert (Hlt : q < length (c_ids (resolve (record_function f)))).
    { assert (an_id a < length (c_ids (resolve (record_function f)))) by (apply nth_error_Some; congruence). lia. }
    destruct (nth_error (c_ids (resolve (record_function f))) q) as [e|] eqn:E;
      [|apply nth_error_None in E; lia].
    destruct (I3 e (nth_error_In _ _ E)) as (j & b & Hb & <-). exists j, b. split; [exact Hb|].
    apply I2 in Hb. apply (proj1 (NoDup_nth_error _) I1); [|congruence]. apply nth_error_Some. congruence.
Qed.

(** Hoisting. *)
Lemma direct_own :
  (forall st x, In x (direct st) <-> In x (own st))
  /\ (forall b x, In x (direct_block b) <-> In x (own_block b)) /\ (forall o : orelse, True).
Proof.
  apply syntax_ind; try (cbn; tauto).
  - intros x c [i l] Hb y. specialize (Hb y). unfold direct_block, own_block in Hb. cbn in *.
    rewrite !in_app_iff, Hb. tauto.
  - intros i l HF x. unfold direct_block, own_block. cbn. rewrite Forall_forall in HF.
    rewrite !in_flat_map. split; intros (st & H1 & H2); exists st; (split; [exact H1|]); apply (HF st H1); exact H2.
Qed.

Lemma branches_kids :
  (forall st x, In x (branches st) <-> In x (kids st))
  /\ (forall b x, In x (branches_block b) <-> In x (kids_block b)) /\ (forall o : orelse, True).
Proof.
  apply syntax_ind; try (cbn; tauto).
  - intros x c [i l] Hb y. specialize (Hb y). unfold branches_block, kids_block in Hb. cbn in *.
    rewrite !in_app_iff, Hb. tauto.
  - intros i l HF x. unfold branches_block, kids_block. cbn. rewrite Forall_forall in HF.
    rewrite !in_flat_map. split; intros (st & H1 & H2); exists st; (split; [exact H1|]); apply (HF st H1); exact H2.
Qed.

Theorem shared_at_function : forall f e, no_elif_block f = true ->
  (forall k, In k (branches_block f) -> exists u, In (u, e) (direct_block k)) ->
  forall k u, k = f \/ In k (branches_block f) -> In (u, e) (direct_block k) ->
  exists a, In (block_id f, a) (annotate f) /\ an_expr a = e /\ In u (an_uses a).
Proof.
  intros f e Hno Hall k u Hk Hu.
  assert (HR : InR (up (S_ f)) e u).
  { apply up_S; auto. destruct Hk as [->|Hk].
    - left. apply (proj1 (proj2 direct_own)). exact Hu.
    - right. split.
      + unfold common. rewrite forallb_forall. intros m Hm. apply in_map_iff in Hm.
        destruct Hm as (k' & <- & Hk'). apply has_iff.
        destruct (Hall k') as (u' & Hu'); [apply (proj1 (proj2 branches_kids)); exact Hk'|].
        apply (InR_key _ _ u'). apply up_S.
        * apply (proj1 (proj2 kids_in) f k' Hk'). exact Hno.
        * left. apply (proj1 (proj2 direct_own)). exact Hu'.
      + assert (Hk' : In k (kids_block f)) by (apply (proj1 (proj2 branches_kids)); exact Hk).
        exists k. split; [exact Hk'|]. apply up_S.
        * apply (proj1 (proj2 kids_in) f k Hk'). exact Hno.
        * left. apply (proj1 (proj2 direct_own)). exact Hu. }
  destruct HR as (us & Hin & Hus).
  destruct (anns_adds f (block_id f) e us) as (a & A1 & A2 & A3).
  - intros ->. exact Hus.
  - unfold all_adds. apply in_or_app. right. apply in_map_iff. exists (e, us). rewrite S_block. auto.
  - exists a. rewrite A3. auto.
Qed.

Theorem rewrite_meaning : forall f ident, distinct_blocks f -> no_elif_block f = true ->
  new_names ident f -> fixed_bases f ->
  exists number : expr -> nat,
    (forall u u' e e', In (u, e) (uses_block f) -> In (u', e') (uses_block f) ->
       number e = number e' -> e = e')
    /\ forall (w : world) (qz : nat -> val w -> val w) (g : env w), available w g f ->
       same_outcome (made ident f)
         (run_block w qz (fun e => qz (number e)) f g)
         (run_block w qz (fun _ v => v) (rewrite ident f) g).
Proof.
  intros f ident Hd Hno [Hinj Hfresh] Hbase. exists (qid f). split.
  - intros u u' e e' Hu Hu'. eapply (qid_inj f ident); eauto.
    + intros x y (v & Hv) (v' & Hv'). eapply Hinj; eauto.
    + exists u. exact Hu.
    + exists u'. exact Hu'.
  - intros w qz g Hav. apply rewrite_correct; auto.
Qed.
