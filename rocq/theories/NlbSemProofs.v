(** The rewritten function computes what it should. *)
From Coq Require Import List Arith Bool Lia Permutation.
From Verif Require Import Prelude NlbModel NlbSpec NlbScopeProofs NlbInsertProofs.
Import ListNotations.

(** ** Annotations of a block *)
Lemma dedup_in : forall ident l seen a, In a (dedup ident seen l) -> In a l.
Proof.
  intros ident. induction l as [|x l IH]; intros seen a; cbn; [tauto|].
  destruct (existsb (ann_eqb ident x) seen); cbn.
  - intros H. right. eapply IH. exact H.
  - intros [H|H]; [auto|right; eapply IH; exact H].
Qed.

Lemma ann_eqb_sym : forall ident a b, ann_eqb ident a b = ann_eqb ident b a.
Proof. intros. unfold ann_eqb. rewrite (Nat.eqb_sym (ident (an_expr a))), (Nat.eqb_sym (an_id a)). reflexivity. Qed.

Lemma dedup_rep : forall ident l seen a, In a l ->
  (exists b, In b seen /\ ann_eqb ident a b = true)
  \/ (exists b, In b (dedup ident seen l) /\ ann_eqb ident a b = true).
Proof.
  intros ident. induction l as [|x l IH]; intros seen a []; cbn.
  - subst x. destruct (existsb (ann_eqb ident a) seen) eqn:E.
    + left. apply existsb_exists in E. exact E.
    + right. exists a. split; [left; reflexivity|]. unfold ann_eqb. rewrite !Nat.eqb_refl. reflexivity.
  - destruct (existsb (ann_eqb ident x) seen) eqn:E.
    + apply IH. exact H.
    + destruct (IH (x :: seen) a H) as [(b & [<-|Hb] & Hab)|(b & Hb & Hab)].
      * right. exists x. split; [left; reflexivity|exact Hab].
      * left. exists b. auto.
      * right. exists b. split; [right; exact Hb|exact Hab].
Qed.

Lemma sort_by_in : forall {A} (leb : A -> A -> bool) l x, In x (sort_by leb l) <-> In x l.
Proof.
  intros A leb. assert (G : forall y l x, In x (insert_by leb y l) <-> x = y \/ In x l).
  { intros y. induction l as [|z l IH]; intros x; cbn.
    - split; [intros [H|[]]; auto|intros [H|[]]; auto].
    - destruct (leb y z); cbn; [|rewrite IH]; intuition. }
  induction l as [|y l IH]; intros x; cbn; [tauto|]. rewrite G, IH. intuition.
Qed.

Section Sem.
Variable f : block.
Variable ident : expr -> nat.
Hypothesis Hno : no_elif_block f = true.
Hypothesis Hids : NoDup (map block_id (blocks f)).

Definition wants (e : expr) : Prop := exists u, In (u, e) (uses_block f).
Definition target (x : nat) : Prop := exists e, wants e /\ x = ident e.

Hypothesis Hinj : forall e e', wants e -> wants e' -> ident e = ident e' -> e = e'.

Let anns := annotate f.
Definition qid (e : expr) : nat :=
  match pos e (c_ids (resolve (record_function f))) with Some q => q | None => 0 end.

Lemma nodup_map_inj : forall {A B} (g : A -> B) l x y,
  NoDup (map g l) -> In x l -> In y l -> g x = g y -> x = y.
Proof.
  intros A B g. induction l as [|z l IH]; intros x y N [] []; subst; auto.
  - inversion N as [|? ? H1 H2]; subst. intros E. exfalso. apply H1. rewrite E. apply in_map. auto.
  - inversion N as [|? ? H1 H2]; subst. intros E. exfalso. apply H1. rewrite <- E. apply in_map. auto.
  - inversion N as [|? ? H1 H2]; subst. auto.
Qed.

(** Every annotation says what a block of the function hands up. *)
Lemma ann_char : forall i a, In (i, a) anns ->
  exists B, In B (blocks f) /\ block_id B = i /\ no_elif_block B = true
    /\ In (an_expr a, an_uses a) (up (S_ B)).
Proof.
  intros i a H. unfold anns, annotate in H. destruct (resolve_ok (record_function f)) as [_ E].
  apply (in_map strip) in H. rewrite E in H. apply filter_In in H. destruct H as [H _].
  unfold all_adds in H. apply in_app_or in H. unfold strip in H. cbn in H.
  change (record_function f) with (S_ f) in H. destruct H as [H|H].
  - destruct (down_S_char f Hno _ _ _ H) as (B & H1 & H2 & H3 & H4). exists B. auto.
  - apply in_map_iff in H. destruct H as (p & Ep & Hp). rewrite S_block in Ep.
    injection Ep as E1 E2. exists f. rewrite <- E2. split; [apply self_block|]. auto.
Qed.

Lemma blocks_uses : forall B, In B (blocks f) -> forall x, In x (uses_block B) -> In x (uses_block f).
Proof.
  assert (G : (forall st B, In B (blocks_stmt st) -> forall x, In x (uses_block B) -> In x (uses st))
    /\ (forall b B, In B (blocks b) -> forall x, In x (uses_block B) -> In x (uses_block b))
    /\ (forall o B, In B (blocks_orelse o) -> forall x, In x (uses_block B) -> In x (uses_orelse o))).
  { clear. apply syntax_ind; cbn [blocks_stmt blocks_orelse uses uses_orelse]; try solve [intros B []|intros ? ? B []|intros ? ? ? B []].
    - intros c b o Hb Ho B HB x Hx. rewrite !in_app_iff. apply in_app_or in HB.
      destruct HB as [HB|HB]; right; [left; eapply Hb; eauto|right; eapply Ho; eauto].
    - intros y c b Hb B HB x Hx. apply in_or_app. right. eapply Hb; eauto.
    - intros i l HF B HB x Hx. cbn [blocks] in HB. destruct HB as [<-|HB]; [exact Hx|].
      apply in_flat_map in HB. destruct HB as (st & H1 & H2). rewrite Forall_forall in HF.
      cbn. apply in_flat_map. exists st. split; auto. eapply HF; eauto.
    - intros b Hb B HB x Hx. eapply Hb; eauto.
    - intros c b o Hb Ho B HB x Hx. rewrite !in_app_iff. apply in_app_or in HB.
      destruct HB as [HB|HB]; right; [left; eapply Hb; eauto|right; eapply Ho; eauto]. }
  intros B HB. apply (proj1 (proj2 G)). exact HB.
Qed.

Lemma ann_wants : forall i a, In (i, a) anns ->
  wants (an_expr a) /\ an_id a = qid (an_expr a)
  /\ forall u, In u (an_uses a) -> In (u, an_expr a) (uses_block f).
Proof.
  intros i a H. destruct (ann_char i a H) as (B & HB & _ & EB & Hup).
  assert (U : forall u, In u (an_uses a) -> In (u, an_expr a) (uses_block f)).
  { intros u Hu. apply (blocks_uses B HB). apply up_S_uses; auto. exists (an_uses a). auto. }
  split; [|split].
  - pose proof (proj2 (up_S_tidy B EB) _ _ Hup) as F. destruct (an_uses a) as [|u us] eqn:E; [congruence|].
    exists u. apply U. left. reflexivity.
  - destruct (resolve_ok (record_function f)) as [[I1 I2 I3] _]. unfold anns, annotate in H.
    specialize (I2 i a H). unfold qid.
    destruct (pos (an_expr a) (c_ids (resolve (record_function f)))) as [q|] eqn:E.
    + apply pos_some in E. apply (proj1 (NoDup_nth_error _) I1).
      * apply nth_error_Some. congruence.
      * congruence.
    + apply pos_none in E. exfalso. apply E. eapply nth_error_In. exact I2.
  - exact U.
Qed.

Definition at_block (k : block) (e : expr) (u : nat) : Prop :=
  exists a, In a (of_block ident anns (block_id k)) /\ an_expr a = e /\ In u (an_uses a).

Lemma of_block_in : forall i a, In a (of_block ident anns i) -> In (i, a) anns.
Proof.
  intros i a H. unfold of_block in H. rewrite sort_by_in in H. apply dedup_in in H.
  apply in_map_iff in H. destruct H as ([j a'] & <- & H). apply filter_In in H. destruct H as [H E].
  cbn in *. apply Nat.eqb_eq in E. subst. exact H.
Qed.

Lemma nodup_keys : forall (r : recorded) e us us', NoDup (map fst r) ->
  In (e, us) r -> In (e, us') r -> us = us'.
Proof.
  intros r e us us' N H1 H2. assert (K : (e, us) = (e, us')) by (eapply (nodup_map_inj fst); eauto).
  congruence.
Qed.

Lemma adds_at : forall B e us u, In (block_id B, (e, us)) (all_adds (S_ f)) -> In u us -> at_block B e u.
Proof.
  intros B e us u H Hu. destruct (resolve_ok (record_function f)) as [_ E].
  change (record_function f) with (S_ f) in E.
  assert (H' : In (block_id B, (e, us)) (map strip (c_anns (resolve (S_ f))))).
  { rewrite E. apply filter_In. split; [exact H|]. unfold nonempty. cbn. destruct us; [destruct Hu|reflexivity]. }
  apply in_map_iff in H'. destruct H' as ([i a] & Ea & Ha). unfold strip in Ea. cbn in Ea.
  injection Ea as -> <- <-.
  change (In (block_id B, a) anns) in Ha.
  assert (Hin : In a (map snd (filter (fun p => fst p =? block_id B) anns))).
  { apply in_map_iff. exists (block_id B, a). split; [reflexivity|]. apply filter_In.
    split; [exact Ha|]. apply Nat.eqb_refl. }
  destruct (dedup_rep ident _ [] a Hin) as [(b & [] & _)|(b & Hb & Hab)].
  assert (Hb' : In b (of_block ident anns (block_id B))) by (unfold of_block; rewrite sort_by_in; exact Hb).
  pose proof (of_block_in _ _ Hb') as Hb2.
  unfold ann_eqb in Hab. apply andb_true_iff in Hab. destruct Hab as [E1 _]. apply Nat.eqb_eq in E1.
  destruct (ann_wants _ _ Ha) as (W1 & _). destruct (ann_wants _ _ Hb2) as (W2 & _).
  assert (Ee : an_expr a = an_expr b) by (apply Hinj; auto).
  destruct (ann_char _ _ Ha) as (B1 & H1 & H2 & H3 & H4).
  destruct (ann_char _ _ Hb2) as (B2 & K1 & K2 & K3 & K4).
  assert (B1 = B2) by (apply (nodup_map_inj block_id (blocks f)); auto; congruence). subst B2.
  rewrite <- Ee in K4. pose proof (nodup_keys _ _ _ _ (proj1 (up_S_tidy B1 H3)) H4 K4) as Eu.
  exists b. split; [exact Hb'|]. split; [auto|]. rewrite <- Eu. exact Hu.
Qed.

Inductive scoped : block -> Prop :=
| scoped_f : scoped f
| scoped_kid : forall b k, scoped b -> In k (kids_block b) -> scoped k.

Lemma scoped_ok : forall b, scoped b ->
  no_elif_block b = true /\ (forall x, In x (down (S_ b)) -> In x (down (S_ f))).
Proof.
  intros b H. induction H as [|b k Hb [IH1 IH2] Hk]; [auto|].
  assert (Ek : no_elif_block k = true) by (apply (proj1 (proj2 kids_in) b k Hk); exact IH1).
  split; [exact Ek|]. intros [i [e us]] Hx. apply IH2. apply down_S; auto. left. exists k. auto.
Qed.

Lemma root_res : forall e u, InR (up (S_ f)) e u -> at_block f e u.
Proof.
  intros e u (us & H & Hu). apply (adds_at f e us u); auto. unfold all_adds. apply in_or_app. right.
  apply in_map_iff. exists (e, us). rewrite S_block. auto.
Qed.

Lemma kid_res : forall b k, scoped b -> In k (kids_block b) -> forall e u,
  InR (up (S_ k)) e u -> InR (up (S_ b)) e u \/ at_block k e u.
Proof.
  intros b k Hb Hk e u (us & H & Hu). destruct (scoped_ok b Hb) as [E K].
  destruct (common (map (fun k => up (S_ k)) (kids_block b)) e) eqn:C.
  - left. apply up_S; auto. right. split; auto. exists k. split; auto. exists us. auto.
  - right. apply (adds_at k e us u); auto. unfold all_adds. apply in_or_app. left. apply K.
    apply down_S; auto. right. split; auto. exists k. auto.
Qed.

(** Every use is covered by an annotation of an enclosing block. *)
Lemma covered : forall u e, In (u, e) (uses_block f) ->
  exists B, In B (blocks f) /\ In (u, e) (uses_block B) /\ at_block B e u.
Proof.
  intros u e H. destruct (cover_S f Hno e u H) as [K|(B & us & H1 & H2 & H3 & H4)].
  - exists f. split; [apply self_block|]. split; [exact H|]. apply root_res. exact K.
  - exists B. split; [exact H1|]. split; [exact H2|]. apply (adds_at B e us u); auto.
    unfold all_adds. apply in_or_app. left. exact H3.
Qed.

Lemma qid_inj : forall e e', wants e -> wants e' -> qid e = qid e' -> e = e'.
Proof.
  assert (G : forall e, wants e -> nth_error (c_ids (resolve (record_function f))) (qid e) = Some e).
  { intros e (u & Hu). destruct (covered u e Hu) as (B & _ & _ & a & Ha & <- & _).
    apply of_block_in in Ha. destruct (ann_wants _ _ Ha) as (_ & <- & _).
    destruct (resolve_ok (record_function f)) as [[I1 I2 I3] _]. eapply I2. exact Ha. }
  intros e e' H H' E. apply G in H, H'. congruence.
Qed.

(** ** Rewriting *)
Fixpoint rw_list (repl : list nat) (l : list stmt) : list stmt * list nat :=
  match l with
  | [] => ([], repl)
  | s :: r => let '(s', r1) := rw_stmt ident anns repl s in
              let '(l', r2) := rw_list r1 r in (s' :: l', r2)
  end.

Lemma rw_block_eq : forall repl i l,
  rw_block ident anns repl (Blk i l)
  = let mine := of_block ident anns i in
    let '(l', r') := rw_list (replaced mine ++ repl) l in
    (Blk i (insert_statements loads (has_doc l') l' (map (new_statement ident) mine)), r').
Proof.
  intros repl i l. cbn [rw_block].
  assert (G : forall l repl, (fix go (repl : list nat) (l : list stmt) : list stmt * list nat :=
           match l with
           | [] => ([], repl)
           | s :: r => let '(s', r1) := rw_stmt ident anns repl s in
                       let '(l', r2) := go r1 r in (s' :: l', r2)
           end) repl l = rw_list repl l).
  { clear. induction l as [|s r IH]; intros repl; [reflexivity|]. cbn. 
    destruct (rw_stmt ident anns repl s) as [s' r1]. rewrite IH. reflexivity. }
  rewrite G. reflexivity.
Qed.

Lemma rw_mono :
  (forall st repl, incl repl (snd (rw_stmt ident anns repl st)))
  /\ (forall b repl, incl repl (snd (rw_block ident anns repl b)))
  /\ (forall o repl, incl repl (snd (rw_orelse ident anns repl o))).
Proof.
  apply syntax_ind; cbn [rw_stmt rw_orelse snd]; try (intros; apply incl_refl).
  - intros c b o Hb Ho repl. specialize (Hb repl).
    destruct (rw_block ident anns repl b) as [b' r1]. specialize (Ho r1).
    destruct (rw_orelse ident anns r1 o) as [o' r2]. cbn in *. eapply incl_tran; eauto.
  - intros x c b Hb repl. specialize (Hb repl). destruct (rw_block ident anns repl b) as [b' r1]. exact Hb.
  - intros i l HF repl. rewrite rw_block_eq. cbn zeta.
    assert (G : forall l repl, Forall (fun st => forall repl, incl repl (snd (rw_stmt ident anns repl st))) l ->
                incl repl (snd (rw_list repl l))).
    { clear. induction l as [|s r IH]; intros repl H; cbn; [apply incl_refl|].
      inversion H as [|? ? H1 H2]; subst. specialize (H1 repl).
      destruct (rw_stmt ident anns repl s) as [s' r1]. specialize (IH r1 H2).
      destruct (rw_list r1 r) as [l' r2]. cbn in *. eapply incl_tran; eauto. }
    specialize (G l (replaced (of_block ident anns i) ++ repl) HF).
    destruct (rw_list (replaced (of_block ident anns i) ++ repl) l) as [l' r']. cbn in *.
    intros x Hx. apply G. apply in_or_app. right. exact Hx.
  - intros b Hb repl. specialize (Hb repl). destruct (rw_block ident anns repl b) as [b' r1]. exact Hb.
  - intros c b o Hb Ho repl. specialize (Hb repl).
    destruct (rw_block ident anns repl b) as [b' r1]. specialize (Ho r1).
    destruct (rw_orelse ident anns r1 o) as [o' r2]. cbn in *. eapply incl_tran; eauto.
Qed.

Lemma rw_list_in : forall l repl s, In s l ->
  exists r1 s', incl repl r1 /\ fst (rw_stmt ident anns r1 s) = s' /\ In s' (fst (rw_list repl l)).
Proof.
  induction l as [|x l IH]; intros repl s []; cbn.
  - subst x. exists repl, (fst (rw_stmt ident anns repl s)). split; [apply incl_refl|].
    split; [reflexivity|]. destruct (rw_stmt ident anns repl s) as [s' r1].
    destruct (rw_list r1 l) as [l' r2]. left. reflexivity.
  - pose proof (proj1 rw_mono x repl) as M. destruct (rw_stmt ident anns repl x) as [x' r1]. cbn in M.
    destruct (IH r1 s H) as (r & s' & H1 & H2 & H3). exists r, s'.
    split; [eapply incl_tran; eauto|]. split; [exact H2|].
    destruct (rw_list r1 l) as [l' r2]. right. exact H3.
Qed.

Lemma rw_call_loads : forall repl c u e, In (u, e) (call_uses c) -> In u repl ->
  In (ident e) (call_names (rw_call ident repl c)).
Proof.
  intros repl [o l] u e H Hu. unfold call_uses, call_names, rw_call in *. cbn in *.
  apply in_flat_map in H. destruct H as (a & H1 & H2). destruct a as [x|e'|u' e']; cbn in H2; try tauto.
  destruct H2 as [E|[]]. injection E as -> ->. apply in_flat_map. exists (AName (ident e)).
  split; [|left; reflexivity]. apply in_map_iff. exists (AUse u e). split; [|exact H1]. cbn.
  replace (mem u repl) with true by (symmetry; apply mem_iff; exact Hu). reflexivity.
Qed.

Lemma loads_rw :
  (forall st repl u e, In (u, e) (uses st) -> In u repl ->
     In (ident e) (loads (fst (rw_stmt ident anns repl st))))
  /\ (forall b repl u e, In (u, e) (uses_block b) -> In u repl ->
     In (ident e) (loads_block (fst (rw_block ident anns repl b))))
  /\ (forall o repl u e, In (u, e) (uses_orelse o) -> In u repl ->
     In (ident e) (loads_orelse (fst (rw_orelse ident anns repl o)))).
Proof.
  apply syntax_ind; cbn [rw_stmt rw_orelse uses uses_orelse fst]; try (intros; cbn in *; tauto).
  - intros x c repl u e H Hu. cbn. eapply rw_call_loads; eauto.
  - intros c b o Hb Ho repl u e H Hu. specialize (Hb repl u e).
    pose proof (proj1 (proj2 rw_mono) b repl) as M.
    destruct (rw_block ident anns repl b) as [b' r1]. specialize (Ho r1 u e).
    destruct (rw_orelse ident anns r1 o) as [o' r2]. cbn [fst snd loads] in *.
    rewrite !in_app_iff in *. destruct H as [H|[H|H]]; auto.
    left. eapply rw_call_loads; eauto.
  - intros x c b Hb repl u e H Hu. specialize (Hb repl u e).
    destruct (rw_block ident anns repl b) as [b' r1]. cbn [fst loads] in *.
    right. rewrite !in_app_iff in *. destruct H as [H|H]; auto. left. eapply rw_call_loads; eauto.
  - intros i l HF repl u e H Hu. rewrite rw_block_eq. cbn zeta.
    set (mine := of_block ident anns i). cbn in H. apply in_flat_map in H. destruct H as (s & H1 & H2).
    destruct (rw_list_in l (replaced mine ++ repl) s H1) as (r1 & s' & M & Es & Hs).
    destruct (rw_list (replaced mine ++ repl) l) as [l' r']. cbn [fst] in *. cbn [loads_block].
    apply in_flat_map. exists s'. split.
    + destruct l' as [|a l2] eqn:El; [destruct Hs|]. rewrite <- El in *.
      rewrite insert_weave by (subst; discriminate). apply weave_in. exact Hs.
    + rewrite Forall_forall in HF. rewrite <- Es. apply (HF s H1 r1 u e H2). apply M.
      apply in_or_app. right. exact Hu.
  - intros b Hb repl u e H Hu. specialize (Hb repl u e).
    destruct (rw_block ident anns repl b) as [b' r1]. cbn [fst loads_orelse] in *. auto.
  - intros c b o Hb Ho repl u e H Hu. specialize (Hb repl u e).
    pose proof (proj1 (proj2 rw_mono) b repl) as M.
    destruct (rw_block ident anns repl b) as [b' r1]. specialize (Ho r1 u e).
    destruct (rw_orelse ident anns r1 o) as [o' r2]. cbn [fst snd loads_orelse] in *.
    rewrite !in_app_iff in *. destruct H as [H|[H|H]]; auto.
    left. eapply rw_call_loads; eauto.
Qed.

(** ** Simulation *)
Variable w : world.
Variable qz : nat -> val w -> val w.
Variable g0 : env w.
Hypothesis Hval : forall e, wants e -> exists v, eval_expr w g0 e = Some v.

Definition want (e : expr) (v : val w) : val w := qz (qid e) v.

Definition plain (e : expr) (v : val w) : val w := v.

Definition R (D : expr -> Prop) (g h : env w) : Prop :=
  (forall x, ~ target x -> g x = h x)
  /\ (forall e, wants e -> eval_expr w g e = eval_expr w g0 e)
  /\ (forall e, wants e -> D e -> exists v, eval_expr w g0 e = Some v /\ h (ident e) = Some (want e v)).

Definition sim (D : expr -> Prop) (a b : option (env w)) : Prop :=
  match a, b with Some g, Some h => R D g h | None, None => True | _, _ => False end.

Lemma R_weaken : forall (D D' : expr -> Prop) g h, (forall e, D' e -> D e) -> R D g h -> R D' g h.
Proof. intros D D' g h H (R1 & R2 & R3). split; [exact R1|]. split; [exact R2|]. intros e We De. auto. Qed.

Lemma sim_weaken : forall (D D' : expr -> Prop) a b, (forall e, D' e -> D e) -> sim D a b -> sim D' a b.
Proof. intros D D' [g|] [h|] H; cbn; auto. apply R_weaken. exact H. Qed.

Definition fits (ld sv : list nat) (us : list (nat * expr)) : Prop :=
  (forall x, In x ld -> ~ target x)
  /\ (forall x, In x sv -> ~ target x /\ forall e, wants e -> fst e <> x)
  /\ (forall u e, In (u, e) us -> In (u, e) (uses_block f)).

Lemma set_R : forall D g h x v, R D g h -> ~ target x -> (forall e, wants e -> fst e <> x) ->
  R D (set_var w g x v) (set_var w h x v).
Proof.
  intros D g h x v (R1 & R2 & R3) Hx Hb. split; [|split].
  - intros y Hy. unfold set_var. destruct (y =? x); auto.
  - intros e We. rewrite <- R2 by exact We. unfold eval_expr, set_var.
    destruct (fst e =? x) eqn:E; [|reflexivity]. apply Nat.eqb_eq in E. exfalso. exact (Hb e We E).
  - intros e We De. destruct (R3 e We De) as (v' & H1 & H2). exists v'. split; [exact H1|].
    unfold set_var. destruct (ident e =? x) eqn:E; [|exact H2]. apply Nat.eqb_eq in E. exfalso.
    apply Hx. exists e. auto.
Qed.

Lemma eval_call_R : forall D g h repl c, R D g h ->
  (forall x, In x (call_names c) -> ~ target x) ->
  (forall u e, In (u, e) (call_uses c) -> wants e /\ In u repl /\ D e) ->
  eval_call w want g c = eval_call w plain h (rw_call ident repl c).
Proof.
  intros D g h repl [o l] (R1 & R2 & R3) Hn Hu. unfold eval_call, rw_call, call_names, call_uses in *.
  cbn [fst snd] in *.
  assert (G : eval_args w want g l = eval_args w plain h (map (rw_arg ident repl) l)).
  { induction l as [|a l IH]; [reflexivity|]. cbn [eval_args map].
    assert (Ea : eval_arg w want g a = eval_arg w plain h (rw_arg ident repl a)).
    { destruct a as [x|e|u e]; cbn.
      - apply R1. apply Hn. left. reflexivity.
      - unfold eval_expr. rewrite (R1 (fst e)); [reflexivity|]. apply Hn. left. reflexivity.
      - destruct (Hu u e) as (We & Hr & De); [left; reflexivity|].
        replace (mem u repl) with true by (symmetry; apply mem_iff; exact Hr). cbn.
        destruct (R3 e We De) as (v & H1 & H2). rewrite H2, (R2 e We), H1. reflexivity. }
    rewrite Ea. destruct (eval_arg w plain h (rw_arg ident repl a)); [|reflexivity].
    rewrite IH; [reflexivity| |].
    - intros x Hx. apply Hn. cbn. apply in_or_app. right. exact Hx.
    - intros u e Hin. apply Hu. cbn. apply in_or_app. right. exact Hin. }
  rewrite G. reflexivity.
Qed.

Definition run_list (wt : expr -> val w -> val w) (l : list stmt) (g : env w) : option (env w) :=
  (fix go (l : list stmt) (g : env w) : option (env w) :=
     match l with
     | [] => Some g
     | s :: r => match run_stmt w qz wt s g with Some g' => go r g' | None => None end
     end) l g.

Lemma run_list_app : forall wt l m g,
  run_list wt (l ++ m) g = match run_list wt l g with Some g' => run_list wt m g' | None => None end.
Proof.
  intros wt. induction l as [|s l IH]; intros m g; [reflexivity|]. cbn.
  destruct (run_stmt w qz wt s g); [apply IH|reflexivity].
Qed.

Lemma run_gap : forall (as_ : list annotation) D g h,
  (forall a, In a as_ -> wants (an_expr a) /\ an_id a = qid (an_expr a)) -> R D g h ->
  (forall x, target x -> ~ In x (loads_block f)) ->
  (forall e, wants e -> ~ target (fst e)) ->
  exists h', run_list plain (map snd (map (new_statement ident) as_)) h = Some h'
    /\ R (fun e => D e \/ exists a, In a as_ /\ an_expr a = e) g h'.
Proof.
  induction as_ as [|a as_ IH]; intros D g h Ha HR Hl Hb.
  - exists h. split; [reflexivity|]. eapply R_weaken; [|exact HR]. intros e [H|(a & [] & _)]. exact H.
  - destruct (Ha a (or_introl eq_refl)) as [We Eq]. cbn [map new_statement snd run_list run_stmt].
    pose proof HR as (R1 & R2 & R3).
    assert (Ev : eval_expr w h (an_expr a) = eval_expr w g0 (an_expr a)).
    { rewrite <- R2 by exact We. unfold eval_expr. rewrite (R1 (fst (an_expr a))); auto. }
    destruct (Hval _ We) as (v & Hv). rewrite Ev, Hv.
    set (h1 := set_var w h (ident (an_expr a)) (qz (an_id a) v)).
    assert (HR1 : R (fun e => D e \/ e = an_expr a) g h1).
    { split; [|split].
      - intros x Hx. unfold h1, set_var. destruct (x =? ident (an_expr a)) eqn:E; auto.
        apply Nat.eqb_eq in E. exfalso. apply Hx. exists (an_expr a). auto.
      - exact R2.
      - intros e We' De. unfold h1, set_var. destruct (ident e =? ident (an_expr a)) eqn:E.
        + apply Nat.eqb_eq in E. assert (e = an_expr a) by (apply Hinj; auto). subst e.
          exists v. split; [exact Hv|]. unfold want. rewrite Eq. reflexivity.
        + destruct De as [De| ->]; [auto|]. rewrite Nat.eqb_refl in E. discriminate. }
    destruct (IH _ g h1 (fun a' H => Ha a' (or_intror H)) HR1 Hl Hb) as (h' & H1 & H2).
    exists h'. split; [exact H1|]. eapply R_weaken; [|exact H2].
    intros e [H|(a' & [<-|H] & E)]; eauto.
Qed.

Hypothesis Hfresh : forall x, target x -> ~ In x (loads_block f).
Hypothesis Hbase : forall e, wants e -> ~ target (fst e).

Definition stmt_ok (st : stmt) : Prop := forall repl D g h,
  fits (loads st) (stores st) (uses st) -> no_elif st = true ->
  (forall u e, In (u, e) (own st) -> In u repl /\ D e) ->
  (forall k, In k (kids st) -> scoped k /\
     forall e u, InR (up (S_ k)) e u -> (In u repl /\ D e) \/ at_block k e u) ->
  R D g h ->
  sim D (run_stmt w qz want st g) (run_stmt w qz plain (fst (rw_stmt ident anns repl st)) h).

Definition block_ok (b : block) : Prop := forall repl D g h,
  fits (loads_block b) (stores_block b) (uses_block b) -> no_elif_block b = true ->
  (forall u e, In (u, e) (own_block b) -> (In u repl /\ D e) \/ at_block b e u) ->
  (forall k, In k (kids_block b) -> scoped k /\
     forall e u, InR (up (S_ k)) e u -> ((In u repl /\ D e) \/ at_block b e u) \/ at_block k e u) ->
  R D g h ->
  sim D (run_block w qz want b g) (run_block w qz plain (fst (rw_block ident anns repl b)) h).

(** A branch: the block of a scope. *)
Lemma branch_ok : forall b repl D g h, block_ok b -> scoped b ->
  fits (loads_block b) (stores_block b) (uses_block b) ->
  (forall e u, InR (up (S_ b)) e u -> (In u repl /\ D e) \/ at_block b e u) ->
  R D g h ->
  sim D (run_block w qz want b g) (run_block w qz plain (fst (rw_block ident anns repl b)) h).
Proof.
  intros b repl D g h Hb Hs Hf Hres HR. destruct (scoped_ok b Hs) as [E _]. apply Hb; auto.
  - intros u e Hin. apply Hres. apply up_S; auto.
  - intros k Hk. split; [eapply scoped_kid; eauto|]. intros e u Hin.
    destruct (kid_res b k Hs Hk e u Hin) as [K|K]; auto.
Qed.

Lemma list_ok : forall b mine repl0 D body',
  mine = of_block ident anns (block_id b) ->
  forall l i repl g h,
  Forall stmt_ok l ->
  (forall st, In st l -> fits (loads st) (stores st) (uses st) /\ no_elif st = true) ->
  incl (replaced mine ++ repl0) repl ->
  (forall u e st, In st l -> In (u, e) (own st) -> (In u repl0 /\ D e) \/ at_block b e u) ->
  (forall k st, In st l -> In k (kids st) -> scoped k /\
     forall e u, InR (up (S_ k)) e u -> ((In u repl0 /\ D e) \/ at_block b e u) \/ at_block k e u) ->
  (forall j s' t, nth_error (fst (rw_list repl l)) j = Some s' -> In t (loads s') ->
     insert_index loads (if has_doc body' then 1 else 0) body' t <= i + j) ->
  R (fun e => D e \/ exists a, In a mine /\ an_expr a = e
       /\ insert_index loads (if has_doc body' then 1 else 0) body' (ident e) < i) g h ->
  sim D (run_list want l g)
    (run_list plain (weave (fun i => map snd (filter (fun p => insert_index loads (if has_doc body' then 1 else 0) body' (fst p) =? i)
                       (map (new_statement ident) mine))) i (fst (rw_list repl l))) h).
Proof.
  intros b mine repl0 D body' Em. set (off := if has_doc body' then 1 else 0).
  set (idx := insert_index loads off body').
  set (gap := fun i => map snd (filter (fun p => idx (fst p) =? i) (map (new_statement ident) mine))).
  assert (GAP : forall i g h,
    R (fun e => D e \/ exists a, In a mine /\ an_expr a = e /\ idx (ident e) < i) g h ->
    exists h', run_list plain (gap i) h = Some h'
      /\ R (fun e => D e \/ exists a, In a mine /\ an_expr a = e /\ idx (ident e) < S i) g h').
  { intros i g h HR. unfold gap.
    assert (Ef : filter (fun p => idx (fst p) =? i) (map (new_statement ident) mine)
                 = map (new_statement ident) (filter (fun a => idx (ident (an_expr a)) =? i) mine)).
    { clear. induction mine as [|a m IH]; [reflexivity|]. cbn.
      destruct (idx (ident (an_expr a)) =? i); cbn; [f_equal|]; exact IH. }
    rewrite Ef.
    assert (Hok : forall a, In a (filter (fun a => idx (ident (an_expr a)) =? i) mine) ->
                    wants (an_expr a) /\ an_id a = qid (an_expr a)).
    { intros a Ha. apply filter_In in Ha. destruct Ha as [Ha _]. subst mine. apply of_block_in in Ha.
      destruct (ann_wants _ _ Ha) as (W & Q & _). auto. }
    destruct (run_gap _ _ g h Hok HR Hfresh Hbase) as (h' & H1 & H2).
    exists h'. split; [exact H1|]. eapply R_weaken; [|exact H2].
    intros e [H|(a & Ha & E & Hlt)]; [left; left; exact H|].
    destruct (Nat.eq_dec (idx (ident e)) i) as [K|K].
    - right. exists a. split; [|exact E]. apply filter_In. split; [exact Ha|]. apply Nat.eqb_eq. congruence.
    - left. right. exists a. split; [exact Ha|]. split; [exact E|]. lia. }
  induction l as [|st l IH]; intros i repl g h HF Hfit Hrep Hown Hkid Hidx HR.
  - cbn [rw_list fst weave]. destruct (GAP i g h HR) as (h' & H1 & H2). fold gap. rewrite H1. cbn.
    eapply R_weaken; [|exact H2]. intros e He. left. exact He.
  - inversion HF as [|? ? H1 H2]; subst x l0. cbn [rw_list].
    destruct (rw_stmt ident anns repl st) as [st' r1] eqn:Est.
    destruct (rw_list r1 l) as [l' r2] eqn:El. cbn [fst weave].
    destruct (GAP i g h HR) as (h1 & G1 & G2). rewrite run_list_app. fold gap. rewrite G1.
    set (D1 := fun e => D e \/ exists a, In a mine /\ an_expr a = e /\ idx (ident e) < S i) in *.
    assert (Hst' : forall t, In t (loads st') -> idx t < S i).
    { intros t Ht. specialize (Hidx 0 st' t). cbn [rw_list] in Hidx. rewrite Est, El in Hidx.
      specialize (Hidx eq_refl Ht). unfold idx, off in *. lia. }
    assert (FROM : forall u e, In (u, e) (uses st) -> (In u repl0 /\ D e) \/ at_block b e u -> In u repl /\ D1 e).
    { intros u e Hue [[Hr HD]|(a & Ha & E & Hu)].
      - split; [apply Hrep; apply in_or_app; right; exact Hr|left; exact HD].
      - assert (Hr : In u repl).
        { apply Hrep. apply in_or_app. left. unfold replaced. apply in_flat_map. exists a.
          subst mine. auto. }
        split; [exact Hr|]. right. exists a. subst mine. split; [exact Ha|]. split; [exact E|].
        apply Hst'. pose proof (proj1 loads_rw st repl u e Hue Hr) as L. rewrite Est in L. exact L. }
    destruct (Hfit st (or_introl eq_refl)) as [Hf Hn].
    assert (S1 : sim D1 (run_stmt w qz want st g) (run_stmt w qz plain st' h1)).
    { specialize (H1 repl D1 g h1 Hf Hn). rewrite Est in H1. apply H1; auto.
      - intros u e Hin. apply FROM; [apply (proj1 own_in_uses); exact Hin|].
        apply (Hown u e st (or_introl eq_refl) Hin).
      - intros k Hk. destruct (Hkid k st (or_introl eq_refl) Hk) as [K1 K2]. split; [exact K1|].
        intros e u Hin. destruct (K2 e u Hin) as [K|K]; [left|right; exact K].
        apply FROM; auto. destruct (proj1 kids_in st k Hk) as (_ & U & _). apply U.
        apply up_S_uses; auto. apply (scoped_ok k K1). }
    change (run_list want (st :: l) g) with
      (match run_stmt w qz want st g with Some g' => run_list want l g' | None => None end).
    change (run_list plain (st' :: weave gap (S i) l') h1) with
      (match run_stmt w qz plain st' h1 with Some g' => run_list plain (weave gap (S i) l') g' | None => None end).
    unfold sim in S1. destruct (run_stmt w qz want st g) as [g'|]; destruct (run_stmt w qz plain st' h1) as [h'|];
      try contradiction; [|exact I].
    specialize (IH (S i) r1 g' h' H2). rewrite El in IH. cbn [fst] in IH. apply IH; auto.
    + intros st2 Hs. apply Hfit. right. exact Hs.
    + pose proof (proj1 rw_mono st repl) as M. rewrite Est in M. cbn in M. eapply incl_tran; eauto.
    + intros u e st2 Hs. apply Hown. right. exact Hs.
    + intros k st2 Hs. apply Hkid. right. exact Hs.
    + intros j s' t Hj Ht. specialize (Hidx (S j) s' t). cbn [rw_list] in Hidx. rewrite Est, El in Hidx.
      cbn [fst nth_error] in Hidx. specialize (Hidx Hj Ht). lia.
Qed.

Lemma run_block_eq : forall wt i l g, run_block w qz wt (Blk i l) g = run_list wt l g.
Proof. reflexivity. Qed.

Lemma fits_sub : forall ld sv us ld' sv' us', incl ld' ld -> incl sv' sv -> incl us' us ->
  fits ld sv us -> fits ld' sv' us'.
Proof. intros ld sv us ld' sv' us' H1 H2 H3 (F1 & F2 & F3). split; [|split]; intros; auto. Qed.

Lemma all_ok : (forall st, stmt_ok st) /\ (forall b, block_ok b)
  /\ (forall o, match o with OElse b => block_ok b | _ => True end).
Proof.
  apply syntax_ind; auto.
  - intros repl D g h _ _ _ _ HR. exact HR.
  - intros x c repl D g h Hf _ Hown _ HR. cbn in Hf, Hown |- *. destruct Hf as (F1 & F2 & F3).
    rewrite <- (eval_call_R D g h repl c HR F1).
    + destruct (eval_call w want g c); [|exact I]. destruct (F2 x (or_introl eq_refl)). apply set_R; auto.
    + intros u e Hin. split; [exists u; apply F3; exact Hin|]. apply Hown. exact Hin.
  - intros t q e repl D g h (F1 & F2 & F3) _ _ _ HR. cbn in *. pose proof HR as (R1 & _).
    unfold eval_expr. rewrite (R1 (fst e)) by (apply F1; left; reflexivity).
    destruct (h (fst e)) as [v|]; [|exact I]. destruct (attr w v (snd e)); [|exact I].
    destruct (F2 t (or_introl eq_refl)). apply set_R; auto.
  - intros c b o Hb Ho repl D g h Hf Hn Hown Hkid HR. cbn [rw_stmt].
    pose proof (proj1 (proj2 rw_mono) b repl) as M.
    destruct (rw_block ident anns repl b) as [b' r1] eqn:Eb. cbn [snd] in M.
    destruct (rw_orelse ident anns r1 o) as [o' r2] eqn:Eo. cbn [fst run_stmt].
    cbn [loads stores uses] in Hf. cbn [own] in Hown. cbn in Hn. apply andb_true_iff in Hn. destruct Hn as [Hn1 Hn2].
    pose proof Hf as (F1 & F2 & F3).
    rewrite <- (eval_call_R D g h repl c HR).
    2:{ intros x Hx. apply F1. apply in_or_app. left. exact Hx. }
    2:{ intros u e Hin. split; [exists u; apply F3; apply in_or_app; left; exact Hin|]. apply Hown. exact Hin. }
    destruct (eval_call w want g c) as [v|]; [|exact I].
    destruct (truth w v).
    + assert (Hk : In b (kids (SIf c b o))) by (destruct o; left; reflexivity).
      destruct (Hkid b Hk) as [K1 K2].
      assert (Z := branch_ok b repl D g h Hb K1). rewrite Eb in Z. apply Z; auto.
      eapply fits_sub; [| | |exact Hf]; intros y Hy; rewrite !in_app_iff; auto.
    + destruct o as [|bo|co bo oo]; [| |discriminate].
      * cbn in Eo. injection Eo as <- <-. exact HR.
      * cbn in Eo. destruct (rw_block ident anns r1 bo) as [bo' r3] eqn:Ebo. injection Eo as <- <-.
        destruct (Hkid bo) as [K1 K2]; [right; left; reflexivity|]. cbn [run_orelse].
        assert (Z := branch_ok bo r1 D g h Ho K1). rewrite Ebo in Z. apply Z; auto.
        -- eapply fits_sub; [| | |exact Hf]; intros y Hy; cbn [loads_orelse stores_orelse uses_orelse]; rewrite !in_app_iff; auto.
        -- intros e u Hin. destruct (K2 e u Hin) as [[K3 K4]|K3]; auto.
  - intros x c b Hb repl D g h Hf Hn Hown Hkid HR. cbn [rw_stmt].
    destruct (rw_block ident anns repl b) as [b' r1] eqn:Eb. cbn [fst run_stmt].
    cbn [loads stores uses no_elif] in Hf, Hn. pose proof Hf as (F1 & F2 & F3).
    assert (Ec : forall u e, In (u, e) (call_uses c) -> In (u, e) (own (SFor x c b))).
    { intros u e Hin. destruct b as [i l]. cbn. apply in_or_app. left. exact Hin. }
    rewrite <- (eval_call_R D g h repl c HR).
    2:{ intros y Hy. apply F1. right. apply in_or_app. left. exact Hy. }
    2:{ intros u e Hin. split; [exists u; apply F3; apply in_or_app; left; exact Hin|].
        apply Hown. apply Ec. exact Hin. }
    destruct (eval_call w want g c) as [v|]; [|exact I].
    destruct (F2 x (or_introl eq_refl)) as [X1 X2].
    assert (BODY : forall g h, R D g h ->
      sim D (run_block w qz want b g) (run_block w qz plain b' h)).
    { intros g1 h1 HR1. assert (Z := Hb repl D g1 h1). rewrite Eb in Z. apply Z; auto.
      - eapply fits_sub; [| | |exact Hf]; intros y Hy; cbn; rewrite ?in_app_iff; auto.
      - intros u e Hin. left. apply Hown. destruct b as [i l]. unfold own_block in Hin. cbn in *.
        rewrite !in_app_iff. auto.
      - intros k Hk. destruct (Hkid k) as [K1 K2].
        + destruct b as [i l]. unfold kids_block in Hk. cbn in *. rewrite in_app_iff. auto.
        + split; [exact K1|]. intros e u Hin. destruct (K2 e u Hin) as [K|K]; auto. }
    change (sim D (loop (fun i g => run_block w qz want b (set_var w g x i)) (items w v) g)
                  (loop (fun i h => run_block w qz plain b' (set_var w h x i)) (items w v) h)).
    clear -HR BODY X1 X2. revert g h HR. generalize (items w v) as vs.
    induction vs as [|i vs IH]; intros g h HR; [exact HR|]. cbn [loop].
    pose proof (BODY _ _ (set_R D g h x i HR X1 X2)) as Z.
    destruct (run_block w qz want b (set_var w g x i)) as [g'|];
      destruct (run_block w qz plain b' (set_var w h x i)) as [h'|]; try contradiction; [|exact I].
    apply IH. exact Z.
  - intros i l HF repl D g h Hf Hn Hown Hkid HR. rewrite rw_block_eq. cbn zeta.
    set (mine := of_block ident anns i). rewrite run_block_eq.
    cbn [loads_block stores_block uses_block] in Hf. cbn in Hn.
    assert (Hfit : forall st, In st l -> fits (loads st) (stores st) (uses st) /\ no_elif st = true).
    { intros st Hst. split; [|rewrite forallb_forall in Hn; auto].
      eapply fits_sub; [| | |exact Hf]; intros y Hy; apply in_flat_map; exists st; auto. }
    destruct (rw_list (replaced mine ++ repl) l) as [l' r'] eqn:El. cbn [fst]. rewrite run_block_eq.
    destruct l' as [|s0 l0] eqn:El'.
    + destruct l as [|st l].
      * exact HR.
      * cbn [rw_list] in El. destruct (rw_stmt ident anns (replaced mine ++ repl) st) as [a c].
        destruct (rw_list c l). discriminate.
    + rewrite <- El' in *. rewrite insert_weave by (subst l'; discriminate).
      assert (Z := list_ok (Blk i l) mine repl D l' eq_refl l 0 (replaced mine ++ repl) g h HF Hfit).
      rewrite El in Z. cbn [fst] in Z. apply Z.
      * apply incl_refl.
      * intros u e st Hst Hin. apply Hown. unfold own_block. cbn. apply in_flat_map. exists st. auto.
      * intros k st Hst Hin. apply Hkid. unfold kids_block. cbn. apply in_flat_map. exists st. auto.
      * intros j s' t Hj Ht. cbn [Nat.add]. unfold insert_index.
        destruct (first_use loads l' t) as [q|] eqn:Fq.
        -- destruct (first_use_some _ _ _ _ _ Fq) as (s2 & N1 & N2 & N3).
           assert (q <= j). { destruct (le_lt_dec q j); [assumption|]. exfalso. eapply N3; eauto. }
           destruct (has_doc l') eqn:Hd; [|lia].
           destruct j as [|j]; [|lia].
           exfalso. destruct l' as [|[] l'']; try discriminate. cbn in Hj. injection Hj as <-. exact Ht.
        -- exfalso. apply (first_use_none _ _ _ _ Fq s'); auto. eapply nth_error_In. exact Hj.
      * eapply R_weaken; [|exact HR]. intros e [He|(a & _ & _ & K)]; [exact He|lia].
Qed.

End Sem.

Lemma names_uses :
  (forall st u e, In (u, e) (uses st) -> In (fst e) (loads st))
  /\ (forall b u e, In (u, e) (uses_block b) -> In (fst e) (loads_block b))
  /\ (forall o u e, In (u, e) (uses_orelse o) -> In (fst e) (loads_orelse o)).
Proof.
  assert (C : forall c u e, In (u, e) (call_uses c) -> In (fst e) (call_names c)).
  { intros [o l] u e H. unfold call_uses, call_names in *. cbn in *. apply in_flat_map in H.
    destruct H as (a & H1 & H2). apply in_flat_map. exists a. split; [exact H1|].
    destruct a; cbn in *; try tauto. destruct H2 as [E|[]]. injection E as -> ->. auto. }
  clear -C. apply syntax_ind; cbn [uses uses_orelse loads loads_orelse]; try (intros; cbn in *; tauto).
  - intros x c u e. apply C.
  - intros c b o Hb Ho u e H. rewrite !in_app_iff in *. destruct H as [H|[H|H]]; eauto.
  - intros x c b Hb u e H. right. rewrite !in_app_iff in *. destruct H as [H|H]; eauto.
  - intros i l HF u e H. cbn in *. apply in_flat_map in H. destruct H as (st & H1 & H2).
    rewrite Forall_forall in HF. apply in_flat_map. exists st. split; eauto.
  - intros b Hb u e H. eauto.
  - intros c b o Hb Ho u e H. rewrite !in_app_iff in *. destruct H as [H|[H|H]]; eauto.
Qed.

(** The annotations of a function cover every use, at an enclosing block, once the function has no elif. *)
Theorem rewrite_correct : forall f ident w (qz : nat -> val w -> val w) (g0 : env w),
  distinct_blocks f -> no_elif_block f = true ->
  (forall u u' e e', In (u, e) (uses_block f) -> In (u', e') (uses_block f) -> ident e = ident e' -> e = e') ->
  (forall u e, In (u, e) (uses_block f) -> ~ In (ident e) (loads_block f) /\ ~ In (ident e) (stores_block f)) ->
  (forall u e, In (u, e) (uses_block f) -> ~ In (fst e) (stores_block f)) ->
  (forall u e, In (u, e) (uses_block f) -> exists v, eval_expr w g0 e = Some v) ->
  same_outcome (fun x => exists u e, In (u, e) (uses_block f) /\ x = ident e)
    (run_block w qz (fun e v => qz (qid f e) v) f g0)
    (run_block w qz (fun _ v => v) (rewrite ident f) g0).
Proof.
  intros f ident w qz g0 Hids Hno Hinj Hfresh Hbase Hval.
  assert (Hinj' : forall e e', wants f e -> wants f e' -> ident e = ident e' -> e = e')
    by (intros e e' (u & Hu) (u' & Hu'); eapply Hinj; eauto).
  assert (Hval' : forall e, wants f e -> exists v, eval_expr w g0 e = Some v) by (intros e (u & Hu); eauto).
  assert (Hfresh' : forall x, target f ident x -> ~ In x (loads_block f))
    by (intros x (e & (u & Hu) & ->); apply (Hfresh u e Hu)).
  assert (Hb' : forall e, wants f e -> ~ target f ident (fst e)).
  { intros e (u & Hu) T. apply (Hfresh' _ T). eapply (proj1 (proj2 names_uses)). exact Hu. }
  pose proof (proj1 (proj2 (all_ok f ident Hno Hids Hinj' w qz g0 Hval' Hfresh' Hb')) f) as OK.
  pose proof (branch_ok f ident Hno Hids Hinj' w qz g0 f [] (fun _ => False) g0 g0 OK) as Z.
  assert (Q : sim f ident w qz g0 (fun _ => False)
    (run_block w qz (want f w qz) f g0) (run_block w qz (plain w) (rewrite ident f) g0)).
  { apply Z.
    - constructor.
    - split; [|split].
      + intros x Hx T. exact (Hfresh' x T Hx).
      + intros x Hx. split.
        * intros (e & (u & Hu) & ->). exact (proj2 (Hfresh u e Hu) Hx).
        * intros e (u & Hu) <-. exact (Hbase u e Hu Hx).
      + auto.
    - intros e u Hin. right. apply root_res; auto.
    - split; [|split]; auto. intros e _ []. }
  unfold sim, same_outcome in *. unfold want, plain in Q.
  destruct (run_block w qz (fun e v => qz (qid f e) v) f g0) as [g|];
    destruct (run_block w qz (fun _ v => v) (rewrite ident f) g0) as [h|]; auto.
  destruct Q as (Q1 & _). intros x Hx. apply Q1. intros (e & (u & Hu) & ->). apply Hx. eauto.
Qed.
