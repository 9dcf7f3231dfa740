(** Proofs about registered quantizers and surrogates. *)
From Coq Require Import String Ascii.
From Verif Require Import Prelude ModulesModel ModulesSpec ModulesProofs ModulesConvProofs ModulesInitProofs QmModel QmSpec.
Local Open Scope nat_scope.
Local Open Scope list_scope.

Lemma set_nth_length {A} i (x : A) l : length (set_nth i x l) = length l.
Proof. revert i. induction l; intros [|i]; cbn; auto. Qed.
Lemma set_nth_same {A} i (x y : A) l : nth_error l i = Some y -> nth_error (set_nth i x l) i = Some x.
Proof. revert i. induction l; intros [|i]; cbn; try discriminate; auto. Qed.
Lemma set_nth_other {A} i (x : A) l j : j <> i -> nth_error (set_nth i x l) j = nth_error l j.
Proof. revert i j. induction l; intros [|i] [|j] H; cbn; try reflexivity; try lia. apply IHl. lia. Qed.
Lemma put_same {A} n (v : A) d : slookup n (put n v d) = Some v.
Proof. induction d as [|[k x] d IH]; cbn; [now rewrite String.eqb_refl|]. destruct (String.eqb n k) eqn:E; cbn; rewrite E; auto. Qed.
Lemma put_other {A} n m (v : A) d : n <> m -> slookup n (put m v d) = slookup n d.
Proof.
  intros H. induction d as [|[k x] d IH]; cbn.
  - destruct (String.eqb_spec n m); [contradiction|reflexivity].
  - destruct (String.eqb_spec m k); cbn.
    + subst k. destruct (String.eqb_spec n m); [contradiction|reflexivity].
    + now rewrite IH.
Qed.

(** What no step undoes. *)
Definition grows (w w' : world) : Prop :=
  forall r md, nth_error (metas w) r = Some md -> exists md', nth_error (metas w') r = Some md' /\ incl (fst md) (fst md').
Definition keeps (w w' : world) (except : nat -> Prop) : Prop :=
  forall m n r, ~ except m -> remembers w m n r -> remembers w' m n r.
Definition keepsq (w w' : world) (except : nat -> Prop) : Prop :=
  forall q r, ~ except q -> described_by w q r -> described_by w' q r.
Definition sound (w : world) : Prop :=
  (forall q r, described_by w q r -> r < length (metas w)) /\ (forall m n r, remembers w m n r -> r < length (metas w)).

Lemma grows_refl w : grows w w. Proof. intros r md H. exists md. split; [assumption|apply incl_refl]. Qed.
Lemma grows_trans a b c : grows a b -> grows b c -> grows a c.
Proof. intros H1 H2 r md H. destruct (H1 r md H) as (md1 & E1 & I1). destruct (H2 r md1 E1) as (md2 & E2 & I2). exists md2. split; [assumption|eapply incl_tran; eauto]. Qed.

Lemma set_attr_ok w m n q w' : set_attr w m n q = Ok w' ->
  metas w' = metas w /\ quants w' = quants w /\ length (qmods w') = length (qmods w) /\
  (forall m0 n0 r, remembers w' m0 n0 r <-> remembers w m0 n0 r) /\
  (exists x, nth_error (qmods w) m = Some x /\ nth_error (qmods w') m = Some (mkQM (put n q (qattrs x)) (qstore x))).
Proof.
  unfold set_attr. destruct (nth_error (qmods w) m) as [x|] eqn:E; [|discriminate]. intros H. injection H as <-.
  cbn [metas quants qmods]. split; [reflexivity|]. split; [reflexivity|]. split; [apply set_nth_length|]. split.
  - intros m0 n0 r. unfold remembers. cbn [qmods]. destruct (Nat.eq_dec m0 m) as [->|Hne].
    + rewrite (set_nth_same _ _ _ _ E). split.
      * intros (y & d & H1 & H2 & H3). injection H1 as <-. exists x, d. auto.
      * intros (y & d & H1 & H2 & H3). assert (y = x) by congruence. subst y. eexists _, d. split; [reflexivity|]. auto.
    + rewrite set_nth_other by assumption. reflexivity.
  - exists x. split; [reflexivity|]. now apply set_nth_same with (y := x).
Qed.
Lemma set_store_ok w m n r w' : set_store w m n r = Ok w' ->
  metas w' = metas w /\ quants w' = quants w /\ length (qmods w') = length (qmods w) /\
  (forall m0 n0 r0, (m0, n0) <> (m, n) -> (remembers w' m0 n0 r0 <-> remembers w m0 n0 r0)) /\ remembers w' m n r /\
  (forall m0 n0 q, attribute_is w m0 n0 q -> attribute_is w' m0 n0 q).
Proof.
  unfold set_store. destruct (nth_error (qmods w) m) as [x|] eqn:E; [|discriminate]. destruct (qstore x) as [d|] eqn:Ed; [|discriminate].
  intros H. injection H as <-. cbn [metas quants qmods]. split; [reflexivity|]. split; [reflexivity|]. split; [apply set_nth_length|]. split; [|split].
  - intros m0 n0 r0 Hne. unfold remembers. cbn [qmods]. destruct (Nat.eq_dec m0 m) as [->|Hm].
    + rewrite (set_nth_same _ _ _ _ E). assert (n0 <> n) by congruence. split.
      * intros (y & d' & H1 & H2 & H3). injection H1 as <-. cbn in H2. injection H2 as <-. rewrite put_other in H3 by assumption. exists x, d. auto.
      * intros (y & d' & H1 & H2 & H3). assert (y = x) by congruence. subst y. assert (d' = d) by congruence. subst d'.
        eexists _, (put n r d). split; [reflexivity|]. split; [reflexivity|]. now rewrite put_other.
    + rewrite set_nth_other by assumption. reflexivity.
  - exists (mkQM (qattrs x) (Some (put n r d))), (put n r d). split; [now apply set_nth_same with (y := x)|]. split; [reflexivity|apply put_same].
  - intros m0 n0 q (y & H1 & H2). unfold attribute_is. cbn [qmods]. destruct (Nat.eq_dec m0 m) as [->|Hm].
    + assert (y = x) by congruence. subst y. rewrite (set_nth_same _ _ _ _ E). eexists. split; [reflexivity|]. exact H2.
    + rewrite set_nth_other by assumption. exists y. auto.
Qed.
Lemma set_meta_ok w q r o : nth_error (quants w) q = Some o ->
  described_by (set_meta_of w q r) q r /\ (forall q0 r0, q0 <> q -> described_by (set_meta_of w q r) q0 r0 <-> described_by w q0 r0).
Proof.
  intros H. unfold described_by, set_meta_of. cbn [quants]. split; [now apply set_nth_same with (y := o)|].
  intros q0 r0 Hne. now rewrite set_nth_other.
Qed.
Lemma remembers_fun w m n r r' : remembers w m n r -> remembers w m n r' -> r = r'.
Proof. intros (x & d & H1 & H2 & H3) (x' & d' & H1' & H2' & H3'). congruence. Qed.

(** The effect of [register_quantizer] on a world in which every reference is valid. *)
Definition registered (w w' : world) (m : nat) (n : string) (q : nat) : Prop :=
  exists r, remembers w' m n r /\ described_by w' q r /\
    (remembers w m n r \/ ((forall r0, ~ remembers w m n r0) /\ (described_by w q r \/
       (nth_error (quants w) q = Some None /\ metas w' = metas w ++ [([], [("shape"%string, None)])] /\ r = length (metas w))))).

Lemma register_effect w m n q reg w' res : sound w -> register_quantizer w m n q reg = (w', res) ->
  grows w w' /\ keeps w w' (fun _ => False) /\ keepsq w w' (fun x => q = Some x) /\ sound w' /\
  (forall b qi, q = Some qi -> res = Ok b -> registered w w' m n qi /\
     (forall m0 n0 q0, (if reg then m0 = m /\ n0 = n /\ q0 = qi else attribute_is w m0 n0 q0) -> attribute_is w' m0 n0 q0)).
Proof.
  intros [S1 S2] E. unfold register_quantizer in E.
  assert (Triv : w' = w -> (exists e, res = Err e) -> grows w w' /\ keeps w w' (fun _ => False) /\ keepsq w w' (fun x => q = Some x) /\ sound w' /\
    (forall b qi, q = Some qi -> res = Ok b -> registered w w' m n qi /\
     (forall m0 n0 q0, (if reg then m0 = m /\ n0 = n /\ q0 = qi else attribute_is w m0 n0 q0) -> attribute_is w' m0 n0 q0))).
  { intros -> [e ->]. split; [apply grows_refl|]. split; [intros ? ? ? _ H; exact H|]. split; [intros ? ? _ H; exact H|]. split; [now split|].
    intros b qi _ H. discriminate. }
  destruct (nth_error (qmods w) m) as [x|] eqn:Em; [|injection E as <- <-; apply Triv; eauto].
  destruct (qstore x) as [d|] eqn:Ed; [|injection E as <- <-; apply Triv; eauto].
  set (pre := if reg then set_attr w m n q else Ok w) in E.
  assert (Hp : forall w1, pre = Ok w1 -> metas w1 = metas w /\ quants w1 = quants w /\ length (qmods w1) = length (qmods w) /\
    (forall m0 n0 r, remembers w1 m0 n0 r <-> remembers w m0 n0 r) /\
    (forall m0 n0 q0, (if reg then m0 = m /\ n0 = n /\ Some q0 = q else attribute_is w m0 n0 q0) -> attribute_is w1 m0 n0 q0)).
  { intros w1 H. unfold pre in H. destruct reg.
    - destruct (set_attr_ok _ _ _ _ _ H) as (H1 & H2 & H3 & H4 & (x1 & H5 & H6)). split; [assumption|]. split; [assumption|]. split; [assumption|]. split; [assumption|].
      intros m0 n0 q0 (-> & -> & Eq). eexists. split; [exact H6|]. cbn. rewrite put_same. congruence.
    - injection H as <-. repeat split; auto. }
  destruct pre as [w1|e] eqn:Epre; [|injection E as <- <-; apply Triv; eauto].
  destruct (Hp w1 eq_refl) as (M1 & Q1 & L1 & R1 & A1). clear Hp Triv.
  assert (Base : grows w w1 /\ keeps w w1 (fun _ => False) /\ keepsq w w1 (fun x => q = Some x) /\ sound w1).
  { split; [intros r md H; exists md; rewrite M1; split; [assumption|apply incl_refl]|].
    split; [intros m0 n0 r _ H; now apply R1|]. split; [intros q0 r _ H; unfold described_by; now rewrite Q1|].
    split; [intros q0 r H; rewrite M1; unfold described_by in H; rewrite Q1 in H; eapply S1; exact H|intros m0 n0 r H; rewrite M1; apply R1 in H; eapply S2; exact H]. }
  destruct Base as (B1 & B2 & B3 & B4).
  assert (Ends : forall w2 e, w' = w2 -> res = Err e -> w2 = w1 -> grows w w' /\ keeps w w' (fun _ => False) /\ keepsq w w' (fun x => q = Some x) /\ sound w' /\
    (forall b qi, q = Some qi -> res = Ok b -> registered w w' m n qi /\
     (forall m0 n0 q0, (if reg then m0 = m /\ n0 = n /\ q0 = qi else attribute_is w m0 n0 q0) -> attribute_is w' m0 n0 q0))).
  { intros w2 e -> -> ->. split; [assumption|]. split; [assumption|]. split; [assumption|]. split; [assumption|]. intros b qi _ H. discriminate. }
  destruct q as [qi|].
  2:{ injection E as <- <-. split; [assumption|]. split; [assumption|]. split; [assumption|]. split; [assumption|]. intros b qi H. discriminate. }
  destruct (nth_error (quants w1) qi) as [own|] eqn:Eq; [|injection E as <- <-; eapply Ends; reflexivity].
  assert (Rem : forall r, slookup n d = Some r <-> remembers w m n r).
  { intros r. split; [intros H; exists x, d; auto|]. intros (y & d' & H1 & H2 & H3). congruence. }
  assert (A1' : forall m0 n0 q0, (if reg then m0 = m /\ n0 = n /\ q0 = qi else attribute_is w m0 n0 q0) -> attribute_is w1 m0 n0 q0).
  { intros m0 n0 q0 H. apply A1. destruct reg; [|assumption]. destruct H as (-> & -> & ->). auto. }
  (** writing metadata [r0], already remembered, to the quantizer *)
  assert (Over : forall r0 b, remembers w m n r0 -> w' = set_meta_of w1 qi r0 -> res = Ok b -> grows w w' /\ keeps w w' (fun _ => False) /\ keepsq w w' (fun x => Some qi = Some x) /\ sound w' /\
    (forall b qi0, Some qi = Some qi0 -> res = Ok b -> registered w w' m n qi0 /\
     (forall m0 n0 q0, (if reg then m0 = m /\ n0 = n /\ q0 = qi0 else attribute_is w m0 n0 q0) -> attribute_is w' m0 n0 q0))).
  { intros r0 b Hr -> ->. destruct (set_meta_ok w1 qi r0 own Eq) as [D1 D2].
    split; [exact B1|]. split; [exact B2|]. split.
    { intros q0 r Hne H. apply D2; [congruence|]. apply B3; assumption. }
    split.
    { destruct B4 as [B4 B5]. split; [|exact B5]. intros q0 r H. cbn [metas set_meta_of]. destruct (Nat.eq_dec q0 qi) as [->|Hne].
      - assert (r = r0) by (unfold described_by in *; congruence). subst r. rewrite M1. eapply S2; exact Hr.
      - apply D2 in H; [|assumption]. eapply B4; exact H. }
    intros b' qi0 H _. injection H as <-. split; [|exact A1'].
    exists r0. split; [apply R1; exact Hr|]. split; [exact D1|]. left. exact Hr. }
  (** storing metadata [r0] and writing it to the quantizer *)
  assert (New : forall w2 w3 r0 b, qmods w2 = qmods w1 -> quants w2 = quants w1 -> grows w1 w2 -> length (metas w1) <= length (metas w2) -> r0 < length (metas w2) ->
    slookup n d = None -> set_store w2 m n r0 = Ok w3 -> w' = set_meta_of w3 qi r0 -> res = Ok b ->
    (described_by w qi r0 \/ (nth_error (quants w) qi = Some None /\ metas w' = metas w ++ [([], [("shape"%string, None)])] /\ r0 = length (metas w))) ->
    grows w w' /\ keeps w w' (fun _ => False) /\ keepsq w w' (fun x => Some qi = Some x) /\ sound w' /\
    (forall b qi0, Some qi = Some qi0 -> res = Ok b -> registered w w' m n qi0 /\
     (forall m0 n0 q0, (if reg then m0 = m /\ n0 = n /\ q0 = qi0 else attribute_is w m0 n0 q0) -> attribute_is w' m0 n0 q0))).
  { intros w2 w3 r0 b Hm Hq Hg Hl Hr0 Hnone Hst -> -> Hdesc. destruct (set_store_ok _ _ _ _ _ Hst) as (T1 & T2 & T3 & T4 & T5 & T6).
    assert (Eq3 : nth_error (quants w3) qi = Some own) by (rewrite T2, Hq; exact Eq).
    destruct (set_meta_ok w3 qi r0 own Eq3) as [D1 D2].
    assert (R2 : forall m0 n0 r, remembers w2 m0 n0 r <-> remembers w m0 n0 r).
    { intros. rewrite <- R1. unfold remembers. rewrite Hm. reflexivity. }
    assert (Hno : forall r, ~ remembers w m n r). { intros r H. apply Rem in H. congruence. }
    split. { intros r md H. cbn [metas set_meta_of]. rewrite T1. eapply (grows_trans _ _ _ B1 Hg); exact H. }
    split. { intros m0 n0 r _ H. assert ((m0, n0) <> (m, n)) by (intros K; injection K as -> ->; eapply Hno; exact H).
      apply (T4 m0 n0 r); [assumption|]. now apply R2. }
    split. { intros q0 r Hne H. apply D2; [congruence|]. unfold described_by. rewrite T2, Hq. apply (B3 q0 r Hne H). }
    split.
    { destruct B4 as [B4 B5]. split.
      - intros q0 r H. cbn [metas set_meta_of]. rewrite T1. destruct (Nat.eq_dec q0 qi) as [->|Hne].
        + assert (r = r0) by (unfold described_by in *; congruence). subst r. exact Hr0.
        + apply D2 in H; [|assumption]. unfold described_by in H. rewrite T2, Hq in H. specialize (B4 q0 r H). lia.
      - intros m0 n0 r H. cbn [metas set_meta_of]. rewrite T1.
        assert (Dec : {(m0, n0) = (m, n)} + {(m0, n0) <> (m, n)}).
        { destruct (Nat.eq_dec m0 m) as [->|]; [|right; congruence]. destruct (String.string_dec n0 n) as [->|]; [left; reflexivity|right; congruence]. }
        destruct Dec as [K|K].
        + injection K as -> ->. assert (r = r0) by (eapply remembers_fun; [exact H|exact T5]). subst r. exact Hr0.
        + apply (T4 m0 n0 r K) in H. apply R2 in H. apply R1 in H. specialize (B5 m0 n0 r H). lia. }
    intros b' qi0 H _. injection H as <-. split.
    - exists r0. split; [exact T5|]. split; [exact D1|]. right. split; assumption.
    - intros m0 n0 q0 H. assert (H1 : attribute_is w1 m0 n0 q0) by (apply A1'; exact H).
      assert (H2 : attribute_is w2 m0 n0 q0) by (unfold attribute_is in *; rewrite Hm; exact H1). exact (T6 m0 n0 q0 H2). }
  destruct own as [r|]; destruct (slookup n d) as [r0|] eqn:El.
  - destruct (nth_error (metas w1) r0) as [a|]; [|injection E as <- <-; eapply Ends; reflexivity].
    destruct (nth_error (metas w1) r) as [b|]; [|injection E as <- <-; eapply Ends; reflexivity].
    destruct (is_extension a b) as [ext|e]; [|injection E as <- <-; eapply Ends; reflexivity].
    injection E as <- <-. eapply Over; [apply Rem; reflexivity|reflexivity|reflexivity].
  - destruct (set_store w1 m n r) as [w2|e] eqn:Est; [|injection E as <- <-; eapply Ends; reflexivity].
    injection E as <- <-.
    assert (Hd : described_by w qi r) by (unfold described_by; rewrite <- Q1; exact Eq).
    eapply (New w1 w2 r false); try reflexivity; [apply grows_refl|rewrite M1; eapply S1; exact Hd|exact Est|left; exact Hd].
  - injection E as <- <-. eapply Over; [apply Rem; reflexivity|reflexivity|reflexivity].
  - assert (Hst : exists w3, set_store (mkW (metas w1 ++ [([], [("shape"%string, None)])]) (quants w1) (qmods w1)) m n (length (metas w1)) = Ok w3).
    { unfold set_store. cbn [qmods].
      assert (Hx : exists x', nth_error (qmods w1) m = Some x' /\ qstore x' = Some d).
      { destruct reg.
        - destruct (set_attr_ok _ _ _ _ _ Epre) as (_ & _ & _ & _ & (x1 & H5 & H6)). eexists. split; [exact H6|]. cbn. congruence.
        - injection Epre as <-. eauto. }
      destruct Hx as (x' & -> & ->). eauto. }
    destruct Hst as [w3 Hst]. cbv zeta in E. rewrite Hst in E. injection E as <- <-.
    assert (G2 : grows w1 (mkW (metas w1 ++ [([], [("shape"%string, None)])]) (quants w1) (qmods w1))).
    { intros r md H. exists md. cbn [metas]. split; [|apply incl_refl]. rewrite nth_error_app1; [assumption|]. apply nth_error_Some. congruence. }
    eapply (New _ w3 (length (metas w1)) false); try exact Hst; try reflexivity; [exact G2|cbn [metas]; rewrite app_length; lia|cbn [metas]; rewrite app_length; cbn; lia|].
    right. split; [rewrite <- Q1; exact Eq|]. split; [|now rewrite M1].
    destruct (set_store_ok _ _ _ _ _ Hst) as (T1 & _). cbn [metas set_meta_of]. rewrite T1. cbn [metas]. now rewrite M1.
Qed.

Lemma setattr_effect w m n q w' res : sound w -> setattr_quantizer w m n q = (w', res) ->
  grows w w' /\ keeps w w' (fun _ => False) /\ keepsq w w' (fun x => q = x) /\ sound w' /\
  (forall b, res = Ok b -> registered w w' m n q /\ attribute_is w' m n q).
Proof.
  intros S E. unfold setattr_quantizer in E. destruct (set_attr w m n (Some q)) as [w1|e] eqn:Ea.
  2:{ injection E as <- <-. split; [apply grows_refl|]. split; [intros ? ? ? _ H; exact H|]. split; [intros ? ? _ H; exact H|]. split; [exact S|]. discriminate. }
  destruct (set_attr_ok _ _ _ _ _ Ea) as (M1 & Q1 & L1 & R1 & (x & X1 & X2)).
  assert (S1 : sound w1).
  { destruct S as [Sa Sb]. split; [intros q0 r H; rewrite M1; unfold described_by in H; rewrite Q1 in H; eapply Sa; exact H|intros m0 n0 r H; rewrite M1; apply R1 in H; eapply Sb; exact H]. }
  destruct (register_effect _ _ _ _ _ _ _ S1 E) as (G & K & KQ & S' & Reg).
  split. { intros r md H. apply G. now rewrite M1. }
  split. { intros m0 n0 r Hn H. apply K; [assumption|]. now apply R1. }
  split. { intros q0 r Hn H. apply KQ; [congruence|]. unfold described_by. now rewrite Q1. }
  split; [assumption|]. intros b ->. destruct (Reg b q eq_refl eq_refl) as [(r & P1 & P2 & P3) P4]. split.
  - exists r. split; [assumption|]. split; [assumption|]. destruct P3 as [P3|[P3 P5]]; [left; now apply R1|right].
    split; [intros r0 H; apply (P3 r0); now apply R1|]. unfold described_by in *. rewrite Q1, M1 in P5. exact P5.
  - apply P4. exists (mkQM (put n (Some q) (qattrs x)) (qstore x)). split; [exact X2|apply put_same].
Qed.

Definition inits (s : step) (m : nat) : Prop := s = Init m.
Lemma step_effect w s w' res : sound w -> do_step w s = (w', res) ->
  grows w w' /\ keeps w w' (inits s) /\ keepsq w w' (places s) /\ sound w'.
Proof.
  intros S E. pose proof S as S0. destruct S as [S1 S2].
  assert (Same : w' = w -> grows w w' /\ keeps w w' (inits s) /\ keepsq w w' (places s) /\ sound w').
  { intros ->. split; [apply grows_refl|]. split; [intros ? ? ? _ H; exact H|]. split; [intros ? ? _ H; exact H|]. exact S0. }
  assert (Gen : metas w' = metas w -> (forall q r, described_by w' q r <-> described_by w q r) ->
    (forall m0 n0 r, remembers w' m0 n0 r -> remembers w m0 n0 r) -> (forall m0 n0 r, ~ inits s m0 -> remembers w m0 n0 r -> remembers w' m0 n0 r) ->
    grows w w' /\ keeps w w' (inits s) /\ keepsq w w' (places s) /\ sound w').
  { intros M Q R R'. split; [intros r md H; exists md; rewrite M; split; [assumption|apply incl_refl]|].
    split; [intros m0 n0 r Hn H; now apply R'|]. split; [intros q r _ H; now apply Q|].
    split; [intros q r H; rewrite M; apply Q in H; eapply S1; exact H|intros m0 n0 r H; rewrite M; apply R in H; eapply S2; exact H]. }
  destruct s as [|m|md|m n q|m n q|m n|m n|q t]; cbn [do_step] in E.
  - injection E as <- <-. apply Gen; [reflexivity|reflexivity| |].
    + intros m0 n0 r (x & d & H1 & H2 & H3). exists x, d. split; [|auto]. cbn [qmods] in H1.
      destruct (Nat.lt_ge_cases m0 (length (qmods w))); [now rewrite nth_error_app1 in H1|].
      rewrite nth_error_app2 in H1 by assumption. destruct (m0 - length (qmods w)) as [|i]; cbn in H1; [injection H1 as <-; discriminate|destruct i; discriminate].
    + intros m0 n0 r _ (x & d & H1 & H2 & H3). exists x, d. split; [|auto]. cbn [qmods]. rewrite nth_error_app1; [assumption|]. apply nth_error_Some. congruence.
  - destruct (nth_error (qmods w) m) as [x|] eqn:Ex; injection E as <- <-; [|apply Same; reflexivity]. apply Gen; [reflexivity|reflexivity| |].
    + intros m0 n0 r (y & d & H1 & H2 & H3). cbn [qmods] in H1. destruct (Nat.eq_dec m0 m) as [->|Hne].
      * rewrite (set_nth_same _ _ _ _ Ex) in H1. injection H1 as <-. cbn in H2. injection H2 as <-. discriminate.
      * rewrite set_nth_other in H1 by assumption. exists y, d. auto.
    + intros m0 n0 r Hn (y & d & H1 & H2 & H3). exists y, d. split; [|auto]. cbn [qmods]. rewrite set_nth_other; [assumption|]. intros ->. apply Hn. reflexivity.
  - destruct md as [md|]; injection E as <- <-.
    + split. { intros r md0 H. exists md0. cbn [metas]. split; [|apply incl_refl]. rewrite nth_error_app1; [assumption|]. apply nth_error_Some. congruence. }
      split; [intros m0 n0 r _ H; exact H|]. split.
      { intros q r _ H. unfold described_by in *. cbn [quants]. rewrite nth_error_app1; [assumption|]. apply nth_error_Some. congruence. }
      split.
      * intros q r H. unfold described_by in H. cbn [quants metas] in *. rewrite app_length. cbn [length].
        destruct (Nat.lt_ge_cases q (length (quants w))); [rewrite nth_error_app1 in H by assumption; specialize (S1 q r H); lia|].
        rewrite nth_error_app2 in H by assumption. destruct (q - length (quants w)) as [|i]; cbn in H; [injection H as <-; lia|destruct i; discriminate].
      * intros m0 n0 r H. cbn [metas]. rewrite app_length. specialize (S2 m0 n0 r H). lia.
    + split; [intros r0 md0 H; exists md0; split; [exact H|apply incl_refl]|]. split; [intros m0 n0 r _ H; exact H|]. split.
      { intros q r _ H. unfold described_by in *. cbn [quants]. rewrite nth_error_app1; [assumption|]. apply nth_error_Some. congruence. }
      split; [|exact S2]. intros q r H. unfold described_by in H. cbn [quants metas] in *.
      destruct (Nat.lt_ge_cases q (length (quants w))); [rewrite nth_error_app1 in H by assumption; exact (S1 q r H)|].
      rewrite nth_error_app2 in H by assumption. destruct (q - length (quants w)) as [|i]; cbn in H; [discriminate|destruct i; discriminate].
  - destruct (setattr_effect _ _ _ _ _ _ S0 E) as (H1 & H2 & H3 & H4 & _). split; [assumption|]. split; [intros m0 n0 r _; apply H2; tauto|]. split; [exact H3|assumption].
  - destruct (register_effect _ _ _ _ _ _ _ S0 E) as (H1 & H2 & H3 & H4 & _). split; [assumption|]. split; [intros m0 n0 r _; apply H2; tauto|]. split; [|assumption].
    intros q0 r Hn. apply H3. intros ->. apply Hn. reflexivity.
  - destruct (set_attr w m n None) as [w1|e] eqn:Ea; injection E as <- <-; [|apply Same; reflexivity].
    destruct (set_attr_ok _ _ _ _ _ Ea) as (M1 & Q1 & L1 & R1 & _). apply Gen; [assumption|intros; unfold described_by; now rewrite Q1|intros; now apply R1|intros; now apply R1].
  - destruct (nth_error (qmods w) m) as [x|] eqn:Ex; [|injection E as <- <-; apply Same; reflexivity].
    destruct (slookup n (qattrs x)); injection E as <- <-; [|apply Same; reflexivity].
    assert (R : forall m0 n0 r, remembers (mkW (metas w) (quants w) (set_nth m (mkQM (filter (fun e => negb (String.eqb n (fst e))) (qattrs x)) (qstore x)) (qmods w))) m0 n0 r <-> remembers w m0 n0 r).
    { intros m0 n0 r. unfold remembers. cbn [qmods]. destruct (Nat.eq_dec m0 m) as [->|Hne].
      - rewrite (set_nth_same _ _ _ _ Ex). split.
        + intros (y & d & H1 & H2 & H3). injection H1 as <-. exists x, d. auto.
        + intros (y & d & H1 & H2 & H3). assert (y = x) by congruence. subst y. eexists _, d. split; [reflexivity|]. auto.
      - now rewrite set_nth_other. }
    apply Gen; [reflexivity|reflexivity|intros; now apply R|intros; now apply R].
  - destruct (nth_error (quants w) q) as [[r|]|] eqn:Eq; try (injection E as <- <-; apply Same; reflexivity).
    destruct (nth_error (metas w) r) as [md|] eqn:Er; injection E as <- <-; [|apply Same; reflexivity].
    split.
    { intros r0 md0 H. cbn [metas]. destruct (Nat.eq_dec r0 r) as [->|Hne].
      - rewrite (set_nth_same _ _ _ _ Er). eexists. split; [reflexivity|]. cbn [fst]. assert (md0 = md) by congruence. subst md0.
        unfold add_tag. apply incl_appr, incl_refl.
      - rewrite set_nth_other by assumption. exists md0. split; [assumption|apply incl_refl]. }
    split; [intros m0 n0 r0 _ H; exact H|]. split; [intros q0 r0 _ H; exact H|].
    split; intros; cbn [metas]; rewrite set_nth_length; eauto.
Qed.

Lemma sound_empty : sound no_world.
Proof.
  split.
  - intros q r H. unfold described_by in H. cbn in H. destruct q; discriminate.
  - intros m n r (x & d & H & _). cbn in H. destruct m; discriminate.
Qed.
Lemma history_effect ss : forall w, sound w ->
  grows w (history w ss) /\ keeps w (history w ss) (fun m => In (Init m) ss) /\
  keepsq w (history w ss) (fun q => exists s, In s ss /\ places s q) /\ sound (history w ss).
Proof.
  induction ss as [|s ss IH]; intros w S; cbn [history fold_left].
  - split; [apply grows_refl|]. split; [intros ? ? ? _ H; exact H|]. split; [intros ? ? _ H; exact H|]. exact S.
  - destruct (do_step w s) as [w1 res] eqn:E. destruct (step_effect _ _ _ _ S E) as (G & K & KQ & S1). cbn [fst].
    destruct (IH w1 S1) as (G' & K' & KQ' & S'). unfold history in *.
    split; [eapply grows_trans; eauto|]. split; [|split; [|assumption]].
    + intros m n r Hn H. apply K'; [intros C; apply Hn; right; exact C|]. apply K; [|assumption]. intros C. apply Hn. left. exact C.
    + intros q r Hn H. apply KQ'; [intros (s' & C1 & C2); apply Hn; exists s'; split; [right; exact C1|exact C2]|].
      apply KQ; [|assumption]. intros C. apply Hn. exists s. split; [left; reflexivity|exact C].
Qed.
Lemma history_app w a b : history w (a ++ b) = history (history w a) b.
Proof. unfold history. apply fold_left_app. Qed.
Lemma history_sound ss : sound (history no_world ss).
Proof. apply (history_effect ss no_world sound_empty). Qed.
Lemma tagged_grows w w' r t : grows w w' -> tagged w r t -> tagged w' r t.
Proof. intros G (md & H1 & H2). destruct (G r md H1) as (md' & H3 & H4). exists md'. auto. Qed.

Lemma attribute_keeps pre post m n t : attribute_tag (history no_world pre) m n t -> ~ In (Init m) post ->
  attribute_tag (history no_world (pre ++ post)) m n t.
Proof.
  intros (r & H1 & H2) Hn. rewrite history_app. destruct (history_effect post _ (history_sound pre)) as (G & K & _).
  exists r. split; [apply K; [assumption|exact H1]|eapply tagged_grows; eauto].
Qed.
Lemma assigned ss m n q w' b : let w := history no_world ss in do_step w (Assign m n q) = (w', Ok b) ->
  attribute_is w' m n q /\ (exists r, remembers w' m n r /\ described_by w' q r) /\
  (forall t, attribute_tag w m n t -> carries w' q t) /\
  ((forall r, ~ remembers w m n r) -> forall t, (carries w q t <-> carries w' q t)).
Proof.
  intros w E. cbn [do_step] in E. pose proof (history_sound ss) as S. fold w in S.
  destruct (setattr_effect _ _ _ _ _ _ S E) as (G & K & KQ & S' & R). destruct (R b eq_refl) as [(r & P1 & P2 & P3) P4].
  split; [assumption|]. split; [exists r; auto|]. split.
  - intros t (r0 & H1 & H2). assert (H3 : remembers w' m n r0) by (apply K; [tauto|exact H1]).
    assert (r0 = r) by (eapply remembers_fun; eauto). subst r0. exists r. split; [assumption|]. eapply tagged_grows; eauto.
  - intros Hno t. destruct P3 as [P3|[_ P3]]; [exfalso; eapply Hno; exact P3|].
    assert (Hu : forall r0, described_by w' q r0 -> r0 = r) by (intros r0 H; unfold described_by in *; congruence).
    destruct P3 as [P3|(P3 & P5 & ->)].
    + (* own metadata *)
      assert (M : metas w' = metas w).
      { clear - E P3 Hno. unfold setattr_quantizer in E. destruct (set_attr w m n (Some q)) as [w1|e] eqn:Ea; [|discriminate].
        destruct (set_attr_ok _ _ _ _ _ Ea) as (M1 & Q1 & L1 & R1 & (x & X1 & X2)). unfold register_quantizer in E. rewrite X2 in E. cbn [qstore] in E.
        destruct (qstore x) as [d|] eqn:Ed; [|discriminate]. unfold described_by in P3. rewrite <- Q1 in P3. rewrite P3 in E.
        destruct (slookup n d) as [r0|] eqn:El; [exfalso; apply (Hno r0); exists x, d; auto|].
        destruct (set_store w1 m n r) as [w2|] eqn:Es; [|discriminate]. injection E as <- _. cbn [metas set_meta_of].
        destruct (set_store_ok _ _ _ _ _ Es) as (T1 & _). congruence. }
      split; intros (r0 & H1 & H2).
      * assert (r0 = r) by (unfold described_by in *; congruence). subst r0. exists r. split; [assumption|]. eapply tagged_grows; eauto.
      * apply Hu in H1. subst r0. exists r. split; [assumption|]. unfold tagged in *. now rewrite <- M.
    + split; intros (r0 & H1 & H2).
      * unfold described_by in H1. congruence.
      * exfalso. apply Hu in H1. subst r0. destruct H2 as (md & H2 & H3). rewrite P5, nth_error_app2, Nat.sub_diag in H2 by lia.
        cbn in H2. injection H2 as <-. destruct H3.
Qed.
Lemma assigned_stays pre m n q post b : (exists w1, do_step (history no_world pre) (Assign m n q) = (w1, Ok b)) ->
  ~ In (Init m) post -> (forall s, In s post -> ~ places s q) ->
  exists r, remembers (history no_world (pre ++ Assign m n q :: post)) m n r /\ described_by (history no_world (pre ++ Assign m n q :: post)) q r.
Proof.
  intros (w1 & E) Hi Hp.
  assert (Eh : history no_world (pre ++ Assign m n q :: post) = history w1 post).
  { rewrite history_app. change (Assign m n q :: post) with ([Assign m n q] ++ post). rewrite history_app. f_equal.
    unfold history at 1. cbn [fold_left]. now rewrite E. }
  rewrite Eh.
  pose proof E as E'. cbn [do_step] in E'. destruct (setattr_effect _ _ _ _ _ _ (history_sound pre) E') as (_ & _ & _ & S1 & R).
  destruct (R b eq_refl) as [(r & P1 & P2 & _) _]. destruct (history_effect post w1 S1) as (_ & K & KQ & _).
  exists r. split; [apply K; assumption|]. apply KQ; [|assumption]. intros (s & C1 & C2). eapply Hp; eauto.
Qed.
Lemma assign_warns ss m n q w' b r0 r a c : let w := history no_world ss in
  do_step w (Assign m n q) = (w', Ok b) -> remembers w m n r0 -> described_by w q r ->
  nth_error (metas w) r0 = Some a -> nth_error (metas w) r = Some c ->
  (b = true <-> ~ extends c a).
Proof.
  intros w E Hr Hd Ha Hc. cbn [do_step] in E. unfold setattr_quantizer in E.
  destruct (set_attr w m n (Some q)) as [w1|e] eqn:Ea; [|discriminate].
  destruct (set_attr_ok _ _ _ _ _ Ea) as (M1 & Q1 & L1 & R1 & (x & X1 & X2)). unfold register_quantizer in E. rewrite X2 in E. cbn [qstore] in E.
  destruct Hr as (x' & d & H1 & H2 & H3). assert (x' = x) by congruence. subst x'. rewrite H2 in E.
  unfold described_by in Hd. rewrite <- Q1 in Hd. rewrite Hd, H3, M1, Ha, Hc in E.
  destruct (is_extension a c) as [ext|e] eqn:Ex; [|discriminate]. injection E as _ <-.
  assert (X : ext = true <-> extends c a).
  { clear - Ex. unfold is_extension in Ex. unfold extends.
    assert (Ft : forallb (has_tag (fst c)) (fst a) = true <-> forall t, In t (fst a) -> In t (fst c)).
    { rewrite forallb_forall. unfold has_tag. split; intros H t Ht; specialize (H t Ht).
      - apply existsb_exists in H. destruct H as (u & Hu & Eu). apply String.eqb_eq in Eu. congruence.
      - apply existsb_exists. exists t. split; [assumption|apply String.eqb_refl]. }
    destruct (forallb (has_tag (fst c)) (fst a)) eqn:Ef.
    - assert (At : ext = true <-> forall k v, In (k, v) (snd a) -> (k = "shape"%string /\ v = None) \/ slookup k (snd c) = Some v).
      { clear - Ex. revert Ex. generalize (snd a), (snd c). intros l o. induction l as [|[k v] l IH]; cbn [attrs_extend]; intros Ex.
        - injection Ex as <-. split; [intros _ k v []|reflexivity].
        - destruct (String.eqb k "shape" && match v with None => true | _ => false end) eqn:Es.
          + rewrite (IH Ex). apply andb_true_iff in Es. destruct Es as [Ek Ev]. apply String.eqb_eq in Ek. destruct v; [discriminate|]. split.
            * intros H k0 v0 [K|K]; [injection K as <- <-; left; auto|auto].
            * intros H k0 v0 K. apply H. right. exact K.
          + assert (Hns : ~ (k = "shape"%string /\ v = None)). { intros [-> ->]. cbn in Es. discriminate. }
            destruct (slookup k o) as [v'|] eqn:El; [|discriminate].
            assert (Hv : (exists r, Ok ext = Ok r /\ attrs_extend l o = Ok r /\ v = v') \/ (ext = false /\ v <> v')).
            { destruct v as [u|], v' as [u'|].
              - destruct (u =? u') eqn:Eu; [apply Nat.eqb_eq in Eu; left; exists ext; subst; auto|apply Nat.eqb_neq in Eu; right; injection Ex as <-; split; congruence].
              - right. injection Ex as <-. split; congruence.
              - right. injection Ex as <-. split; congruence.
              - left. exists ext. auto. }
            destruct Hv as [(r & _ & Hr & ->)|[-> Hne]].
            * assert (r = ext). { destruct v' as [u'|]; [rewrite Nat.eqb_refl in Ex|]; congruence. } subst r. rewrite (IH Hr). split.
              -- intros H k0 v0 [K|K]; [injection K as <- <-; right; exact El|auto].
              -- intros H k0 v0 K. apply H. right. exact K.
            * split; [discriminate|]. intros H. destruct (H k v (or_introl eq_refl)) as [C|C]; [contradiction|]. congruence. }
      rewrite At. tauto.
    - injection Ex as <-. split; [discriminate|]. intros [H _]. apply Ft in H. discriminate. }
  rewrite <- X. destruct ext; cbn; split; congruence.
Qed.
