From Coq Require Import String Ascii.
From Verif Require Import Prelude ModulesModel ModulesSpec ModulesProofs.
Local Open Scope nat_scope.
Local Open Scope list_scope.

Lemma set_mod_length id m h : length (set_mod id m h) = length h.
Proof. revert id; induction h as [|x h IH]; intros [|id]; simpl; auto. Qed.
Lemma set_mod_same id m h : id < length h -> nth_error (set_mod id m h) id = Some m.
Proof. revert id; induction h as [|x h IH]; intros [|id] H; simpl in *; try lia; auto. apply IH. lia. Qed.
Lemma set_mod_other id m h j : j <> id -> nth_error (set_mod id m h) j = nth_error h j.
Proof. revert id j; induction h as [|x h IH]; intros [|id] [|j] H; simpl; auto; try congruence. Qed.
Lemma upd_mod_length id f h : length (upd_mod id f h) = length h.
Proof. unfold upd_mod. destruct (nth_error h id); [apply set_mod_length|reflexivity]. Qed.
Lemma upd_mod_same id f h m : nth_error h id = Some m -> nth_error (upd_mod id f h) id = Some (f m).
Proof. intros E. unfold upd_mod. rewrite E. apply set_mod_same. apply nth_error_Some. congruence. Qed.
Lemma upd_mod_other id f h j : j <> id -> nth_error (upd_mod id f h) j = nth_error h j.
Proof. intros Hne. unfold upd_mod. destruct (nth_error h id); [now apply set_mod_other|reflexivity]. Qed.

Lemma slookup_set_same n c kids : slookup n (set_kid n c kids) = Some (Some c).
Proof.
  induction kids as [|[n' c'] kids IH]; simpl; [now rewrite String.eqb_refl|].
  destruct (String.eqb n n') eqn:E; simpl; [now rewrite String.eqb_refl|]. now rewrite E.
Qed.
Lemma slookup_set_other n n' c kids : n <> n' -> slookup n (set_kid n' c kids) = slookup n kids.
Proof.
  intros Hne. induction kids as [|[k c'] kids IH]; simpl.
  - apply String.eqb_neq in Hne. now rewrite Hne.
  - destruct (String.eqb n' k) eqn:E; simpl.
    + apply String.eqb_eq in E. subst k. apply String.eqb_neq in Hne. now rewrite Hne.
    + destruct (String.eqb n k); auto.
Qed.
Lemma set_kid_fst n c kids : forall k, In k (map fst (set_kid n c kids)) <-> k = n \/ In k (map fst kids).
Proof.
  induction kids as [|[n' c'] kids IH]; intros k; simpl; [intuition|].
  destruct (String.eqb n n') eqn:E; simpl; [apply String.eqb_eq in E; subst n'; intuition|]. rewrite IH. intuition.
Qed.
Lemma set_kid_nodup n c kids : NoDup (map fst kids) -> NoDup (map fst (set_kid n c kids)).
Proof.
  induction kids as [|[n' c'] kids IH]; intros H; simpl; [constructor; [easy|constructor]|].
  apply NoDup_cons_iff in H. destruct H as [H1 H2]. destruct (String.eqb n n') eqn:E; simpl.
  - apply String.eqb_eq in E. subst n'. now constructor.
  - constructor; [|auto]. intros Hin. apply set_kid_fst in Hin. destruct Hin as [->|Hin]; [now rewrite String.eqb_refl in E|auto].
Qed.
Lemma slookup_in {B} n (v : B) l : slookup n l = Some v -> In (n, v) l.
Proof.
  induction l as [|[k w] l IH]; simpl; [discriminate|]. destruct (String.eqb n k) eqn:E.
  - intros [= ->]. apply String.eqb_eq in E. subst. now left.
  - auto.
Qed.
Lemma in_slookup {B} n (v : B) l : NoDup (map fst l) -> In (n, v) l -> slookup n l = Some v.
Proof.
  induction l as [|[k w] l IH]; intros N H; simpl; [easy|]. apply NoDup_cons_iff in N. destruct N as [N1 N2]. destruct H as [H|H].
  - injection H as -> ->. now rewrite String.eqb_refl.
  - destruct (String.eqb n k) eqn:E; [|auto]. apply String.eqb_eq in E. subst k. exfalso. apply N1. apply (in_map fst) in H. exact H.
Qed.

Lemma leads_lt h a p z : leads h a p z -> z < length h.
Proof. intros H. apply leads_end in H. destruct H as (m & E). apply nth_error_Some. congruence. Qed.
Lemma leads_rank h rank a p z : ranked h rank -> leads h a p z -> z = a \/ rank z < rank a.
Proof.
  intros Hr. induction 1 as [|id m n c p z E Hin Hl IH]; [now left|]. right. pose proof (Hr _ _ _ _ E Hin). destruct IH; [subst; assumption|lia].
Qed.
Lemma leads_snoc h a p b mb n c mc : leads h a p b -> nth_error h b = Some mb -> In (n, Some c) (mkids mb) -> nth_error h c = Some mc ->
  leads h a (p ++ [n]) c.
Proof. intros H E Hin Ec. eapply leads_app; [exact H|]. econstructor; eauto. econstructor; eauto. Qed.
Lemma leads_last h a p z : leads h a p z -> (p = [] /\ z = a) \/ exists p' b mb n, p = p' ++ [n] /\ leads h a p' b /\ nth_error h b = Some mb /\ In (n, Some z) (mkids mb).
Proof.
  induction 1 as [|id m n c p z E Hin Hl IH]; [left; auto|]. right. destruct IH as [[-> ->]|(p' & b & mb & n' & -> & H1 & H2 & H3)].
  - exists [], id, m, n. split; [reflexivity|]. split; [econstructor; eauto|]. auto.
  - exists (n :: p'), b, mb, n'. split; [reflexivity|]. split; [econstructor; eauto|auto].
Qed.
(** In a tree, two modules that reach the same module are comparable. *)
Lemma tree_comparable h root : one_parent h root -> forall p1 y1 z, leads h y1 p1 z -> forall p2 y2 q1 q2, leads h y2 p2 z ->
  leads h root q1 y1 -> leads h root q2 y2 -> (exists p, leads h y1 p y2) \/ (exists p, leads h y2 p y1).
Proof.
  intros Hop p1. induction p1 as [|n1 p1 IH] using rev_ind; intros y1 z H1 p2 y2 q1 q2 H2 R1 R2.
  - inversion H1; subst. right. eauto.
  - destruct (leads_last _ _ _ _ H1) as [[E _]|(p' & b & mb & n & E & Hl & Eb & Hin)].
    { destruct p1; discriminate. }
    apply app_inj_tail in E. destruct E as [<- <-].
    destruct (leads_last _ _ _ _ H2) as [[-> ->]|(p2' & b2 & mb2 & n2 & -> & Hl2 & Eb2 & Hin2)].
    + left. eauto.
    + assert (b = b2). { eapply (Hop _ b mb n1 _ b2 mb2 n2 z); eauto using leads_app. } subst b2. eapply IH; eauto.
Qed.

Section Conv.
  Variables (is_quantizer is_stub is_qmodule : nat -> bool) (base_module : nat).
  Variable mm : nat -> option entry.
  Variable skipq : bool.
  Variable stub_names : nat -> list string.
  Variable stub_cls : nat.
  Notation fc := (final_class is_qmodule mm skipq).
  Notation tgt := (target is_qmodule mm skipq).
  Notation attrs := (new_attrs is_qmodule mm skipq stub_names).
  Notation vis := (visits is_quantizer is_qmodule mm skipq stub_names).
  Notation qable := (quantizable is_quantizer is_qmodule base_module mm skipq).
  Notation qmod := (quantize_module mm stub_names stub_cls).
  Notation qmodel := (quantize_model is_quantizer is_qmodule base_module mm skipq stub_names stub_cls).
  Notation stub := (mkM stub_cls [] []).

  (** adding stubs to one module *)
  Lemma init_quantization_spec id names : forall h m, nth_error h id = Some m -> NoDup (map fst (mkids m)) ->
    exists h' m', fold_left (add_stub stub_cls id) names h = h' /\ length h' = length h + length names /\
      nth_error h' id = Some m' /\ mcls m' = mcls m /\ mparams m' = mparams m /\ NoDup (map fst (mkids m')) /\
      (forall j, j < length h -> j <> id -> nth_error h' j = nth_error h j) /\
      (forall j, length h <= j < length h' -> nth_error h' j = Some stub) /\
      (forall n, ~ In n names -> slookup n (mkids m') = slookup n (mkids m)) /\
      (forall n, In n names -> exists s, slookup n (mkids m') = Some (Some s) /\ length h <= s < length h') /\
      (forall n n' s, In n names -> slookup n (mkids m') = Some (Some s) -> slookup n' (mkids m') = Some (Some s) -> length h <= s -> In n' names -> n = n').
  Proof.
    induction names as [|a names IH]; intros h m E N.
    - exists h, m. cbn. split; [reflexivity|]. split; [lia|]. split; [assumption|]. do 2 (split; [reflexivity|]). split; [assumption|].
      split; [auto|]. split; [intros; lia|]. split; [auto|]. split; [easy|easy].
    - cbn [fold_left]. set (h1 := add_stub stub_cls id h a).
      assert (Hid : id < length h) by (apply nth_error_Some; congruence).
      assert (E' : nth_error (h ++ [stub]) id = Some m) by (rewrite nth_error_app1; assumption).
      assert (E1 : nth_error h1 id = Some (mkM (mcls m) (set_kid a (length h) (mkids m)) (mparams m))).
      { unfold h1, add_stub, setattr_mod. now rewrite (upd_mod_same _ _ _ _ E'). }
      assert (L1 : length h1 = S (length h)).
      { unfold h1, add_stub, setattr_mod. rewrite upd_mod_length, app_length. simpl. lia. }
      destruct (IH h1 _ E1) as (h' & m' & F & L & E2 & C & P & N' & O & S1 & S2 & S3 & S4).
      { cbn [mkids]. now apply set_kid_nodup. }
      cbn [mcls mparams mkids] in *.
      exists h', m'. split; [assumption|]. split; [simpl; lia|]. split; [assumption|]. split; [assumption|]. split; [assumption|]. split; [assumption|].
      split; [|split; [|split; [|split]]].
      + intros j Hj Hne. rewrite O by lia. unfold h1, add_stub, setattr_mod. rewrite upd_mod_other by assumption. now apply nth_error_app1.
      + intros j Hj. destruct (Nat.eq_dec j (length h)) as [->|Hne]; [|apply S1; lia]. rewrite O by lia.
        unfold h1, add_stub, setattr_mod. rewrite upd_mod_other by lia. rewrite nth_error_app2 by lia. now rewrite Nat.sub_diag.
      + intros n Hn. rewrite S2 by (intros H; apply Hn; now right). apply slookup_set_other. intros ->. apply Hn. now left.
      + intros n Hn. destruct (in_dec string_dec n names) as [Hin|Hin].
        * destruct (S3 n Hin) as (s & Hs & Hle). exists s. split; [assumption|lia].
        * destruct Hn as [->|Hn]; [|contradiction]. exists (length h). rewrite S2 by assumption. rewrite slookup_set_same. split; [reflexivity|lia].
      + intros n n' s Hn Hs Hs' Hle Hn'.
        assert (X : forall k, slookup k (mkids m') = Some (Some s) -> In k (a :: names) -> (In k names /\ length h1 <= s) \/ (~ In k names /\ k = a /\ s = length h)).
        { intros k Hk Hk2. destruct (in_dec string_dec k names) as [Hin|Hin].
          - left. split; [assumption|]. destruct (S3 k Hin) as (s2 & Hs2 & Hle2). rewrite Hk in Hs2. injection Hs2 as <-. lia.
          - right. destruct Hk2 as [<-|Hk2]; [|contradiction]. split; [assumption|]. split; [reflexivity|].
            rewrite S2, slookup_set_same in Hk by assumption. now injection Hk as <-. }
        destruct (X n Hs Hn) as [[H1 H2]|(H1 & -> & ->)]; destruct (X n' Hs' Hn') as [[H1' H2']|(H1' & -> & H3)]; try lia.
        * eapply S4; eauto.
        * reflexivity.
  Qed.

  Hypothesis targets_quantized : forall c c', mm c = Some (To c') -> is_qmodule c' = true /\ is_quantizer c' = false.
  Hypothesis stub_is_quantizer : is_quantizer stub_cls = true.
  Variable h0 : heap.
  Variable rank : nat -> nat.
  Variable root : nat.
  Hypothesis Hok : heap_ok h0.
  Hypothesis Hrank : ranked h0 rank.
  Hypothesis Hroot : root < length h0.
  Hypothesis Hrootq : is_quantizer (cls_of h0 root) = false.
  Hypothesis supported : forall p x, leads h0 root p x -> class_ok is_quantizer is_qmodule base_module mm skipq (cls_of h0 x) = true.
  Hypothesis no_plain : forall x, vis h0 root x -> mm (cls_of h0 x) <> None \/ (skipq = true /\ is_qmodule (cls_of h0 x) = true).

  Definition conv_rec (hc : heap) (m m' : modrec) : Prop :=
    converted is_qmodule mm skipq stub_names stub_cls (length h0) hc m m' /\ NoDup (map fst (mkids m')) /\
    (forall n n' s, slookup n (mkids m') = Some (Some s) -> slookup n' (mkids m') = Some (Some s) -> length h0 <= s -> n = n').
  Record Inv (hc : heap) (D : list nat) : Prop := {
    inv_len : length h0 <= length hc;
    inv_new : forall j, length h0 <= j < length hc -> nth_error hc j = Some stub;
    inv_done : forall x m, In x D -> nth_error h0 x = Some m -> exists m', nth_error hc x = Some m' /\ conv_rec hc m m';
    inv_todo : forall x, x < length h0 -> ~ In x D -> nth_error hc x = nth_error h0 x;
    inv_in : forall x, In x D -> x < length h0 /\ is_quantizer (cls_of h0 x) = false;
    inv_inj : forall x m n x' m' n' s, nth_error hc x = Some m -> nth_error hc x' = Some m' -> length h0 <= s ->
      slookup n (mkids m) = Some (Some s) -> slookup n' (mkids m') = Some (Some s) -> x = x'
  }.

  Lemma fc_nonq c : is_quantizer c = false -> is_quantizer (fc c) = false.
  Proof.
    unfold final_class, target. destruct (skipq && is_qmodule c); [auto|].
    destruct (mm c) as [[|c']|] eqn:E; auto. intros _. apply (targets_quantized _ _ E).
  Qed.

  Lemma inv_kids hc D x m m' n c : Inv hc D -> nth_error h0 x = Some m -> nth_error hc x = Some m' -> slookup n (mkids m') = Some (Some c) ->
    (In (n, Some c) (mkids m) /\ c < length h0 /\ (In x D -> ~ In n (attrs (mcls m)))) \/ (length h0 <= c < length hc).
  Proof.
    intros I E E' Hs. assert (Hx : x < length h0) by (apply nth_error_Some; congruence).
    destruct (Hok x m E) as [N K]. destruct (in_dec Nat.eq_dec x D) as [Hd|Hd].
    - destruct (inv_done hc D I x m Hd E) as (m2 & E2 & ((_ & _ & C1 & C2) & _)).
      assert (m2 = m') by congruence. subst m2.
      destruct (in_dec string_dec n (attrs (mcls m))) as [Hn|Hn].
      + right. destruct (C2 n Hn) as (s & Hs2 & Hle & Es). rewrite Hs in Hs2. injection Hs2 as <-. split; [assumption|]. apply nth_error_Some. congruence.
      + left. rewrite C1 in Hs by assumption. apply slookup_in in Hs. split; [assumption|]. split; [eapply K; eauto|auto].
    - left. rewrite (inv_todo hc D I x Hx Hd), E in E'. injection E' as <-. apply slookup_in in Hs. split; [assumption|]. split; [eapply K; eauto|]. contradiction.
  Qed.
  Lemma inv_nodup hc D x m' : Inv hc D -> nth_error hc x = Some m' -> NoDup (map fst (mkids m')).
  Proof.
    intros I E. destruct (Nat.lt_ge_cases x (length h0)) as [Hx|Hx].
    - destruct (nth_error h0 x) as [m|] eqn:E0; [|apply nth_error_None in E0; lia].
      destruct (in_dec Nat.eq_dec x D) as [Hd|Hd].
      + destruct (inv_done hc D I x m Hd E0) as (m2 & E2 & (_ & N & _)). congruence.
      + rewrite (inv_todo hc D I x Hx Hd), E0 in E. injection E as <-. apply (Hok x m E0).
    - assert (x < length hc) by (apply nth_error_Some; congruence). rewrite (inv_new hc D I x) in E by lia. injection E as <-. constructor.
  Qed.
  Lemma inv_ok hc D : Inv hc D -> heap_ok hc.
  Proof.
    intros I x m' E. pose proof (inv_nodup hc D x m' I E) as N. split; [assumption|]. intros n c Hin.
    apply (in_slookup _ _ _ N) in Hin.
    destruct (Nat.lt_ge_cases x (length h0)) as [Hx|Hx].
    - destruct (nth_error h0 x) as [m|] eqn:E0; [|apply nth_error_None in E0; lia].
      pose proof (inv_len hc D I). destruct (inv_kids hc D x m m' n c I E0 E Hin) as [(_ & H2 & _)|H2]; lia.
    - assert (x < length hc) by (apply nth_error_Some; congruence). rewrite (inv_new hc D I x) in E by lia. injection E as <-. discriminate.
  Qed.
  Lemma inv_leads hc D : Inv hc D -> forall y p x, leads hc y p x -> y < length h0 -> x < length h0 -> exists p', leads h0 y p' x.
  Proof.
    intros I y p x H. induction H as [id m E|id m n c p z E Hin Hl IH]; intros Hy Hx.
    - destruct (nth_error h0 id) as [m0|] eqn:E0; [|apply nth_error_None in E0; lia]. exists []. econstructor; eauto.
    - destruct (nth_error h0 id) as [m0|] eqn:E0; [|apply nth_error_None in E0; lia].
      pose proof (inv_nodup hc D id m I E) as N. apply (in_slookup _ _ _ N) in Hin.
      destruct (inv_kids hc D id m0 m n c I E0 E Hin) as [(H1 & H2 & _)|H2].
      + destruct (IH H2 Hx) as (p' & Hp). exists (n :: p'). econstructor; eauto.
      + exfalso. inversion Hl as [? mc Ec|? mc ? ? ? ? Ec Hc]; subst; [lia|].
        rewrite (inv_new hc D I c H2) in Ec. injection Ec as <-. inversion Hc.
  Qed.
  Lemma cls_of_done hc D x m : Inv hc D -> In x D -> nth_error h0 x = Some m -> cls_of hc x = fc (mcls m).
  Proof. intros I Hd E. destruct (inv_done hc D I x m Hd E) as (m' & E' & ((C & _) & _)). unfold cls_of. now rewrite E', C. Qed.
  Lemma cls_of_todo hc D x : Inv hc D -> x < length h0 -> ~ In x D -> cls_of hc x = cls_of h0 x.
  Proof. intros I Hx Hd. unfold cls_of. now rewrite (inv_todo hc D I x Hx Hd). Qed.

  Definition safe_at (D : list nat) (y : nat) : Prop := skipq = true \/ forall p x, leads h0 y p x -> ~ In x D.

  (** The check at a nested module succeeds when the one at the root did. *)
  Lemma nested_check hc D y q : Inv hc D -> leads h0 root q y -> safe_at D y ->
    (forall x, In x D -> vis h0 root x) -> qable hc y = true.
  Proof.
    intros I Hq Hs Hv. assert (Hy : y < length h0) by (eapply leads_lt; exact Hq).
    pose proof (inv_len hc D I) as HL.
    destruct (modules_listing hc y (inv_ok hc D I) ltac:(lia)) as (memo & l & E & _ & P1 & _).
    unfold quantizable. rewrite E. apply forallb_forall. intros [p x] Hin. cbn [snd]. pose proof (P1 p x Hin) as Hl.
    pose proof (leads_lt _ _ _ _ Hl) as Hx. destruct (Nat.lt_ge_cases x (length h0)) as [Hx0|Hx0].
    - destruct (inv_leads hc D I _ _ _ Hl Hy Hx0) as (p' & Hp').
      destruct (in_dec Nat.eq_dec x D) as [Hd|Hd].
      + destruct Hs as [Hs|Hs]; [|exfalso; eapply Hs; eauto].
        destruct (nth_error h0 x) as [m|] eqn:E0; [|apply nth_error_None in E0; lia].
        rewrite (cls_of_done hc D x m I Hd E0). unfold class_ok.
        destruct (mm (fc (mcls m))) eqn:Em; [reflexivity|].
        assert (Hqm : is_qmodule (fc (mcls m)) = true).
        { pose proof (no_plain x (Hv x Hd)) as Hnp. unfold cls_of in Hnp. rewrite E0 in Hnp.
          revert Em. unfold final_class, target. destruct (skipq && is_qmodule (mcls m)) eqn:Es.
          - intros _. apply andb_true_iff in Es. tauto.
          - destruct (mm (mcls m)) as [[|c']|] eqn:Emm.
            + intros Em. rewrite Emm in Em. discriminate.
            + intros _. apply (targets_quantized _ _ Emm).
            + intros _. destruct Hnp as [Hnp|[_ Hnp]]; [congruence|assumption]. }
        rewrite Hqm, Hs, andb_true_r. now rewrite !orb_true_r.
      + rewrite (cls_of_todo hc D x I Hx0 Hd). apply (supported (q ++ p')). eapply leads_app; eauto.
    - unfold cls_of. rewrite (inv_new hc D I x) by lia. cbn [mcls]. unfold class_ok. rewrite stub_is_quantizer.
      destruct (mm stub_cls); [reflexivity|]. now rewrite orb_true_r.
  Qed.

  (** first phase: the module itself *)
  Lemma convert_one hc D y q : Inv hc D -> leads h0 root q y -> vis h0 root y -> is_quantizer (cls_of h0 y) = false -> safe_at D y ->
    exists h1, (if skipq && is_qmodule (cls_of hc y) then (hc, Ok tt) else qmod hc y) = (h1, Ok tt) /\
      Inv h1 (y :: D) /\ length hc <= length h1.
  Proof.
    intros I Hq Hv Hnq Hs. assert (Hy : y < length h0) by (eapply leads_lt; exact Hq).
    destruct (nth_error h0 y) as [m|] eqn:E0; [|apply nth_error_None in E0; lia].
    destruct (in_dec Nat.eq_dec y D) as [Hd|Hd].
    - (* already converted *)
      assert (Sk : skipq = true). { destruct Hs as [Hs|Hs]; [assumption|]. exfalso. apply (Hs [] y); [econstructor; eauto|assumption]. }
      exists hc. split.
      + rewrite (cls_of_done hc D y m I Hd E0). destruct (skipq && is_qmodule (fc (mcls m))) eqn:Eq; [reflexivity|].
        rewrite Sk in Eq. simpl in Eq. unfold quantize_module. rewrite (cls_of_done hc D y m I Hd E0).
        pose proof (no_plain y Hv) as Hnp. unfold cls_of in Hnp. rewrite E0 in Hnp.
        revert Eq. unfold final_class, target. rewrite Sk. simpl. destruct (is_qmodule (mcls m)) eqn:Eqm; [congruence|].
        destruct (mm (mcls m)) as [[|c']|] eqn:Emm; intros Eq.
        * now rewrite Emm.
        * destruct (targets_quantized _ _ Emm). congruence.
        * destruct Hnp as [Hnp|[_ Hnp]]; congruence.
      + split; [|lia]. split.
        * apply (inv_len hc D I).
        * apply (inv_new hc D I).
        * intros x mx [<-|Hx] Ex; [apply (inv_done hc D I); assumption|apply (inv_done hc D I); assumption].
        * intros x Hx Hn. apply (inv_todo hc D I); [assumption|]. intros H. apply Hn. now right.
        * intros x [<-|Hx]; [auto|now apply (inv_in hc D I)].
        * apply (inv_inj hc D I).
    - assert (Ec : cls_of hc y = mcls m). { rewrite (cls_of_todo hc D y I Hy Hd). unfold cls_of. now rewrite E0. }
      assert (Em : nth_error hc y = Some m) by (rewrite (inv_todo hc D I y Hy Hd); assumption).
      pose proof (no_plain y Hv) as Hnp. unfold cls_of in Hnp. rewrite E0 in Hnp.
      destruct (Hok y m E0) as [N K].
      destruct (tgt (mcls m)) as [c'|] eqn:Et.
      + (* converted now *)
        assert (Hb : skipq && is_qmodule (mcls m) = false /\ mm (mcls m) = Some (To c')).
        { unfold target in Et. destruct (skipq && is_qmodule (mcls m)); [discriminate|]. split; [reflexivity|].
          destruct (mm (mcls m)) as [[|?]|]; congruence. }
        destruct Hb as [Hb1 Hb2].
        set (hu := upd_mod y (fun m => mkM c' (mkids m) (mparams m)) hc).
        assert (Eu : nth_error hu y = Some (mkM c' (mkids m) (mparams m))) by (unfold hu; now rewrite (upd_mod_same _ _ _ _ Em)).
        assert (Lu : length hu = length hc) by apply upd_mod_length.
        destruct (init_quantization_spec y (stub_names c') hu _ Eu N) as (h1 & m1 & F & L & E1 & C & P & N1 & O & S1 & S2 & S3 & S4).
        cbn [mcls mparams mkids] in *.
        exists h1. split.
        { rewrite Ec, Hb1. unfold quantize_module. rewrite Ec, Hb2. unfold init_quantization. fold hu. now rewrite F. }
        pose proof (inv_len hc D I) as HL.
        assert (Hfc : fc (mcls m) = c') by (unfold final_class; now rewrite Et).
        assert (Hat : attrs (mcls m) = stub_names c') by (unfold new_attrs; now rewrite Et).
        assert (Hold : forall j, j < length hc -> j <> y -> nth_error h1 j = nth_error hc j).
        { intros j Hj Hne. rewrite O by lia. unfold hu. now apply upd_mod_other. }
        assert (Hnew : forall j, length h0 <= j < length h1 -> nth_error h1 j = Some stub).
        { intros j Hj. destruct (Nat.lt_ge_cases j (length hc)) as [Hlt|Hge].
          - rewrite Hold by lia. apply (inv_new hc D I). lia.
          - apply S1. lia. }
        assert (Hconv : conv_rec h1 m m1).
        { split; [|split; [assumption|]].
          - split; [congruence|]. split; [assumption|]. rewrite Hat. split; [assumption|].
            intros n Hn. destruct (S3 n Hn) as (s & Hs1 & Hs2). exists s. split; [assumption|]. split; [lia|]. apply S1. lia.
          - intros n n' s H1 H2 Hle.
            assert (X : forall k, slookup k (mkids m1) = Some (Some s) -> In k (stub_names c')).
            { intros k Hk. destruct (in_dec string_dec k (stub_names c')) as [?|Hno]; [assumption|]. rewrite S2 in Hk by assumption.
              apply slookup_in in Hk. pose proof (K _ _ Hk). lia. }
            assert (Hss : length hu <= s). { destruct (S3 n (X n H1)) as (s2 & Hs1 & Hs2). rewrite H1 in Hs1. injection Hs1 as <-. lia. }
            eapply S4; eauto. }
        split; [split|lia].
        * lia.
        * assumption.
        * intros x mx Hx Ex. destruct (Nat.eq_dec x y) as [->|Hne].
          { assert (mx = m) by congruence. subst mx. exists m1. auto. }
          destruct Hx as [Hx|Hx]; [congruence|]. destruct (inv_done hc D I x mx Hx Ex) as (m' & Em' & ((A1 & A2 & A3 & A4) & B & B2)).
          exists m'. split; [rewrite Hold; [assumption|apply nth_error_Some; congruence|assumption]|]. split; [|auto].
          split; [assumption|]. split; [assumption|]. split; [assumption|]. intros n Hn. destruct (A4 n Hn) as (s & G1 & G2 & G3).
          exists s. split; [assumption|]. split; [assumption|]. apply Hnew. split; [assumption|].
          assert (s < length hc) by (apply nth_error_Some; congruence). lia.
        * intros x Hx Hn. rewrite Hold; [apply (inv_todo hc D I); [assumption|intros H; apply Hn; now right]|lia|intros ->; apply Hn; now left].
        * intros x [<-|Hx]; [auto|now apply (inv_in hc D I)].
        * (* distinct new objects *)
          assert (Z : forall x mx n s, nth_error h1 x = Some mx -> length h0 <= s -> slookup n (mkids mx) = Some (Some s) ->
            (x = y /\ length hc <= s) \/ (x <> y /\ nth_error hc x = Some mx /\ s < length hc)).
          { intros x mx n s Ex Hle Hl. destruct (Nat.eq_dec x y) as [->|Hne].
            - left. split; [reflexivity|]. assert (mx = m1) by congruence. subst mx.
              destruct (in_dec string_dec n (stub_names c')) as [Hn|Hn].
              + destruct (S3 n Hn) as (s2 & Hs1 & Hs2). rewrite Hl in Hs1. injection Hs1 as <-. lia.
              + rewrite S2 in Hl by assumption. apply slookup_in in Hl. pose proof (K _ _ Hl). lia.
            - right. split; [assumption|]. assert (Hxl : x < length h1) by (apply nth_error_Some; congruence).
              destruct (Nat.lt_ge_cases x (length hc)) as [Hlt|Hge].
              + rewrite Hold in Ex by assumption. split; [assumption|].
                destruct (inv_ok hc D I x mx Ex) as [_ K2]. apply slookup_in in Hl. eapply K2; eauto.
              + rewrite Hnew in Ex by lia. injection Ex as <-. discriminate. }
          intros x mx n x' mx' n' s Ex Ex' Hle Hl Hl'.
          destruct (Z x mx n s Ex Hle Hl) as [[-> Z1]|(Z1 & Z2 & Z3)]; destruct (Z x' mx' n' s Ex' Hle Hl') as [[-> Z1']|(Z1' & Z2' & Z3')]; try lia.
          eapply (inv_inj hc D I); eauto.
      + (* nothing to convert *)
        exists hc. assert (Hfc : fc (mcls m) = mcls m) by (unfold final_class; now rewrite Et).
        assert (Hat : attrs (mcls m) = []) by (unfold new_attrs; now rewrite Et). split.
        * rewrite Ec. unfold quantize_module. rewrite Ec. unfold target in Et.
          destruct (skipq && is_qmodule (mcls m)) eqn:Es; [reflexivity|].
          destruct (mm (mcls m)) as [[|?]|] eqn:Emm; [reflexivity|discriminate|].
          apply andb_false_iff in Es. destruct Hnp as [Hnp|[Hn1 Hn2]]; [congruence|]. destruct Es; congruence.
        * split; [|lia]. split.
          -- apply (inv_len hc D I).
          -- apply (inv_new hc D I).
          -- intros x mx Hx Ex. destruct (Nat.eq_dec x y) as [->|Hne].
             ++ assert (mx = m) by congruence. subst mx. exists m. split; [assumption|]. split; [|split; [assumption|]].
                ** split; [congruence|]. split; [reflexivity|]. rewrite Hat. split; [reflexivity|easy].
                ** intros n n' s H1 _ Hle. apply slookup_in in H1. pose proof (K _ _ H1). lia.
             ++ destruct Hx as [Hx|Hx]; [congruence|]. now apply (inv_done hc D I).
          -- intros x Hx Hn. apply (inv_todo hc D I); [assumption|]. intros H. apply Hn. now right.
          -- intros x [<-|Hx]; [auto|now apply (inv_in hc D I)].
          -- apply (inv_inj hc D I).
  Qed.

  Hypothesis tree_or_skip : skipq = true \/ one_parent h0 root.

  Lemma vis_leads x z : vis h0 x z -> x < length h0 -> exists p, leads h0 x p z.
  Proof.
    induction 1 as [x|x m n y my z E _ Hin _ Ey _ Hv IH]; intros Hx.
    - destruct (nth_error h0 x) as [m|] eqn:E; [|apply nth_error_None in E; lia]. exists []. econstructor; eauto.
    - destruct IH as (p & Hp); [apply nth_error_Some; congruence|]. exists (n :: p). econstructor; eauto.
  Qed.
  Lemma vis_trans x y z : vis h0 x y -> vis h0 y z -> vis h0 x z.
  Proof. induction 1; intros Hz; [assumption|]. econstructor; eauto. Qed.

  Lemma quantize_rec : forall fuel hc D y q, Inv hc D -> (forall x, In x D -> vis h0 root x) ->
    leads h0 root q y -> vis h0 root y -> is_quantizer (cls_of h0 y) = false ->
    safe_at D y -> rank y < fuel ->
    exists h' D', qmodel fuel true hc y = (h', Ok tt) /\ length hc <= length h' /\ Inv h' D' /\ (forall x, In x D' <-> In x D \/ vis h0 y x).
  Proof.
    induction fuel as [|f IH]; intros hc D y q I HD Hq Hv Hnq Hs Hf; [lia|]. cbn [quantize_model].
    rewrite (nested_check hc D y q I Hq Hs HD). cbn [negb].
    destruct (convert_one hc D y q I Hq Hv Hnq Hs) as (h1 & E1 & I1 & L1). rewrite E1.
    assert (Hy : y < length h0) by (eapply leads_lt; exact Hq).
    destruct (nth_error h0 y) as [m|] eqn:E0; [|apply nth_error_None in E0; lia].
    rewrite (cls_of_done h1 (y :: D) y m I1 (or_introl eq_refl) E0).
    destruct (is_qmodule (fc (mcls m))) eqn:Eq; cbn [andb].
    2:{ exists h1, (y :: D). split; [reflexivity|]. split; [assumption|]. split; [assumption|]. intros x. simpl. split.
        - intros [<-|H]; [right; constructor|now left].
        - intros [H|H]; [now right|]. inversion H as [|? m' n z mz ? Em Hqm]; subst; [now left|]. congruence. }
    destruct (inv_done h1 (y :: D) I1 y m (or_introl eq_refl) E0) as (m1 & Em1 & Hc1). rewrite Em1.
    destruct (named_children_spec m1) as (NC1 & NC2 & NC3).
    pose proof (inv_nodup h1 (y :: D) y m1 I1 Em1) as Nm1.
    (* the loop over the children *)
    assert (L : forall ks done hcur Dcur, named_children m1 = done ++ ks -> length h1 <= length hcur -> Inv hcur Dcur -> (forall x, In x Dcur -> vis h0 root x) ->
      (forall x, In x Dcur <-> In x (y :: D) \/ exists n c, In (n, c) done /\ c < length h0 /\ is_quantizer (cls_of h0 c) = false /\ vis h0 c x) ->
      exists h' D', fold_left (fun st (k : string * nat) =>
                      match st with
                      | (hc, Err e) => (hc, Err e)
                      | (hc, Ok _) => if is_quantizer (cls_of hc (snd k)) then (hc, Ok tt) else qmodel f true hc (snd k)
                      end) ks (hcur, Ok tt) = (h', Ok tt) /\ length h1 <= length h' /\ Inv h' D' /\
        (forall x, In x D' <-> In x (y :: D) \/ exists n c, In (n, c) (named_children m1) /\ c < length h0 /\ is_quantizer (cls_of h0 c) = false /\ vis h0 c x)).
    { induction ks as [|[n c] ks IHk]; intros done hcur Dcur Hd Hlen Icur HDcur Hset.
      - rewrite app_nil_r in Hd. subst done. exists hcur, Dcur. auto.
      - cbn [fold_left snd].
        assert (Hin : In (n, c) (named_children m1)) by (rewrite Hd; apply in_or_app; right; now left).
        pose proof (NC3 n c Hin) as Hkid. apply (in_slookup _ _ _ Nm1) in Hkid.
        destruct (inv_kids h1 (y :: D) y m m1 n c I1 E0 Em1 Hkid) as [(K1 & K2 & K3)|K2].
        + (* an original child *)
          specialize (K3 (or_introl eq_refl)).
          destruct (nth_error h0 c) as [mc|] eqn:Ec; [|apply nth_error_None in Ec; lia].
          assert (Hcq : is_quantizer (cls_of hcur c) = is_quantizer (mcls mc)).
          { destruct (in_dec Nat.eq_dec c Dcur) as [Hcd|Hcd].
            - rewrite (cls_of_done hcur Dcur c mc Icur Hcd Ec). destruct (inv_in hcur Dcur Icur c Hcd) as [_ Hz]. unfold cls_of in Hz. rewrite Ec in Hz.
              rewrite Hz. now apply fc_nonq.
            - rewrite (cls_of_todo hcur Dcur c Icur K2 Hcd). unfold cls_of. now rewrite Ec. }
          rewrite Hcq. destruct (is_quantizer (mcls mc)) eqn:Eqc.
          * apply (IHk (done ++ [(n, c)]) hcur Dcur); [now rewrite <- app_assoc|assumption|assumption|assumption|]. intros x. rewrite Hset. split.
            -- intros [H|(n' & c' & H1 & H2)]; [now left|right; exists n', c'; split; [apply in_or_app; now left|assumption]].
            -- intros [H|(n' & c' & H1 & H2 & H3 & H4)]; [now left|]. apply in_app_or in H1. destruct H1 as [H1|[H1|[]]]; [right; exists n', c'; auto|].
               injection H1 as <- <-. unfold cls_of in H3. rewrite Ec in H3. congruence.
          * assert (Hvc : vis h0 y c). { econstructor; [exact E0|assumption|exact K1|assumption|exact Ec|assumption|constructor]. }
            assert (Hlc : leads h0 root (q ++ [n]) c) by (eapply leads_snoc; eauto).
            assert (Hnqc : is_quantizer (cls_of h0 c) = false) by (unfold cls_of; rewrite Ec; assumption).
            destruct (IH hcur Dcur c (q ++ [n]) Icur HDcur Hlc (vis_trans _ _ _ Hv Hvc) Hnqc) as (h2 & D2 & E2 & HL2 & I2 & Hset2).
            { destruct (Bool.bool_dec skipq true) as [Sk|Sk]; [now left|]. destruct tree_or_skip as [?|Tr]; [contradiction|]. right. intros p x Hlx Hx. apply Hset in Hx.
              assert (Hlyc : leads h0 y [n] c) by (econstructor; eauto; econstructor; eauto).
              destruct Hx as [[<-|Hx]|(n' & c' & Hd' & Hc' & Hq' & Hvx)].
              - destruct (leads_rank _ _ _ _ _ Hrank Hlx) as [->|Hr2]; pose proof (Hrank _ _ _ _ E0 K1); lia.
              - destruct Hs as [Hs|Hs]; [contradiction|]. apply (Hs ([n] ++ p) x); [eapply leads_app; eauto|assumption].
              - destruct (vis_leads _ _ Hvx Hc') as (p' & Hlx').
                assert (Hin' : In (n', c') (named_children m1)) by (rewrite Hd; apply in_or_app; now left).
                pose proof (NC3 n' c' Hin') as Hkid'. apply (in_slookup _ _ _ Nm1) in Hkid'.
                destruct (inv_kids h1 (y :: D) y m m1 n' c' I1 E0 Em1 Hkid') as [(K1' & _ & _)|K2']; [|lia].
                destruct (nth_error h0 c') as [mc'|] eqn:Ec'; [|apply nth_error_None in Ec'; lia].
                assert (Hne : c <> c').
                { intros <-. rewrite Hd, map_app in NC1. cbn [map] in NC1. apply NoDup_remove_2 in NC1. apply NC1. apply in_or_app. left.
                  apply (in_map snd) in Hd'. exact Hd'. }
                assert (Hlc' : leads h0 root (q ++ [n']) c') by (eapply leads_snoc; eauto).
                assert (X : forall a na b nb, a <> b -> In (na, Some a) (mkids m) -> In (nb, Some b) (mkids m) -> leads h0 root (q ++ [na]) a ->
                            forall pp, leads h0 a pp b -> False).
                { intros a na b nb Hab Ha Hb Hla pp Hpp. destruct (leads_last _ _ _ _ Hpp) as [[-> ->]|(pp' & b' & mb' & nn & -> & Hl1 & Eb' & Hin1)]; [congruence|].
                  assert (b' = y). { eapply (Tr _ b' mb' nn _ y m nb b); eauto using leads_app. } subst b'.
                  destruct (leads_rank _ _ _ _ _ Hrank Hl1) as [->|Hr2]; pose proof (Hrank _ _ _ _ E0 Ha); lia. }
                destruct (tree_comparable h0 root Tr p c x Hlx p' c' _ _ Hlx' Hlc Hlc') as [(pp & Hpp)|(pp & Hpp)].
                + eapply (X c n c' n'); eauto.
                + eapply (X c' n' c n); eauto. }
            { pose proof (Hrank _ _ _ _ E0 K1). lia. }
            rewrite E2. apply (IHk (done ++ [(n, c)]) h2 D2); [now rewrite <- app_assoc|lia|assumption| |].
            -- intros x Hx. apply Hset2 in Hx. destruct Hx as [Hx|Hx]; [auto|]. eapply vis_trans; [exact Hv|]. eapply vis_trans; eauto.
            -- intros x. rewrite Hset2, Hset. split.
               ++ intros [[H|(n' & c' & H1 & H2)]|H]; [now left|right; exists n', c'; split; [apply in_or_app; now left|assumption]|].
                  right. exists n, c. split; [apply in_or_app; right; now left|auto].
               ++ intros [H|(n' & c' & H1 & H2 & H3 & H4)]; [left; now left|]. apply in_app_or in H1. destruct H1 as [H1|[H1|[]]].
                  ** left. right. exists n', c'. auto.
                  ** injection H1 as <- <-. now right.
        + (* a new stub *)
          assert (Hst : cls_of hcur c = stub_cls). { unfold cls_of. rewrite (inv_new hcur Dcur Icur c) by lia. reflexivity. }
          rewrite Hst, stub_is_quantizer.
          apply (IHk (done ++ [(n, c)]) hcur Dcur); [now rewrite <- app_assoc|assumption|assumption|assumption|]. intros x. rewrite Hset. split.
          -- intros [H|(n' & c' & H1 & H2)]; [now left|right; exists n', c'; split; [apply in_or_app; now left|assumption]].
          -- intros [H|(n' & c' & H1 & H2 & H3 & H4)]; [now left|]. apply in_app_or in H1. destruct H1 as [H1|[H1|[]]]; [right; exists n', c'; auto|].
             injection H1 as <- <-. lia. }
    destruct (L (named_children m1) [] h1 (y :: D)) as (h' & D' & EL & HL' & I' & Hset').
    - reflexivity.
    - lia.
    - assumption.
    - intros x [<-|Hx]; auto.
    - intros x. split; [now left|]. intros [H|(? & ? & [] & _)]. assumption.
    - exists h', D'. split; [exact EL|]. split; [lia|]. split; [assumption|]. intros x. rewrite Hset'. split.
      + intros [[<-|H]|(n & c & H1 & H2 & H3 & H4)]; [right; constructor|now left|]. right.
        pose proof (NC3 n c H1) as Hkid. apply (in_slookup _ _ _ Nm1) in Hkid.
        destruct (inv_kids h1 (y :: D) y m m1 n c I1 E0 Em1 Hkid) as [(K1 & K2 & K3)|K2]; [|lia].
        destruct (nth_error h0 c) as [mc|] eqn:Ec; [|apply nth_error_None in Ec; lia].
        unfold cls_of in H3. rewrite Ec in H3. econstructor; eauto. apply K3. now left.
      + intros [H|H]; [left; now right|]. inversion H as [|? m' n c mc ? E0' Hqm Hin Hna Ec Hnc Hvc]; subst; [left; now left|].
        right. assert (m' = m) by congruence. subst m'. destruct Hc1 as ((_ & _ & C1 & _) & _).
        assert (Hs2 : slookup n (mkids m1) = Some (Some c)).
        { rewrite (C1 n Hna). apply in_slookup; [apply (Hok y m E0)|assumption]. }
        apply slookup_in in Hs2. assert (Hc : In c (map snd (named_children m1))) by (apply NC2; eauto).
        apply in_map_iff in Hc. destruct Hc as ([n2 c2] & Ec2 & Hc). simpl in Ec2. subst c2. exists n2, c.
        split; [assumption|]. split; [apply nth_error_Some; congruence|]. split; [unfold cls_of; now rewrite Ec|assumption].
  Qed.

  Lemma inv_start : Inv h0 [].
  Proof.
    split.
    - lia.
    - intros; lia.
    - easy.
    - reflexivity.
    - easy.
    - intros x m n x' m' n' s Ex Ex' Hle Hl Hl'. apply slookup_in in Hl. destruct (Hok x m Ex) as [_ K]. pose proof (K _ _ Hl). lia.
  Qed.

  Lemma conversion fuel : rank root < fuel ->
    exists h', qmodel fuel true h0 root = (h', Ok tt) /\
      (forall x m, nth_error h0 x = Some m -> vis h0 root x -> exists m', nth_error h' x = Some m' /\
         converted is_qmodule mm skipq stub_names stub_cls (length h0) h' m m') /\
      (forall x, x < length h0 -> ~ vis h0 root x -> nth_error h' x = nth_error h0 x) /\
      (forall x, length h0 <= x < length h' -> nth_error h' x = Some stub) /\
      (forall x m n x' m' n' s, nth_error h' x = Some m -> nth_error h' x' = Some m' -> length h0 <= s ->
        slookup n (mkids m) = Some (Some s) -> slookup n' (mkids m') = Some (Some s) -> x = x' /\ n = n').
  Proof.
    intros Hf. destruct (nth_error h0 root) as [mr|] eqn:Er; [|apply nth_error_None in Er; lia].
    destruct (quantize_rec fuel h0 [] root [] inv_start) as (h' & D' & E & HL & I & Hset).
    - easy.
    - econstructor; eauto.
    - constructor.
    - assumption.
    - right. easy.
    - assumption.
    - exists h'. split; [assumption|]. split; [|split; [|split]].
      + intros x m Ex Hv. destruct (inv_done h' D' I x m) as (m' & Em' & Hc & _); [apply Hset; now right|assumption|]. eauto.
      + intros x Hx Hn. apply (inv_todo h' D' I x Hx). intros H. apply Hset in H. destruct H as [[]|H]; contradiction.
      + apply (inv_new h' D' I).
      + intros x m n x' m' n' s Ex Ex' Hle Hl Hl'.
        assert (x = x') by (eapply (inv_inj h' D' I); eauto). subst x'. split; [reflexivity|]. assert (m' = m) by congruence. subst m'.
        assert (Hx : x < length h').
        { apply nth_error_Some. congruence. }
        destruct (Nat.lt_ge_cases x (length h0)) as [Hlt|Hge].
        * destruct (nth_error h0 x) as [m0|] eqn:E0; [|apply nth_error_None in E0; lia].
          destruct (in_dec Nat.eq_dec x D') as [Hd|Hd].
          -- destruct (inv_done h' D' I x m0 Hd E0) as (m1 & Em1 & (_ & _ & Hi)). assert (m1 = m) by congruence. subst m1. eapply Hi; eauto.
          -- rewrite (inv_todo h' D' I x Hlt Hd), E0 in Ex. injection Ex as <-. apply slookup_in in Hl. destruct (Hok x m0 E0) as [_ K]. pose proof (K _ _ Hl). lia.
        * rewrite (inv_new h' D' I x) in Ex by lia. injection Ex as <-. discriminate.
  Qed.
End Conv.

Section Check.
  Variables (is_quantizer is_qmodule : nat -> bool) (base_module : nat).
  Variable mm : nat -> option entry.
  Variable skipq : bool.
  Variable stub_names : nat -> list string.
  Variable stub_cls : nat.
  Notation cok := (class_ok is_quantizer is_qmodule base_module mm skipq).
  Lemma quantizable_iff h root : heap_ok h -> root < length h ->
    (quantizable is_quantizer is_qmodule base_module mm skipq h root = true <-> forall p x, leads h root p x -> cok (cls_of h x) = true).
  Proof.
    intros Hok Hr. destruct (modules_listing h root Hok Hr) as (memo & l & E & _ & P1 & P2).
    unfold quantizable. rewrite E. rewrite forallb_forall. split.
    - intros H p x Hl. apply P2 in Hl. apply in_map_iff in Hl. destruct Hl as ([p' x'] & Ex & Hl). simpl in Ex. subst x'. apply (H _ Hl).
    - intros H [p x] Hin. cbn [snd]. eapply H. eapply P1. exact Hin.
  Qed.
  Lemma unsupported_first h root p x fuel recursive : heap_ok h -> leads h root p x -> cok (cls_of h x) = false ->
    quantize_model is_quantizer is_qmodule base_module mm skipq stub_names stub_cls (S fuel) recursive h root = (h, Err QuantizationError).
  Proof.
    intros Hok Hl Hc. cbn [quantize_model].
    assert (Hr : root < length h). { destruct (leads_start _ _ _ _ Hl) as (m & E). apply nth_error_Some. congruence. }
    destruct (quantizable is_quantizer is_qmodule base_module mm skipq h root) eqn:E; [|reflexivity].
    rewrite (quantizable_iff h root Hok Hr) in E. rewrite (E p x Hl) in Hc. discriminate.
  Qed.
End Check.

Lemma conversion_supported isq isqm bm mm sk sn sc h rank root fuel :
  (forall c c', mm c = Some (To c') -> isqm c' = true /\ isq c' = false) -> isq sc = true ->
  heap_ok h -> ranked h rank -> root < length h -> isq (cls_of h root) = false ->
  (forall p x m, leads h root p x -> nth_error h x = Some m -> supported isq isqm bm mm sk (mcls m)) ->
  (forall x m, visits isq isqm mm sk sn h root x -> nth_error h x = Some m ->
     mm (mcls m) <> None \/ (sk = true /\ isqm (mcls m) = true)) ->
  (sk = true \/ one_parent h root) -> rank root < fuel ->
  exists h', quantize_model isq isqm bm mm sk sn sc fuel true h root = (h', Ok tt) /\
    (forall x m, nth_error h x = Some m -> visits isq isqm mm sk sn h root x ->
       exists m', nth_error h' x = Some m' /\ converted isqm mm sk sn sc (length h) h' m m') /\
    (forall x, x < length h -> ~ visits isq isqm mm sk sn h root x -> nth_error h' x = nth_error h x) /\
    (forall x, length h <= x < length h' -> nth_error h' x = Some (mkM sc [] [])) /\
    (forall x m n x' m' n' s, nth_error h' x = Some m -> nth_error h' x' = Some m' -> length h <= s ->
       slookup n (mkids m) = Some (Some s) -> slookup n' (mkids m') = Some (Some s) -> x = x' /\ n = n').
Proof.
  intros H1 H2 H3 H4 H5 H6 H7 H8 H9 H10.
  assert (Hl : forall p x, leads h root p x -> exists m, nth_error h x = Some m) by (intros p x Hx; eapply leads_end; eauto).
  apply (conversion isq isq isqm bm mm sk sn sc H1 H2 h rank root H3 H4 H5 H6).
  - intros p x Hx. destruct (Hl p x Hx) as (m & E). apply class_ok_iff. unfold cls_of. rewrite E. eauto.
  - intros x Hx.
    assert (exists m, nth_error h x = Some m) as (m & E).
    { destruct (nth_error h x) eqn:E; [eauto|]. exfalso. apply nth_error_None in E.
      assert (Hvl : forall a b, visits isq isqm mm sk sn h a b -> a < length h -> b < length h).
      { intros a b Hv. induction Hv as [|a m n y my z _ _ _ _ Ey _ _ IH]; [auto|]. intros _. apply IH. apply nth_error_Some. congruence. }
      pose proof (Hvl _ _ Hx H5). lia. }
    unfold cls_of. rewrite E. eauto.
  - assumption.
  - assumption.
Qed.
Lemma unsupported_first' isq isqm bm mm sk sn sc h root p x m fuel recursive :
  heap_ok h -> leads h root p x -> nth_error h x = Some m -> ~ supported isq isqm bm mm sk (mcls m) ->
  quantize_model isq isqm bm mm sk sn sc (S fuel) recursive h root = (h, Err QuantizationError).
Proof.
  intros Hok Hl E Hn. eapply unsupported_first; eauto. unfold cls_of. rewrite E.
  destruct (class_ok isq isqm bm mm sk (mcls m)) eqn:Ec; [|reflexivity]. apply class_ok_iff in Ec. contradiction.
Qed.
