From Verif Require Import Prelude FlagsModel FlagsSpec.

Definition same_flags (s s' : flags) : Prop := forall f, s f = s' f.

Lemma set_flag_same s f v : set_flag s f v f = v.
Proof. unfold set_flag. now rewrite Nat.eqb_refl. Qed.
Lemma set_flag_other s f v g : g <> f -> set_flag s f v g = s g.
Proof. intros H. unfold set_flag. apply Nat.eqb_neq in H. now rewrite H. Qed.

(** The block flag after the block, for every body whatsoever. *)
Lemma with_restores f v body s vars :
  fst_flags (fexec s vars (FWith f v body FDone)) f = s f.
Proof.
  simpl. unfold ctx_exit. destruct (fexc _); simpl; apply set_flag_same.
Qed.

Lemma with_others f v body s vars g : g <> f ->
  fst_flags (fexec s vars (FWith f v body FDone)) g = fst_flags (fexec (set_flag s f v) vars body) g.
Proof.
  intros H. simpl. unfold ctx_exit. destruct (fexc _); simpl; now apply set_flag_other.
Qed.

Lemma with_inside f v body s vars :
  exists s1, s1 f = v /\ (forall g, g <> f -> s1 g = s g) /\
    flog (fexec s vars (FWith f v body FDone)) = flog (fexec s1 vars body) /\
    fexc (fexec s vars (FWith f v body FDone)) = fexc (fexec s1 vars body).
Proof.
  exists (set_flag s f v). split; [apply set_flag_same|]. split; [intros; now apply set_flag_other|].
  simpl. destruct (fexc (fexec (set_flag s f v) vars body)); simpl; rewrite ?app_nil_r; auto.
Qed.

(** Block-only programs: lexical semantics, and nothing is left behind. *)
Lemma fexec_ext p : forall s s' vars, same_flags s s' -> blocks_only p ->
  same_flags (fst_flags (fexec s vars p)) (fst_flags (fexec s' vars p)) /\
  flog (fexec s vars p) = flog (fexec s' vars p) /\ fexc (fexec s vars p) = fexc (fexec s' vars p) /\
  fvars (fexec s vars p) = vars /\ fvars (fexec s' vars p) = vars.
Proof.
  induction p; intros s s' vars H Hb; simpl in Hb; try contradiction; simpl; auto.
  - destruct (IHp s s' vars H Hb) as (H1 & H2 & H3 & H4 & H5).
    repeat split; auto. now rewrite H2, (H f).
  - destruct Hb as [Hb1 Hb2].
    assert (HS : same_flags (set_flag s f v) (set_flag s' f v)).
    { intros g. unfold set_flag. destruct (g =? f); auto. }
    destruct (IHp1 _ _ vars HS Hb1) as (H1 & H2 & H3 & H4 & H5).
    set (r := fexec (set_flag s f v) vars p1) in *. set (r' := fexec (set_flag s' f v) vars p1) in *.
    rewrite H4, H5.
    assert (HE : same_flags (ctx_exit (fst_flags r) (mkCtx f (s f))) (ctx_exit (fst_flags r') (mkCtx f (s' f)))).
    { intros g. unfold ctx_exit, set_flag. simpl. destruct (g =? f); auto. }
    rewrite <- H3. destruct (fexc r).
    + simpl. repeat split; auto.
    + destruct (IHp2 _ _ vars HE Hb2) as (K1 & K2 & K3 & K4 & K5). simpl. repeat split; auto.
      now rewrite H2, K2.
Qed.

Lemma blocks_lexical p : forall s vars, blocks_only p ->
  same_flags (fst_flags (fexec s vars p)) s /\ (flog (fexec s vars p), fexc (fexec s vars p)) = lexical s p.
Proof.
  induction p; intros s vars Hb; simpl in Hb; try contradiction; simpl.
  - split; [intros f; reflexivity|reflexivity].
  - split; [intros f; reflexivity|reflexivity].
  - destruct (IHp s vars Hb) as [H1 H2]. split; [assumption|].
    rewrite <- H2. reflexivity.
  - destruct Hb as [Hb1 Hb2]. destruct (IHp1 (set_flag s f v) vars Hb1) as [H1 H2].
    set (r := fexec (set_flag s f v) vars p1) in *.
    change (fun g => if g =? f then v else s g) with (set_flag s f v). rewrite <- H2.
    assert (HE : same_flags (ctx_exit (fst_flags r) (mkCtx f (s f))) s).
    { intros g. unfold ctx_exit. simpl. destruct (Nat.eq_dec g f) as [->|Hg].
      - apply set_flag_same.
      - rewrite set_flag_other by assumption. rewrite (H1 g). now apply set_flag_other. }
    destruct (fexc r) eqn:Er; simpl; [auto|].
    destruct (fexec_ext p1 (set_flag s f v) (set_flag s f v) vars) as (_ & _ & _ & Hv & _); [intros g; reflexivity|assumption|].
    fold r in Hv. rewrite Hv.
    destruct (fexec_ext p2 _ _ vars HE Hb2) as (K1 & K2 & K3 & _ & _).
    destruct (IHp2 s vars Hb2) as [L1 L2]. rewrite <- L2, K2, K3. split; [|reflexivity].
    intros g. rewrite K1. apply L1.
Qed.

(** Witnesses *)
Definition reuse_prog : fprog := FNew 0 0 false (FWithVar 0 (FGet 0 FDone) (FWithVar 0 (FGet 0 FDone) FDone)).
Lemma reuse_witness :
  flog (fexec (fun _ => true) (fun _ => None) reuse_prog) = [(0, false); (0, true)].
Proof. reflexivity. Qed.

Definition interleaved : list fevent := [EEnter 1 0 false; EEnter 2 0 true; EExit 1; EExit 2].
Lemma interleaved_witness : erun (fun _ => true) interleaved 0 = false.
Proof. reflexivity. Qed.

Lemma estep_enter s vars b f v :
  estep (s, vars) (EEnter b f v) = (set_flag s f v, fun y => if y =? b then Some (mkCtx f (s f)) else vars y).
Proof. reflexivity. Qed.
Lemma estep_exit s vars b :
  estep (s, vars) (EExit b) = match vars b with Some c => (ctx_exit s c, vars) | None => (s, vars) end.
Proof. reflexivity. Qed.

Lemma fold_erun_vars l : forall bs, nested bs l -> forall s vars b, In b bs ->
  snd (fold_left estep l (s, vars)) b = vars b.
Proof.
  induction 1 as [bs|bs b f v l1 l2 Hb H1 IH1 H2 IH2]; intros s vars b' Hin; [reflexivity|].
  cbn [fold_left]. rewrite fold_left_app. cbn [fold_left]. rewrite estep_enter.
  destruct (fold_left estep l1 (set_flag s f v, fun y => if y =? b then Some (mkCtx f (s f)) else vars y)) as [s1 vars1] eqn:E.
  assert (E1 : forall b'', In b'' (b :: bs) -> vars1 b'' = (if b'' =? b then Some (mkCtx f (s f)) else vars b'')).
  { intros b'' Hb''. pose proof (IH1 (set_flag s f v) (fun y => if y =? b then Some (mkCtx f (s f)) else vars y) b'' Hb'') as Hx.
    rewrite E in Hx. exact Hx. }
  rewrite estep_exit, (E1 b (or_introl eq_refl)), Nat.eqb_refl. rewrite IH2 by assumption.
  rewrite E1 by (now right). destruct (b' =? b) eqn:Eb; [|reflexivity].
  apply Nat.eqb_eq in Eb. subst. contradiction.
Qed.

Lemma nested_restores l : forall bs, nested bs l -> forall s vars g,
  fst (fold_left estep l (s, vars)) g = s g.
Proof.
  induction 1 as [bs|bs b f v l1 l2 Hb H1 IH1 H2 IH2]; intros s vars g; [reflexivity|].
  cbn [fold_left]. rewrite fold_left_app. cbn [fold_left]. rewrite estep_enter.
  set (vars0 := fun y => if y =? b then Some (mkCtx f (s f)) else vars y).
  pose proof (fold_erun_vars l1 _ H1 (set_flag s f v) vars0 b (or_introl eq_refl)) as Hv.
  pose proof (IH1 (set_flag s f v) vars0) as Hf.
  destruct (fold_left estep l1 (set_flag s f v, vars0)) as [s1 vars1]. cbn [fst snd] in *.
  rewrite estep_exit, Hv. unfold vars0. rewrite Nat.eqb_refl. rewrite IH2.
  unfold ctx_exit. simpl. destruct (Nat.eq_dec g f) as [->|Hg]; [apply set_flag_same|].
  rewrite set_flag_other by assumption. rewrite Hf. now apply set_flag_other.
Qed.

(** ** Module-level strict mode *)
Definition same_shape (s s' : sstate) : Prop :=
  sattached s = sattached s' /\ smode s = smode s'.

Lemma scall_spec p : forall s, single s -> non_reentrant p ->
  let r := scall s p in
  same_shape (sst r) s /\
  (slog r, sexc r) = lexical_calls (mode_of s) (sflag s) p /\
  (sexc r = false -> sflag (sst r) = sflag s) /\
  (forall h m, ~ calls m p -> ssaved (sst r) h m = ssaved s h m).
Proof.
  induction p as [| |rest IH|m body IHb rest IHr]; intros s Hs Hn; cbn zeta; simpl.
  - repeat split; auto.
  - repeat split; auto; discriminate.
  - destruct (IH s Hs Hn) as (H1 & H2 & H3 & H4). rewrite <- H2. auto.
  - destruct Hn as (Hm & Hnb & Hnr).
    destruct (Hs m) as [Ea|[h Ea]].
    + assert (Emo : mode_of s m = None) by (unfold mode_of; now rewrite Ea).
      rewrite Emo, Ea. simpl. destruct (IHb s Hs Hnb) as (H1 & H2 & H3 & H4).
      rewrite <- H2. destruct (sexc (scall s body)) eqn:Ex; simpl.
      * split; [assumption|]. split; [reflexivity|]. split; [discriminate|].
        intros h' m' Hc. apply H4. tauto.
      * destruct H1 as [H1a H1b].
        assert (Hs' : single (sst (scall s body))) by (intros m'; rewrite H1a; apply Hs).
        destruct (IHr _ Hs' Hnr) as ((K1a & K1b) & K2 & K3 & K4).
        split; [split; congruence|].
        rewrite <- (H3 eq_refl).
        assert (Hmo : mode_of s = mode_of (sst (scall s body))).
        { unfold mode_of. now rewrite H1a, H1b. }
        rewrite Hmo, <- K2. split; [reflexivity|].
        split; [intros E; apply K3, E|].
        intros h' m' Hc. rewrite K4 by tauto. apply H4. tauto.
    + assert (Emo : mode_of s m = Some (smode s h)) by (unfold mode_of; now rewrite Ea).
      rewrite Emo, Ea. simpl. set (s1 := pre_hook m s h).
      assert (Hs1 : single s1) by (intros m'; apply Hs).
      destruct (IHb s1 Hs1 Hnb) as ((H1a & H1b) & H2 & H3 & H4).
      assert (Hmo1 : mode_of s1 = mode_of s) by reflexivity.
      rewrite Hmo1 in H2. change (sflag s1) with (smode s h) in H2.
      rewrite <- H2. destruct (sexc (scall s1 body)) eqn:Ex; simpl.
      * split; [split; [exact H1a|exact H1b]|]. split; [reflexivity|]. split; [discriminate|].
        intros h' m' Hc. rewrite H4 by tauto. unfold s1, pre_hook. simpl.
        destruct ((h' =? h) && (m' =? m)) eqn:Eb; [|reflexivity].
        apply andb_true_iff in Eb. destruct Eb as [_ Eb]. apply Nat.eqb_eq in Eb. subst. tauto.
      * assert (Hsv : ssaved (sst (scall s1 body)) h m = Some (sflag s)).
        { rewrite H4 by assumption. unfold s1, pre_hook. simpl. now rewrite !Nat.eqb_refl. }
        set (s2 := post_hook m (sst (scall s1 body)) h).
        assert (Es2 : s2 = mkS (sflag s) (smode (sst (scall s1 body))) (ssaved (sst (scall s1 body))) (sattached (sst (scall s1 body)))).
        { unfold s2, post_hook. now rewrite Hsv. }
        assert (Hs2 : single s2) by (intros m'; rewrite Es2; simpl; rewrite H1a; apply Hs).
        destruct (IHr s2 Hs2 Hnr) as ((K1a & K1b) & K2 & K3 & K4).
        assert (Hmo : mode_of s2 = mode_of s) by (unfold mode_of; rewrite Es2; simpl; now rewrite H1a, H1b).
        assert (Hfl : sflag s2 = sflag s) by (now rewrite Es2).
        rewrite Hmo, Hfl in K2. rewrite Hfl in K3.
        split; [split|].
        { rewrite K1a, Es2. simpl. now rewrite H1a. }
        { rewrite K1b, Es2. simpl. now rewrite H1b. }
        rewrite <- K2. split; [reflexivity|]. split; [exact K3|].
        intros h' m' Hc. rewrite K4 by tauto. rewrite Es2. simpl. rewrite H4 by tauto.
        unfold s1, pre_hook. simpl.
        destruct ((h' =? h) && (m' =? m)) eqn:Eb; [|reflexivity].
        apply andb_true_iff in Eb. destruct Eb as [_ Eb]. apply Nat.eqb_eq in Eb. subst. tauto.
Qed.

Lemma lexical_calls_raises mode p : forall flag, ~ raises p -> snd (lexical_calls mode flag p) = false.
Proof.
  induction p as [| |rest IH|m body IHb rest IHr]; intros flag H; simpl in *; auto; try tauto.
  - specialize (IH flag H). destruct (lexical_calls mode flag rest). assumption.
  - specialize (IHb (match mode m with Some v => v | None => flag end) ltac:(tauto)).
    destruct (lexical_calls mode _ body) as [l1 e1]. simpl in IHb. subst e1.
    specialize (IHr flag ltac:(tauto)). destruct (lexical_calls mode flag rest). assumption.
Qed.

Lemma module_strict_scoped s p : single s -> non_reentrant p -> ~ raises p ->
  slog (scall s p) = fst (lexical_calls (mode_of s) (sflag s) p) /\
  sexc (scall s p) = false /\ sflag (sst (scall s p)) = sflag s.
Proof.
  intros Hs Hn Hr. destruct (scall_spec p s Hs Hn) as (_ & H2 & H3 & _).
  pose proof (lexical_calls_raises (mode_of s) p (sflag s) Hr) as H.
  rewrite <- H2 in H |- *. simpl in *. repeat split; auto.
Qed.

Definition s0 (att : nat -> list nat) : sstate := mkS true (fun h => h =? 1) (fun _ _ => None) att.
(** An exception in the module's forward leaves the flag changed. *)
Lemma strict_exception_witness :
  let s := s0 (fun m => if m =? 0 then [0] else []) in
  single s /\ non_reentrant (TCall 0 TRaise TDone) /\ sflag (sst (scall s (TCall 0 TRaise TDone))) = false /\ sflag s = true.
Proof.
  simpl. repeat split; auto. intros m. unfold s0; simpl. destruct (m =? 0); eauto.
Qed.
(** A re-entrant call leaves the flag changed. *)
Lemma strict_reentrant_witness :
  let s := s0 (fun m => if m =? 0 then [0] else []) in
  single s /\ ~ raises (TCall 0 (TCall 0 TDone TDone) TDone) /\
  sflag (sst (scall s (TCall 0 (TCall 0 TDone TDone) TDone))) = false /\ sflag s = true.
Proof.
  simpl. split; [|split; [tauto|split; reflexivity]]. intros m. unfold s0; simpl. destruct (m =? 0); eauto.
Qed.
(** Two handles on one module leave the flag changed. *)
Lemma strict_two_handles_witness :
  let s := s0 (fun m => if m =? 0 then [0; 1] else []) in
  ~ raises (TCall 0 TDone TDone) /\ non_reentrant (TCall 0 TDone TDone) /\
  sflag (sst (scall s (TCall 0 TDone TDone))) = false /\ sflag s = true.
Proof. simpl. repeat split; try tauto; auto. Qed.
