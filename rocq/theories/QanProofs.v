(** The analysis covers every definition that reaches a use, for supported programs. *)
From Verif Require Import Prelude QanModel QanSpec QanInvProofs.
Local Open Scope nat_scope.

Definition prods (a : asgs) (x : nat) : list nat := map fst (get x a).
Definition keys (a : asgs) : list nat := map fst a.

Lemma get_put x l a y : get y (put x l a) = if y =? x then l else get y a.
Proof.
  induction a as [|[z m] a IH]; cbn.
  - reflexivity.
  - destruct (x =? z) eqn:E; cbn.
    + apply Nat.eqb_eq in E. subst z. destruct (y =? x); reflexivity.
    + destruct (y =? z) eqn:E2.
      * apply Nat.eqb_eq in E2. subst z. rewrite Nat.eqb_sym, E. reflexivity.
      * exact IH.
Qed.
Lemma keys_put x l a y : In y (keys (put x l a)) <-> y = x \/ In y (keys a).
Proof.
  induction a as [|[z m] a IH]; cbn.
  - intuition.
  - destruct (x =? z) eqn:E; cbn.
    + apply Nat.eqb_eq in E. subst z. intuition.
    + rewrite IH. intuition.
Qed.
Lemma nodup_put x l a : NoDup (keys a) -> NoDup (keys (put x l a)).
Proof.
  induction a as [|[z m] a IH]; cbn; intros H.
  - repeat constructor. intros [].
  - inversion H as [|? ? H1 H2]; subst. destruct (x =? z) eqn:E; cbn.
    + constructor; assumption.
    + constructor; [|auto]. change (map fst (put x l a)) with (keys (put x l a)). rewrite keys_put. intros [->|Hi]; [|auto].
      rewrite Nat.eqb_refl in E. discriminate.
Qed.
Lemma get_key x a p : In p (prods a x) -> In x (keys a).
Proof.
  unfold prods. intros H. apply in_map_iff in H. destruct H as [[p' o] [_ H]]. apply get_in in H. destruct H as [l [H _]].
  apply in_map_iff. exists (x, l). auto.
Qed.
Lemma get_none x a : ~ In x (keys a) -> get x a = [].
Proof.
  induction a as [|[z m] a IH]; cbn; intros H; [reflexivity|]. destruct (x =? z) eqn:E.
  - apply Nat.eqb_eq in E. subst. tauto.
  - apply IH. tauto.
Qed.

Lemma merge_one_spec h x p o a c : merge_one h x p o a = Ok c ->
  (forall y, incl (prods a y) (prods c y)) /\ In p (prods c x) /\ (forall y, In y (keys c) -> y = x \/ In y (keys a)) /\
  (NoDup (keys a) -> NoDup (keys c)).
Proof.
  unfold merge_one. destruct (find_prod p (get x a)) as [o'|] eqn:E.
  - destruct (Bool.eqb _ _); [|discriminate]. intros [= <-]. split; [intros y; apply incl_refl|split; [|split; auto]].
    apply find_prod_in in E. apply in_map_iff. exists (p, o'). auto.
  - intros [= <-]. split; [|split; [|split]].
    + intros y q Hq. unfold prods in *. rewrite get_put. destruct (y =? x) eqn:Ey; [|exact Hq].
      apply Nat.eqb_eq in Ey. subst y. rewrite map_app, in_app_iff. now left.
    + unfold prods. rewrite get_put, Nat.eqb_refl, map_app, in_app_iff. right. now left.
    + intros y Hy. apply keys_put in Hy. exact Hy.
    + apply nodup_put.
Qed.
Lemma merge_var_spec h x l : forall a c, merge_var h x l a = Ok c ->
  (forall y, incl (prods a y) (prods c y)) /\ incl (map fst l) (prods c x) /\ (forall y, In y (keys c) -> y = x \/ In y (keys a)) /\
  (NoDup (keys a) -> NoDup (keys c)).
Proof.
  induction l as [|[p o] l IH]; cbn; intros a c H.
  - injection H as <-. split; [intros y; apply incl_refl|split; [intros ? []|split; auto]].
  - inv_ok. destruct (merge_one_spec _ _ _ _ _ _ E) as [A1 [A2 [A3 A4]]]. destruct (IH _ _ H) as [B1 [B2 [B3 B4]]].
    split; [intros y; eapply incl_tran; eauto|split; [|split]].
    + intros q [<-|Hq]; [apply B1, A2|apply B2, Hq].
    + intros y Hy. destruct (B3 y Hy) as [->|Hy']; auto.
    + auto.
Qed.
Lemma merge_asgs_spec h b : forall a c, merge_asgs h a b = Ok c ->
  (forall y, incl (prods a y) (prods c y)) /\ (forall y, incl (prods b y) (prods c y)) /\
  (forall y, In y (keys c) -> In y (keys a) \/ In y (keys b)) /\ (NoDup (keys a) -> NoDup (keys c)).
Proof.
  induction b as [|[x l] b IH]; cbn; intros a c H.
  - injection H as <-. split; [intros y; apply incl_refl|split; [intros ? ? []|split; auto]].
  - inv_ok. destruct (merge_var_spec _ _ _ _ _ E) as [A1 [A2 [A3 A4]]]. destruct (IH _ _ H) as [B1 [B2 [B3 B4]]].
    split; [intros y; eapply incl_tran; eauto|split; [|split]].
    + intros y q Hq. unfold prods in Hq. cbn in Hq. destruct (y =? x) eqn:Ey; [|apply B2, Hq].
      apply Nat.eqb_eq in Ey. subst y. apply B1, A2, Hq.
    + intros y Hy. destruct (B3 y Hy) as [Hy'|Hy']; [destruct (A3 y Hy') as [->|?]; auto|auto].
    + auto.
Qed.
Lemma overwrite_spec b : forall a, NoDup (keys b) -> forall y,
  get y (overwrite_asgs a b) = if existsb (Nat.eqb y) (keys b) then get y b else get y a.
Proof.
  induction b as [|[x l] b IH]; cbn; intros a Hn y; [reflexivity|].
  inversion Hn as [|? ? H1 H2]; subst. rewrite (IH _ H2), get_put. destruct (y =? x) eqn:E; cbn; [|reflexivity].
  apply Nat.eqb_eq in E. subst y. destruct (existsb (Nat.eqb x) (keys b)) eqn:E2; [|reflexivity].
  exfalso. apply existsb_exists in E2. destruct E2 as [z [Hz E2]]. apply Nat.eqb_eq in E2. subst z. apply H1. exact Hz.
Qed.
Lemma overwrite_keys b : forall a y, In y (keys (overwrite_asgs a b)) -> In y (keys a) \/ In y (keys b).
Proof.
  induction b as [|[x l] b IH]; cbn; intros a y H; [auto|]. destruct (IH _ _ H) as [H1|H1]; [|auto].
  apply keys_put in H1. intuition.
Qed.
Lemma overwrite_nodup b : forall a, NoDup (keys a) -> NoDup (keys (overwrite_asgs a b)).
Proof. induction b as [|[x l] b IH]; cbn; intros a H; [exact H|]. apply IH, nodup_put, H. Qed.

Lemma existsb_nat x l : existsb (Nat.eqb x) l = true <-> In x l.
Proof.
  rewrite existsb_exists. split; [intros [y [H E]]; apply Nat.eqb_eq in E; now subst|]. intros H. exists x. split; [exact H|apply Nat.eqb_refl].
Qed.

(** ** The bundle of facts about running a piece of the analysis. *)
Section Cover.
  Variable places : list (nat * nat).

  Definition covered (r' : env) (s' : scope) (x : nat) : Prop :=
    exists p q, r' x = Some (p, q) /\ In p (prods (s_asgs s') x).

  Record good_at (N : env -> env -> Prop) (B : list (nat * nat * bool)) (al : nat -> bool) (s s' : scope) : Prop := {
    g_loop : s_loop s' = s_loop s;
    g_rep : s_rep s' = s_rep s;
    g_breaking : s_breaking s' = s_breaking s;
    g_nobreak : s_term s <> Some Break -> s_term s' <> Some Break;
    g_nodup : NoDup (keys (s_asgs s)) -> NoDup (keys (s_asgs s'));
    g_keys : forall x, In x (keys (s_asgs s')) -> In x (keys (s_asgs s)) \/ exists p q, In (p, x, q) B;
    g_term : s_term s = None -> s_term s' <> None -> forall r r', ~ N r r';
    g_gen : s_term s = None -> forall r r', N r r' -> forall x,
      (covered r' s' x \/ (r' x = r x /\ incl (prods (s_asgs s) x) (prods (s_asgs s') x))) /\ (al x = true -> covered r' s' x)
  }.
  Definition good (run : state -> result state) (N : env -> env -> Prop) (B : list (nat * nat * bool)) (al : nat -> bool) : Prop :=
    forall st st' s r, scopes st = s :: r -> run st = Ok st' -> exists s', scopes st' = s' :: r /\ good_at N B al s s'.

  Lemma covered_mono r' s s' x : incl (prods (s_asgs s) x) (prods (s_asgs s') x) -> covered r' s x -> covered r' s' x.
  Proof. intros H [p [q [H1 H2]]]. exists p, q. split; [exact H1|apply H, H2]. Qed.

  Lemma good_id : good (fun st => Ok st) (fun r r' => r' = r) [] (fun _ => false).
  Proof.
    intros st st' s r Hs [= <-]. exists s. split; [exact Hs|]. constructor; auto; try (intros; exfalso; congruence).
    - intros _ r0 r' -> x. split; [right; split; [reflexivity|apply incl_refl]|discriminate].
  Qed.

  Lemma good_seq f g N1 N2 B1 B2 al1 al2 : good f N1 B1 al1 -> good g N2 B2 al2 ->
    good (fun st => let? st1 := f st in g st1) (fun r r' => exists r1, N1 r r1 /\ N2 r1 r') (B1 ++ B2) (fun x => al1 x || al2 x).
  Proof.
    intros Hf Hg st st' s r Hs H. apply rbind_ok in H. destruct H as [st1 [E1 E2]].
    destruct (Hf _ _ _ _ Hs E1) as [s1 [Hs1 F]]. destruct (Hg _ _ _ _ Hs1 E2) as [s2 [Hs2 G]].
    exists s2. split; [exact Hs2|]. destruct F, G. constructor; try congruence; auto.
    - intros x Hx. destruct (g_keys1 x Hx) as [H|[p [q H]]].
      + destruct (g_keys0 x H) as [H'|[p [q H']]]; [auto|]. right. exists p, q. apply in_app_iff. auto.
      + right. exists p, q. apply in_app_iff. auto.
    - intros Ht Ht2 r0 r' [r1 [H1 H2]]. destruct (s_term s1) as [t|] eqn:Es1.
      + eapply (g_term0 Ht); [congruence|exact H1].
      + eapply (g_term1 eq_refl Ht2); exact H2.
    - intros Ht r0 r' [r1 [H1 H2]] x.
      assert (Ht1 : s_term s1 = None).
      { destruct (s_term s1) eqn:Es1; [|reflexivity]. exfalso. eapply (g_term0 Ht); [congruence|exact H1]. }
      destruct (g_gen0 Ht _ _ H1 x) as [A1 A2]. destruct (g_gen1 Ht1 _ _ H2 x) as [C1 C2].
      assert (Hc : covered r1 s1 x -> covered r' s2 x).
      { intros Hc. destruct C1 as [C1|[C1 C3]]; [exact C1|]. destruct (covered_mono _ _ _ _ C3 Hc) as [p [q [Hp Hq]]].
        exists p, q. split; [congruence|exact Hq]. }
      split.
      + destruct C1 as [C1|[C1 C3]]; [auto|]. destruct A1 as [A1|[A1 A3]]; [auto|]. right. split; [congruence|eapply incl_tran; eauto].
      + intros Hal. apply orb_true_iff in Hal. destruct Hal as [Hal|Hal]; auto.
  Qed.

  Lemma good_weaken f N B al (N' : env -> env -> Prop) B' al' : good f N B al -> (forall r r', N' r r' -> N r r') -> incl B B' ->
    (forall x, al' x = true -> al x = true \/ forall r r', ~ N' r r') -> good f N' B' al'.
  Proof.
    intros Hf HN HB Ha st st' s r Hs H. destruct (Hf _ _ _ _ Hs H) as [s' [Hs' F]]. exists s'. split; [exact Hs'|].
    destruct F. constructor; auto.
    - intros x Hx. destruct (g_keys0 x Hx) as [H1|[p [q H1]]]; [auto|]. right. exists p, q. auto.
    - intros Ht Ht' r0 r' Hn. eapply g_term0; eauto.
    - intros Ht r0 r' Hn x. destruct (g_gen0 Ht _ _ (HN _ _ Hn) x) as [A1 A2]. split; [exact A1|]. intros Hal.
      destruct (Ha x Hal) as [H1|H1]; [auto|]. exfalso. eapply H1. exact Hn.
  Qed.

  Lemma good_ext f f' N B al : (forall st, f' st = f st) -> good f N B al -> good f' N B al.
  Proof. intros H Hg st st' s r Hs E. rewrite H in E. eapply Hg; eauto. Qed.

  (** Expressions do not touch scopes. *)
  Lemma scopes_call c st : scopes (eval_call c st) = scopes st.
  Proof.
    unfold eval_call. destruct (returns c); [|reflexivity]. revert st. induction (bound c) as [|[[x|] [|]] l IH]; intros st; cbn [fold_left]; try reflexivity; try apply IH.
    rewrite IH. unfold ensure. generalize (lookup st x). intros l0. revert st. induction l0 as [|po l0 IH0]; cbn; intros st; [reflexivity|].
    rewrite IH0. apply ensure_one_scopes.
  Qed.
  Lemma scopes_expr e st : scopes (eval_expr e st) = scopes st.
  Proof.
    destruct e as [cs|c]; cbn; [|apply scopes_call]. revert st. induction cs as [|c cs IH]; cbn; intros st; [reflexivity|].
    rewrite IH. apply scopes_call.
  Qed.
  Lemma scopes_exprs es st : scopes (eval_exprs es st) = scopes st.
  Proof.
    unfold eval_exprs. revert st. induction es as [|c cs IH]; cbn; intros st; [reflexivity|]. rewrite IH. apply scopes_expr.
  Qed.
  Lemma good_pre f g N B al : (forall st, scopes (g st) = scopes st) -> good f N B al -> good (fun st => f (g st)) N B al.
  Proof. intros H Hf st st' s r Hs E. eapply Hf; [|exact E]. rewrite H. exact Hs. Qed.

  (** Recording binds. *)
  Lemma good_record x p q : good (record x p q) (fun r r' => exists b, r' = set x (p, b) r) [(p, x, q)] (Nat.eqb x).
  Proof.
    intros st st' s r Hs. unfold record, active. rewrite Hs. cbn [hd]. destruct (s_term s) eqn:Et; [discriminate|].
    assert (Hgen : forall s', s_term s' = None -> s_loop s' = s_loop s -> s_rep s' = s_rep s -> s_breaking s' = s_breaking s ->
      (NoDup (keys (s_asgs s)) -> NoDup (keys (s_asgs s'))) ->
      (forall y, In y (keys (s_asgs s')) -> y = x \/ In y (keys (s_asgs s))) -> In p (prods (s_asgs s') x) ->
      (forall y, y <> x -> incl (prods (s_asgs s) y) (prods (s_asgs s') y)) ->
      good_at (fun r r' => exists b, r' = set x (p, b) r) [(p, x, q)] (Nat.eqb x) s s').
    { intros s' T1 T2 T3 T4 T5 T6 T7 T8. constructor; auto; try congruence.
      - intros y Hy. destruct (T6 y Hy) as [->|Hy']; [|auto]. right. exists p, q. now left.
      - intros _ r0 r' [b ->] y. unfold covered, set. destruct (y =? x) eqn:E.
        + apply Nat.eqb_eq in E. subst y. split; [left|intros _]; exists p, b; auto.
        + split; [right; split; [reflexivity|]|].
          * apply T8. intros ->. rewrite Nat.eqb_refl in E. discriminate.
          * intros E2. apply Nat.eqb_eq in E2. subst y. rewrite Nat.eqb_refl in E. discriminate. }
    destruct (find_prod p (get x (s_asgs s))) as [o|] eqn:Ef; intros [= <-].
    - exists s. split; [reflexivity|]. apply Hgen; auto.
      + apply find_prod_in in Ef. apply in_map_iff. exists (p, o). auto.
      + intros y _. apply incl_refl.
    - exists (with_asgs s (put x [(p, length (heap st))] (s_asgs s))). split.
      { reflexivity. }
      apply Hgen; cbn; auto.
      + apply nodup_put.
      + intros y Hy. apply keys_put in Hy. exact Hy.
      + unfold prods. rewrite get_put, Nat.eqb_refl. now left.
      + intros y Hy. unfold prods. rewrite get_put. destruct (y =? x) eqn:E; [apply Nat.eqb_eq in E; contradiction|apply incl_refl].
  Qed.

  (** Binding a list of variables by one node, with any values. *)
  Inductive binds_list (p : nat) : list nat -> env -> env -> Prop :=
  | bl_nil r : binds_list p [] r r
  | bl_cons x b xs r r' : binds_list p xs (set x (p, b) r) r' -> binds_list p (x :: xs) r r'.

  Lemma good_record_all xs p q : good (record_all xs p q) (binds_list p xs) (map (fun x => (p, x, q)) xs) (fun x => existsb (Nat.eqb x) xs).
  Proof.
    induction xs as [|x xs IH].
    - eapply good_weaken; [apply good_id| | |]; cbn.
      + intros r r' H. inversion H; reflexivity.
      + apply incl_refl.
      + discriminate.
    - eapply good_weaken; [exact (good_seq _ _ _ _ _ _ _ _ (good_record x p q) IH)| | |]; cbn.
      + intros r r' H. inversion H; subst. eexists. split; [eexists; reflexivity|eassumption].
      + apply incl_refl.
      + intros y Hy. left. rewrite Nat.eqb_sym. exact Hy.
  Qed.
  Lemma bind_all_list p q xs : forall r, binds_list p xs r (bind_all places xs p q r).
  Proof. induction xs as [|x xs IH]; cbn; intros r; [constructor|]. econstructor. apply IH. Qed.

  Lemma good_process p part : good (process p part) (binds_list p (bound_names (fst part))) (part_binds p part) (fun x => existsb (Nat.eqb x) (bound_names (fst part))).
  Proof.
    destruct part as [ts e]. unfold process, part_binds. cbn [fst snd]. destruct e as [cs|c].
    - apply good_record_all.
    - destruct ts as [|t [|t' ts]].
      + intros st st' s r _ H. discriminate.
      + cbn [gives_quantized]. apply good_record_all.
      + intros st st' s r _ H. discriminate.
  Qed.
  Lemma good_process_all p parts : good (process_all p parts) (fun r r' => r' = bind_parts places p parts r) (flat_map (part_binds p) parts)
    (fun x => existsb (Nat.eqb x) (flat_map (fun a => bound_names (fst a)) parts)).
  Proof.
    induction parts as [|[ts e] parts IH].
    - eapply good_weaken; [apply good_id| | |]; cbn; auto.
      + apply incl_refl.
    - eapply good_weaken; [exact (good_seq _ _ _ _ _ _ _ _ (good_process p (ts, e)) IH)| | |]; cbn.
      + intros r r' ->. eexists. split; [apply bind_all_list|reflexivity].
      + apply incl_refl.
      + intros y Hy. left. rewrite existsb_app in Hy. exact Hy.
  Qed.

  Inductive binds_items : list (nat * list nat * expr) -> env -> env -> Prop :=
  | bi_nil r : binds_items [] r r
  | bi_cons p xs e items r r' : binds_items items (bind_item places p xs r) r' -> binds_items ((p, xs, e) :: items) r r'.
  Lemma bind_item_list p xs r : binds_list p xs r (bind_item places p xs r).
  Proof.
    unfold bind_item. destruct xs as [|x [|y xs]].
    - constructor.
    - apply bind_all_list.
    - generalize (x :: y :: xs). clear. intros l. revert r. induction l as [|x l IH]; cbn; intros r; [constructor|]. econstructor. apply IH.
  Qed.
  Lemma good_items items : good (eval_items items) (binds_items items)
    (flat_map (fun it : nat * list nat * expr => map (fun x => (fst (fst it), x, false)) (snd (fst it))) items)
    (fun x => existsb (Nat.eqb x) (flat_map (fun it => snd (fst it)) items)).
  Proof.
    induction items as [|[[p xs] e] items IH].
    - eapply good_weaken; [apply good_id| | |]; cbn.
      + intros r r' H. inversion H; reflexivity.
      + apply incl_refl.
      + discriminate.
    - eapply good_weaken; [exact (good_seq _ _ _ _ _ _ _ _ (good_record_all xs p false) IH)| | |]; cbn.
      + intros r r' H. inversion H; subst. eexists. split; [apply bind_item_list|eassumption].
      + apply incl_refl.
      + intros y Hy. left. rewrite existsb_app in Hy. exact Hy.
  Qed.

  (** Ending a block. *)
  Lemma good_terminate t f B al : (forall st, scopes (f st) = scopes st) -> t <> Break ->
    good (fun st => terminate t (f st)) (fun _ _ => False) B al.
  Proof.
    intros Hf Ht st st' s r Hs H.
    assert (E : st' = set_active (f st) (with_term (active (f st)) (Some t))).
    { unfold terminate in H. destruct t; [injection H as <-; reflexivity|congruence|injection H as <-; reflexivity]. }
    assert (Ea : active (f st) = s) by (unfold active; rewrite Hf, Hs; reflexivity).
    exists (with_term s (Some t)). split.
    - rewrite E, Ea. unfold set_active. cbn. rewrite Hf, Hs. reflexivity.
    - constructor; cbn; auto; try tauto. intros _. congruence.
  Qed.

  (** If statements. *)
  Lemma leaves_some t : leaves t = true -> t <> None.
  Proof. destruct t; [discriminate|discriminate]. Qed.

  Lemma merge_inplace_spec t st st' s r : scopes st = s :: r -> merge_inplace t st = Ok st' -> (s_loop t = true -> s_breaking t = []) ->
    exists s', scopes st' = s' :: r /\ s_loop s' = s_loop s /\ s_rep s' = s_rep s /\ s_breaking s' = s_breaking s /\ s_term s' = s_term s /\
      (NoDup (keys (s_asgs s)) -> NoDup (keys (s_asgs s'))) /\
      (forall y, In y (keys (s_asgs s')) -> In y (keys (s_asgs s)) \/ In y (keys (s_asgs t))) /\
      (forall y, incl (prods (s_asgs s) y) (prods (s_asgs s') y)) /\
      (leaves (s_term s) = false -> leaves (s_term t) = false -> forall y, incl (prods (s_asgs t) y) (prods (s_asgs s') y)).
  Proof.
    intros Hs. unfold merge_inplace. replace (active st) with s by (unfold active; rewrite Hs; reflexivity).
    destruct (leaves (s_term s)) eqn:L1; [|destruct (leaves (s_term t)) eqn:L2]; cbn [orb].
    1,2: intros [= <-] _; exists s; repeat (split; [auto; fail|]); repeat split; auto; try discriminate; intros y; apply incl_refl.
    intros H Hb. apply rbind_ok in H. destruct H as [a [E H]]. injection H as <-.
    unfold merge_scopes in E. apply rbind_ok in E. destruct E as [a0 [E E2]].
    assert (a = a0).
    { destruct (s_loop t); [|congruence]. rewrite (Hb eq_refl) in E2. cbn in E2. congruence. }
    subst a0. destruct (merge_asgs_spec _ _ _ _ E) as [A1 [A2 [A3 A4]]].
    exists (with_asgs s a). split; [unfold set_active; rewrite Hs; reflexivity|]. cbn. repeat split; auto.
  Qed.

  Lemma good_if e run o exh N1 N2 B1 B2 al1 al2 :
    good run N1 B1 al1 ->
    match o with Some run2 => good run2 N2 B2 al2 | None => exh = false /\ (forall r r', N2 r r' -> r' = r) /\ (forall x, al2 x = false) end ->
    (exh = true -> forall p x q, In (p, x, q) (B1 ++ B2) -> al1 x = true /\ al2 x = true) ->
    good (eval_if e run o exh) (fun r r' => N1 r r' \/ N2 r r') (B1 ++ B2) (fun x => al1 x && al2 x).
  Proof.
    intros G1 G2 Hbal st st' s r Hs H. unfold eval_if in H. apply rbind_ok in H. destruct H as [st1 [E1 H]].
    destruct (G1 (push false (eval_expr e st)) st1 (empty_scope false (s_rep (active (eval_expr e st)))) (s :: r)) as [T [HT F1]]; [|exact E1|].
    { unfold push. cbn. rewrite scopes_expr, Hs. reflexivity. }
    replace (active st1) with T in H by (unfold active; rewrite HT; reflexivity).
    assert (Hp1 : scopes (pop st1) = s :: r) by (unfold pop; cbn; rewrite HT; reflexivity).
    destruct F1 as [a1 a2 a3 a4 a5 a6 a7 a8]. cbn in a1, a2, a3, a4, a5, a6, a7, a8.
    destruct o as [run2|].
    - apply rbind_ok in H. destruct H as [st2 [E2 H]]. apply rbind_ok in H. destruct H as [m [E3 H]].
      destruct (G2 (push false (pop st1)) st2 (empty_scope false (s_rep (active (pop st1)))) (s :: r)) as [F [HF F2]]; [|exact E2|].
      { unfold push. cbn [scopes]. rewrite Hp1. reflexivity. }
      replace (active st2) with F in E3 by (unfold active; rewrite HF; reflexivity).
      assert (Hp2 : scopes (pop st2) = s :: r) by (unfold pop; cbn; rewrite HF; reflexivity).
      destruct F2 as [b1 b2 b3 b4 b5 b6 b7 b8]. cbn in b1, b2, b3, b4, b5, b6, b7, b8.
      assert (Hm : s_loop m = false /\ NoDup (keys (s_asgs m)) /\
        (forall y, In y (keys (s_asgs m)) -> exists p q, In (p, y, q) (B1 ++ B2)) /\
        (leaves (s_term T) = false -> forall y, incl (prods (s_asgs T) y) (prods (s_asgs m) y)) /\
        (leaves (s_term F) = false -> forall y, incl (prods (s_asgs F) y) (prods (s_asgs m) y)) /\
        (leaves (s_term T) = false \/ leaves (s_term F) = false -> leaves (s_term m) = false)).
      { assert (K1 : forall y, In y (keys (s_asgs T)) -> exists p q, In (p, y, q) (B1 ++ B2)).
        { intros y Hy. destruct (a6 y Hy) as [[]|[p [q Hq]]]. exists p, q. apply in_app_iff. auto. }
        assert (K2 : forall y, In y (keys (s_asgs F)) -> exists p q, In (p, y, q) (B1 ++ B2)).
        { intros y Hy. destruct (b6 y Hy) as [[]|[p [q Hq]]]. exists p, q. apply in_app_iff. auto. }
        assert (ND1 : NoDup (keys (s_asgs T))) by (apply a5; constructor).
        assert (ND2 : NoDup (keys (s_asgs F))) by (apply b5; constructor).
        unfold merge in E3. destruct (leaves (s_term T)) eqn:L1, (leaves (s_term F)) eqn:L2.
        - injection E3 as <-. cbn. repeat split; auto; try discriminate; try constructor. intros y [].
        - injection E3 as <-. repeat split; auto; try discriminate. intros _ y. apply incl_refl.
        - injection E3 as <-. repeat split; auto; try discriminate. intros _ y. apply incl_refl.
        - apply rbind_ok in E3. destruct E3 as [a [E3 Em]]. injection Em as <-. unfold merge_scopes in E3.
          apply rbind_ok in E3. destruct E3 as [a0 [E3 Em]]. rewrite b1 in Em. injection Em as ->.
          destruct (merge_asgs_spec _ _ _ _ E3) as [A1 [A2 [A3 A4]]]. cbn. repeat split; auto.
          intros y Hy. destruct (A3 y Hy); auto. }
      destruct Hm as [M1 [M2 [M3 [M4 [M5 M6]]]]].
      assert (NT : forall r0 r', N1 r0 r' -> leaves (s_term T) = false).
      { intros r0 r' Hn. destruct (leaves (s_term T)) eqn:L; [|reflexivity]. exfalso. eapply a7; [reflexivity|apply leaves_some, L|exact Hn]. }
      assert (NF : forall r0 r', N2 r0 r' -> leaves (s_term F) = false).
      { intros r0 r' Hn. destruct (leaves (s_term F)) eqn:L; [|reflexivity]. exfalso. eapply b7; [reflexivity|apply leaves_some, L|exact Hn]. }
      (* what either branch leaves, in terms of the merged scope *)
      assert (GM : forall r0 r', N1 r0 r' \/ N2 r0 r' -> forall x,
         (covered r' m x \/ r' x = r0 x) /\ (al1 x && al2 x = true -> covered r' m x) /\
         (exh = true -> In x (keys (s_asgs m)) -> covered r' m x)).
      { intros r0 r' Hn x. assert (Hcm : forall sc, (forall y, incl (prods (s_asgs sc) y) (prods (s_asgs m) y)) -> covered r' sc x -> covered r' m x).
        { intros sc Hi. apply covered_mono, Hi. }
        destruct Hn as [Hn|Hn].
        - destruct (a8 eq_refl _ _ Hn x) as [C1 C2]. pose proof (Hcm T (M4 (NT _ _ Hn))) as Hc.
          split; [destruct C1 as [C1|[C1 _]]; auto|]. split.
          + intros Ha. apply andb_true_iff in Ha. destruct Ha. auto.
          + intros He Hk. destruct (M3 x Hk) as [p [q Hq]]. destruct (Hbal He _ _ _ Hq) as [Ha _]. auto.
        - destruct (b8 eq_refl _ _ Hn x) as [C1 C2]. pose proof (Hcm F (M5 (NF _ _ Hn))) as Hc.
          split; [destruct C1 as [C1|[C1 _]]; auto|]. split.
          + intros Ha. apply andb_true_iff in Ha. destruct Ha. auto.
          + intros He Hk. destruct (M3 x Hk) as [p [q Hq]]. destruct (Hbal He _ _ _ Hq) as [_ Ha]. auto. }
      assert (LM : forall r0 r', N1 r0 r' \/ N2 r0 r' -> leaves (s_term m) = false).
      { intros r0 r' [Hn|Hn]; apply M6; [left; eapply NT; eauto|right; eapply NF; eauto]. }
      destruct exh.
      + injection H as <-. unfold overwrite, set_active. rewrite Hp2. cbn [scopes pop heap anns].
        replace (active (pop st2)) with s by (unfold active; rewrite Hp2; reflexivity).
        eexists. split; [reflexivity|]. constructor; cbn; auto.
        * apply overwrite_nodup.
        * intros x Hx. destruct (overwrite_keys _ _ _ Hx); auto.
        * intros Hterm r0 r' Hn x. destruct (GM r0 r' Hn x) as [C1 [C2 C3]].
          unfold covered in *. cbn. unfold prods in *. rewrite (overwrite_spec _ _ M2).
          destruct (existsb (Nat.eqb x) (keys (s_asgs m))) eqn:Ek.
          -- apply existsb_nat in Ek. split; auto.
          -- assert (Hno : ~ exists p q, r' x = Some (p, q) /\ In p (map fst (get x (s_asgs m)))).
             { intros [p [q [_ Hp]]]. apply (get_key x _ p) in Hp. apply existsb_nat in Hp. congruence. }
             split; [right; split; [tauto|apply incl_refl]|]. intros Ha. exfalso. apply Hno, C2, Ha.
      + destruct (merge_inplace_spec m (pop st2) st' s r Hp2 H) as [s' [S0 [S1 [S2 [S3 [S4 [S5 [S6 [S7 S8]]]]]]]]]; [congruence|].
        exists s'. split; [exact S0|]. constructor; auto; try congruence.
        * intros x Hx. destruct (S6 x Hx); auto.
        * intros Hterm r0 r' Hn x. destruct (GM r0 r' Hn x) as [C1 [C2 _]].
          assert (Hi : forall y, incl (prods (s_asgs m) y) (prods (s_asgs s') y)).
          { apply S8; [rewrite Hterm; reflexivity|eapply LM; eauto]. }
          split; [destruct C1 as [C1|C1]; [left; eapply covered_mono; [apply Hi|exact C1]|right; split; [exact C1|apply S7]]|].
          intros Ha. eapply covered_mono; [apply Hi|apply C2, Ha].
    - destruct G2 as [-> [G2 G3]].
      destruct (merge_inplace_spec T (pop st1) st' s r Hp1 H) as [s' [S0 [S1 [S2 [S3 [S4 [S5 [S6 [S7 S8]]]]]]]]]; [congruence|].
      exists s'. split; [exact S0|]. constructor; auto; try congruence.
      + intros x Hx. destruct (S6 x Hx) as [H1|H1]; [auto|]. destruct (a6 x H1) as [[]|[p [q Hq]]]. right. exists p, q. apply in_app_iff. auto.
      + intros Hterm r0 r' Hn x. split; [|rewrite G3, andb_false_r; discriminate].
        destruct Hn as [Hn|Hn]; [|right; split; [rewrite (G2 _ _ Hn); reflexivity|apply S7]].
        assert (LT : leaves (s_term T) = false).
        { destruct (leaves (s_term T)) eqn:L; [|reflexivity]. exfalso. eapply a7; [reflexivity|apply leaves_some, L|exact Hn]. }
        destruct (a8 eq_refl _ _ Hn x) as [[C1|[C1 _]] _].
        * left. eapply covered_mono; [|exact C1]. apply S8; [rewrite Hterm; reflexivity|exact LT].
        * right. split; [exact C1|apply S7].
  Qed.

  (** Loops: [visit] is one visit of the body. *)
  Inductive iter (N : env -> env -> Prop) : env -> env -> Prop :=
  | it_done r : iter N r r
  | it_step r r1 r' : N r r1 -> iter N r1 r' -> iter N r r'.

  Lemma iter_cover (N : env -> env -> Prop) s2 : (forall r r', N r r' -> forall x, covered r' s2 x \/ r' x = r x) ->
    forall r r', iter N r r' -> forall x, covered r' s2 x \/ r' x = r x.
  Proof.
    intros HN r r' H. induction H as [r|r r1 r' H1 H2 IH]; intros x; [auto|].
    destruct (IH x) as [C|C]; [auto|]. destruct (HN _ _ H1 x) as [[p [q [Ha Hb]]]|C2].
    - left. exists p, q. split; [congruence|exact Hb].
    - right. congruence.
  Qed.
  Lemma iter_none (N : env -> env -> Prop) : (forall r r', ~ N r r') -> forall r r', iter N r r' -> r' = r.
  Proof. intros HN r r' H. destruct H as [r|r r1 r' H1 _]; [reflexivity|]. exfalso. eapply HN; eauto. Qed.

  (** The scope that a loop leaves behind, after both visits. *)
  Lemma good_again v N B al : good v N B al -> good (again v) (fun _ _ => False) B (fun _ => false).
  Proof.
    intros G st st' s r Hs H. unfold again in H. replace (active st) with s in H by (unfold active; rewrite Hs; reflexivity).
    destruct (s_term s) eqn:Et.
    - injection H as <-. exists s. split; [exact Hs|]. constructor; auto; try tauto. 
    - apply rbind_ok in H. destruct H as [st1 [E H]]. injection H as <-.
      destruct (G (set_rep true st) st1 (with_rep s true) r) as [s1 [Hs1 F]]; [|exact E|].
      { unfold set_rep, set_active. rewrite Hs. cbn. unfold active. rewrite Hs. reflexivity. }
      exists (with_rep s1 (s_rep s)). split.
      { unfold set_rep, set_active, active. rewrite Hs1. reflexivity. }
      destruct F as [a1 a2 a3 a4 a5 a6 a7 a8]. cbn in *. constructor; cbn; auto; try tauto.
  Qed.

  Lemma good_loop pre v1 v2 N B al : (forall st, scopes (pre st) = scopes st) ->
    good v1 N B al -> good v2 N B al ->
    good (fun st => let? st1 := v1 (push true (pre st)) in let? st2 := again v2 st1 in merge_inplace (active st2) (pop st2))
      (iter N) B (fun _ => false).
  Proof.
    intros Hpre G1 G2 st st' s r Hs H.
    apply rbind_ok in H. destruct H as [st1 [E1 H]]. apply rbind_ok in H. destruct H as [st2 [E2 H]].
    destruct (G1 (push true (pre st)) st1 (empty_scope true (s_rep (active (pre st)))) (s :: r)) as [s1 [H1 F1]]; [|exact E1|].
    { unfold push. cbn. rewrite Hpre, Hs. reflexivity. }
    destruct (good_again _ _ _ _ G2 _ _ _ _ H1 E2) as [s2 [H2 F2]].
    replace (active st2) with s2 in H by (unfold active; rewrite H2; reflexivity).
    assert (Hp : scopes (pop st2) = s :: r) by (unfold pop; cbn; rewrite H2; reflexivity).
    destruct F1 as [a1 a2 a3 a4 a5 a6 a7 a8]. cbn in a1, a2, a3, a4, a5, a6, a7, a8.
    destruct F2 as [b1 b2 b3 b4 b5 b6 b7 b8].
    destruct (merge_inplace_spec s2 (pop st2) st' s r Hp H) as [s' [S0 [S1 [S2 [S3 [S4 [S5 [S6 [S7 S8]]]]]]]]]; [congruence|].
    exists s'. split; [exact S0|]. constructor; auto; try congruence.
    - intros x Hx. destruct (S6 x Hx) as [K|K]; [auto|]. destruct (b6 x K) as [K2|K2]; [|auto]. destruct (a6 x K2) as [[]|K3]. auto.
    - intros Hterm r0 r' Hn x. split; [|discriminate].
      assert (Hright : (forall a b, ~ N a b) -> covered r' s' x \/ (r' x = r0 x /\ incl (prods (s_asgs s) x) (prods (s_asgs s') x))).
      { intros HN. right. split; [|apply S7]. rewrite (iter_none _ HN _ _ Hn). reflexivity. }
      unfold again in E2. replace (active st1) with s1 in E2 by (unfold active; rewrite H1; reflexivity).
      destruct (s_term s1) eqn:Et1.
      { apply Hright. intros a b. apply (a7 eq_refl). congruence. }
      apply rbind_ok in E2. destruct E2 as [st3 [E2 E3]]. injection E3 as E3.
      destruct (G2 (set_rep true st1) st3 (with_rep s1 true) (s :: r)) as [s3 [Hs3 F3]]; [|exact E2|].
      { unfold set_rep, set_active. rewrite H1. cbn. unfold active. rewrite H1. reflexivity. }
      assert (Es2 : s2 = with_rep s3 (s_rep s1)).
      { rewrite <- E3 in H2. unfold set_rep, set_active, active in H2. rewrite Hs3 in H2. cbn in H2. congruence. }
      destruct F3 as [c1 c2 c3 c4 c5 c6 c7 c8]. cbn in c1, c2, c3, c4, c5, c6, c7, c8.
      destruct (leaves (s_term s2)) eqn:L2.
      { apply Hright. intros a b. apply (c7 Et1). rewrite Es2 in L2. cbn in L2. apply leaves_some, L2. }
      destruct (iter_cover N s2) with (r := r0) (r' := r') (x := x) as [C|C]; [|exact Hn| |].
      + intros a b Hab y. rewrite Es2. destruct (c8 Et1 a b Hab y) as [[D1|[D1 _]] _]; auto.
      + left. eapply covered_mono; [|exact C]. apply S8; [rewrite Hterm; reflexivity|reflexivity].
      + right. split; [exact C|apply S7].
  Qed.

  (** No break or continue leaves supported code. *)
  Lemma no_jump :
    (forall s, stmt_supported s -> forall r out, run_stmt places r s out -> forall r', out <> Broke r' /\ out <> Continued r') /\
    (forall b, block_supported b -> forall r out, run_block places r b out -> forall r', out <> Broke r' /\ out <> Continued r') /\
    (forall o, orelse_supported o -> forall r out, run_orelse places r o out -> forall r', out <> Broke r' /\ out <> Continued r') /\
    (forall hs : blocks, True).
  Proof.
    assert (Hloop : forall r h b out, run_loop places r h b out -> forall r', out <> Broke r' /\ out <> Continued r').
    { clear. intros r h b out H. induction H; intros r'; auto; try (split; discriminate). destruct out; try contradiction; split; discriminate. }
    assert (Hwith : forall b, (forall r out, run_block places r b out -> forall r', out <> Broke r' /\ out <> Continued r') ->
      forall r items out, run_with places r items b out -> forall r', out <> Broke r' /\ out <> Continued r').
    { clear. intros b Hb r items out H. induction H; intros r'; eauto; try (split; discriminate). }
    apply syntax_ind; cbn; try (intros; contradiction); auto.
    - intros e _ r out H. inversion H; subst; split; discriminate.
    - intros p parts _ r out H. inversion H; subst; split; discriminate.
    - intros e b IHb o IHo [_ [Sb So]] r out H r'. inversion H; subst; [split; discriminate|eapply IHb; eauto|eapply IHo; eauto].
    - intros p xs e b IHb els Sb r out H r'. inversion H; subst; [split; discriminate|eapply Hloop; eauto].
    - intros e b IHb els Sb r out H r'. inversion H; subst. eapply Hloop; eauto.
    - intros items b IHb [_ Sb] r out H r'. inversion H; subst. eapply Hwith; eauto.
    - intros es _ r out H. inversion H; subst; split; discriminate.
    - intros es _ r out H. inversion H; subst; split; discriminate.
    - intros _ r out H. inversion H; subst; split; discriminate.
    - intros s IHs b IHb [Ss Sb] r out H r'. inversion H; subst; [eapply IHb; eauto|eapply IHs; eauto].
    - intros _ r out H. inversion H; subst; split; discriminate.
    - intros b IHb Sb r out H r'. inversion H; subst. eapply IHb; eauto.
    - intros e b IHb o IHo [_ [Sb So]] r out H r'. inversion H; subst; [split; discriminate|eapply IHb; eauto|eapply IHo; eauto].
  Qed.

  Definition Nb (b : block) (r r' : env) : Prop := run_block places r b (Norm r').
  Lemma loop_iter h b : (forall r out, run_block places r b out -> forall r', out <> Broke r' /\ out <> Continued r') ->
    forall r r', run_loop places r h b (Norm r') -> iter (fun a c => Nb b (head_bind places h a) c) r r'.
  Proof.
    intros Hj r r' H. remember (Norm r') as out eqn:Eo. induction H; subst; try discriminate.
    - injection Eo as ->. constructor.
    - econstructor; [exact H0|]. apply IHrun_loop; auto.
    - exfalso. eapply (proj2 (Hj _ _ H0 r1)). reflexivity.
    - exfalso. eapply (proj1 (Hj _ _ H0 r1)). reflexivity.
    - contradiction.
  Qed.
  Lemma with_iter b items : forall r r', run_with places r items b (Norm r') -> exists r1, binds_items items r r1 /\ Nb b r1 r'.
  Proof.
    induction items as [|[[p xs] e] items IH]; intros r r' H; inversion H; subst.
    - exists r. split; [constructor|assumption].
    - destruct (IH _ _ H8) as [r1 [H1 H2]]. exists r1. split; [constructor; exact H1|exact H2].
  Qed.

  Lemma cover :
    (forall s, stmt_supported s -> match s with SReturn _ | SRaise _ => True | _ =>
       good (eval_stmt s) (fun r r' => run_stmt places r s (Norm r')) (stmt_binds s) (fun x => stmt_always x s) end) /\
    (forall b, block_supported b -> good (eval_block b) (Nb b) (block_binds b) (fun x => block_always x b)) /\
    (forall o, orelse_supported o -> good (eval_orelse o) (fun r r' => run_orelse places r o (Norm r')) (orelse_binds o) (fun x => orelse_always x o)) /\
    (forall hs : blocks, True).
  Proof.
    destruct no_jump as [_ [Jb _]].
    apply syntax_ind; auto.
    - intros e _. cbn. eapply good_weaken; [exact (good_pre _ (eval_expr e) _ _ _ (scopes_expr e) good_id)| | |]; cbn.
      + intros r r' H. inversion H; reflexivity.
      + apply incl_refl.
      + discriminate.
    - intros p parts _. cbn. eapply good_weaken; [exact (good_pre _ (eval_exprs (map snd parts)) _ _ _ (scopes_exprs _) (good_process_all p parts))| | |]; cbn.
      + intros r r' H. inversion H; subst; reflexivity.
      + apply incl_refl.
      + auto.
    - intros e b IHb o IHo [Hbal [Sb So]]. cbn [eval_stmt stmt_binds stmt_always].
      eapply good_weaken with (N := fun r r' => Nb b r r' \/ run_orelse places r o (Norm r')).
      + apply good_if with (al2 := fun x => orelse_always x o); [apply IHb, Sb| |exact Hbal].
        destruct o; [|apply IHo, So|apply IHo, So]. split; [reflexivity|split; [|reflexivity]]. intros r r' H. inversion H; reflexivity.
      + intros r r' H. inversion H; subst; auto.
      + apply incl_refl.
      + auto.
    - intros p xs e b IHb els Sb. cbn [eval_stmt stmt_binds stmt_always]. destruct els; [intros st st' s r _ H; discriminate|].
      assert (Gv : good (fun st0 => let? st1 := record_all xs p false st0 in eval_block b st1)
         (fun a c => Nb b (head_bind places (HFor p xs) a) c) (map (fun x => (p, x, false)) xs ++ block_binds b)
         (fun x => existsb (Nat.eqb x) xs || block_always x b)).
      { eapply good_weaken; [exact (good_seq _ _ _ _ _ _ _ _ (good_record_all xs p false) (IHb Sb))| | |]; cbn.
        - intros r r' H. eexists. split; [apply bind_all_list|exact H].
        - apply incl_refl.
        - auto. }
      eapply good_weaken; [exact (good_loop (eval_expr e) _ _ _ _ _ (scopes_expr e) Gv Gv)| | |].
      + intros r r' H. inversion H; subst. apply loop_iter; [apply Jb, Sb|assumption].
      + apply incl_refl.
      + discriminate.
    - intros e b IHb els Sb. cbn [eval_stmt stmt_binds stmt_always]. destruct els; [intros st st' s r _ H; discriminate|].
      assert (G1 : good (eval_block b) (fun a c => Nb b (head_bind places (HWhile e) a) c) (block_binds b) (fun x => block_always x b)) by (exact (IHb Sb)).
      eapply good_weaken; [exact (good_loop (eval_expr e) _ _ _ _ _ (scopes_expr e) G1 (good_pre _ (eval_expr e) _ _ _ (scopes_expr e) G1))| | |].
      + intros r r' H. inversion H; subst. apply loop_iter; [apply Jb, Sb|assumption].
      + apply incl_refl.
      + discriminate.
    - intros items b IHb [_ Sb]. cbn [eval_stmt stmt_binds stmt_always].
      eapply good_weaken; [exact (good_seq _ _ _ _ _ _ _ _ (good_items items) (IHb Sb))| | |].
      + intros r r' H. inversion H; subst. apply with_iter. assumption.
      + apply incl_refl.
      + auto.
    - cbn. tauto.
    - cbn. tauto.
    - cbn. tauto.
    - intros _. cbn. eapply good_weaken; [apply good_id| | |]; cbn.
      + intros r r' H. inversion H; reflexivity.
      + apply incl_refl.
      + discriminate.
    - intros s IHs b IHb [Ss Sb].
      assert (Hseq : good (eval_stmt s) (fun r r' => run_stmt places r s (Norm r')) (stmt_binds s) (fun x => stmt_always x s) ->
        good (fun st => let? st1 := eval_stmt s st in eval_block b st1) (Nb (BCons s b)) (block_binds (BCons s b)) (fun x => block_always x (BCons s b))).
      { intros Gs. eapply good_weaken; [exact (good_seq _ _ _ _ _ _ _ _ Gs (IHb Sb))| | |].
        - intros r r' H. inversion H; subst; [eauto|contradiction].
        - apply incl_refl.
        - auto. }
      destruct s; try (exact (Hseq (IHs Ss))); try contradiction.
      + eapply good_weaken; [exact (good_terminate Return (eval_exprs es) _ (fun _ => true) (scopes_exprs es) ltac:(discriminate))| | |].
        * intros r r' H. inversion H; subst; [|contradiction]. match goal with K : run_stmt _ _ (SReturn _) (Norm _) |- _ => inversion K end.
        * apply incl_refl.
        * auto.
      + eapply good_weaken; [exact (good_terminate Raise (eval_exprs es) _ (fun _ => true) (scopes_exprs es) ltac:(discriminate))| | |].
        * intros r r' H. inversion H; subst; [|contradiction]. match goal with K : run_stmt _ _ (SRaise _) (Norm _) |- _ => inversion K end.
        * apply incl_refl.
        * auto.
    - intros _. cbn. eapply good_weaken; [apply good_id| | |]; cbn.
      + intros r r' H. inversion H; reflexivity.
      + apply incl_refl.
      + discriminate.
    - intros b IHb Sb. cbn [eval_orelse orelse_binds orelse_always]. eapply good_weaken; [exact (IHb Sb)| | |].
      + intros r r' H. inversion H; subst. assumption.
      + apply incl_refl.
      + auto.
    - intros e b IHb o IHo [Hbal [Sb So]]. cbn [eval_orelse orelse_binds orelse_always].
      eapply good_weaken with (N := fun r r' => Nb b r r' \/ run_orelse places r o (Norm r')).
      + apply good_if with (al2 := fun x => orelse_always x o); [apply IHb, Sb| |exact Hbal].
        destruct o; [|apply IHo, So|apply IHo, So]. split; [reflexivity|split; [|reflexivity]]. intros r r' H. inversion H; reflexivity.
      + intros r r' H. inversion H; subst; auto.
      + apply incl_refl.
      + auto.
  Qed.
End Cover.
