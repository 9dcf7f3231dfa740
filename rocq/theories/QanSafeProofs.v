(** In supported programs no operator ever gets an unquantized value where it wants a quantized one. *)
From Verif Require Import Prelude QanModel QanSpec QanInvProofs QanProofs.
Local Open Scope nat_scope.

Lemma quantized_here_iff A p x : quantized_here A p x = true <-> In (p, x) A.
Proof.
  unfold quantized_here. rewrite existsb_exists. split.
  - intros [[p' x'] [H E]]. apply andb_true_iff in E. destruct E as [E1 E2]. apply Nat.eqb_eq in E1, E2. cbn in *. now subst.
  - intros H. exists (p, x). split; [exact H|]. cbn. now rewrite !Nat.eqb_refl.
Qed.

Section Safe.
  Variable places : list (nat * nat).
  Variable D : list (nat * nat * bool).
  Variable U : list nat.
  Hypothesis D_fun : forall p x b1 b2, In (p, x, b1) D -> In (p, x, b2) D -> b1 = b2.

  Definition gam (r : env) (ss : list scope) : Prop :=
    forall x p q, r x = Some (p, q) -> exists s, In s ss /\ In p (prods (s_asgs s) x).
  Definition einv (r : env) : Prop :=
    forall x p q, r x = Some (p, q) -> exists rq, In (p, x, rq) D /\ q = rq || quantized_here places p x.

  Lemma gam_in r s ss : gam r ss -> gam r (s :: ss).
  Proof. intros H x p q E. destruct (H x p q E) as [s' [H1 H2]]. exists s'. split; [now right|exact H2]. Qed.
  Lemma gam_good N B al s s' r e e' : good_at N B al s s' -> s_term s = None -> N e e' -> gam e (s :: r) -> gam e' (s' :: r).
  Proof.
    clear D_fun. intros G Ht Hn Hg x p q E. destruct (g_gen _ _ _ _ _ G Ht _ _ Hn x) as [[[p' [q' [E1 E2]]]|[E1 E2]] _].
    - rewrite E in E1. injection E1 as -> ->. exists s'. split; [now left|exact E2].
    - rewrite E in E1. symmetry in E1. destruct (Hg x p q E1) as [sc [[<-|H1] H2]].
      + exists s'. split; [now left|]. apply E2, H2.
      + exists sc. split; [now right|exact H2].
  Qed.

  Lemma einv_set x p q rq r : einv r -> In (p, x, rq) D -> q = rq || quantized_here places p x -> einv (set x (p, q) r).
  Proof.
    clear. intros H Hd Hq y p' q' E. unfold set in E. destruct (y =? x) eqn:Ey; [|eapply H; exact E].
    apply Nat.eqb_eq in Ey. injection E as <- <-. subst y. exists rq. auto.
  Qed.
  Lemma einv_bind_all xs p q : forall r, einv r -> (forall x, In x xs -> In (p, x, q) D) -> einv (bind_all places xs p q r).
  Proof.
    clear. induction xs as [|x xs IH]; cbn; intros r H Hd; [exact H|].
    apply IH; [|auto]. eapply einv_set; eauto.
  Qed.
  Lemma einv_bind_parts p parts : forall r, einv r -> incl (flat_map (part_binds p) parts) D -> einv (bind_parts places p parts r).
  Proof.
    clear. induction parts as [|[ts e] parts IH]; cbn; intros r H Hd; [exact H|].
    apply IH; [|eapply incl_app_r; eauto]. apply einv_bind_all; [exact H|]. intros x Hx. apply Hd, in_app_iff. left.
    unfold part_binds. cbn. apply in_map_iff. exists x. auto.
  Qed.
  Lemma einv_bind_params ps : forall r, einv r -> Forall (fun p => p_plain p = true) ps ->
    incl (map (fun p => (p_node p, p_name p, false)) ps) D -> einv (bind_params places ps r).
  Proof.
    clear. induction ps as [|p ps IH]; cbn; intros r H Hp Hd; [exact H|]. inversion Hp as [|? ? P1 P2]; subst.
    apply IH; [|exact P2|intros y Hy; apply Hd; now right].
    eapply einv_set; [exact H|apply Hd; left; reflexivity|]. rewrite P1. reflexivity.
  Qed.

  (** Expressions. *)
  Lemma prods_lookup st x p : (exists s, In s (scopes st) /\ In p (prods (s_asgs s) x)) <-> exists o, In (p, o) (lookup st x).
  Proof.
    clear. unfold lookup, prods. split.
    - intros [s [H1 H2]]. apply in_map_iff in H2. destruct H2 as [[p' o] [E H2]]. cbn in E. subst p'. exists o. apply in_flat_map. exists s. auto.
    - intros [o H]. apply in_flat_map in H. destruct H as [s [H1 H2]]. exists s. split; [exact H1|]. apply in_map_iff. exists (p, o). auto.
  Qed.
  Lemma ensure_ok x st r : INV D U st -> In x U -> gam r (scopes st) -> einv r -> incl (anns (ensure x st)) places ->
    arg_ok r (AName x, true) = true.
  Proof.
    intros HI HU Hg He Ha. cbn. destruct (r x) as [[p q]|] eqn:E; [|reflexivity].
    destruct (proj1 (prods_lookup st x p) (Hg x p q E)) as [o Ho].
    destruct (ensure_inv D U x st HI HU) as [I1 [X1 [_ Q]]]. specialize (Q p o Ho).
    destruct (lookup_typed st x p o (proj2 (proj2 HI)) Ho) as [q0 Hq0].
    destruct (proj1 X1 _ _ Hq0) as [q1 [E1 _]]. cbn in E1. unfold obj_q in Q. rewrite E1 in Q. cbn in Q. subst q1.
    destruct (He x p q E) as [rq [Hd ->]].
    destruct (proj2 (proj1 I1 _ _ E1) eq_refl) as [Hin|Hin]; cbn in Hin.
    - apply Ha in Hin. apply quantized_here_iff in Hin. rewrite Hin. apply orb_true_r.
    - rewrite (D_fun _ _ _ _ Hd Hin). reflexivity.
  Qed.
  Lemma call_sound c st r : INV D U st -> incl (call_wants c) U -> gam r (scopes st) -> einv r -> incl (anns (eval_call c st)) places ->
    call_ok r c = true.
  Proof.
    unfold eval_call, call_ok, call_wants. destruct (returns c) as [rb|]; [|reflexivity].
    revert st. induction (bound c) as [|[[x|] [|]] l IH]; cbn [fold_left forallb flat_map app]; intros st HI HU Hg He Ha; auto.
    1: { destruct (ensure_inv D U x st HI (HU x (or_introl eq_refl))) as [I1 [X1 [S1 _]]].
         assert (HU' : incl (flat_map (fun ab : arg * bool => match ab with (AName x, true) => [x] | _ => [] end) l) U) by (intros y Hy; apply HU; now right).
         rewrite (ensure_ok x st r HI (HU x (or_introl eq_refl)) Hg He).
         - cbn [andb]. eapply IH; [exact I1|exact HU'|rewrite S1; exact Hg|exact He|exact Ha].
         - eapply incl_tran; [|exact Ha].
           pose (c' := mkCall (Some rb) l).
           destruct (eval_call_inv D U c' (ensure x st) I1) as [_ [[_ X2] _]]; [exact HU'|]. exact X2. }
    all: cbn [arg_ok andb]; eapply IH; eauto.
  Qed.
  Lemma expr_sound e st r : INV D U st -> incl (expr_wants e) U -> gam r (scopes st) -> einv r -> incl (anns (eval_expr e st)) places ->
    expr_ok r e = true.
  Proof.
    destruct e as [cs|c]; cbn; [|apply call_sound]. revert st. induction cs as [|c cs IH]; cbn; intros st HI HU Hg He Ha; [reflexivity|].
    destruct (eval_call_inv D U c st HI (incl_app_l _ _ _ HU)) as [I1 [X1 S1]].
    destruct (eval_expr_inv D U (EPlain cs) (eval_call c st) I1 (incl_app_r _ _ _ HU)) as [_ [[_ X2] _]].
    rewrite (call_sound c st r HI (incl_app_l _ _ _ HU) Hg He); [|eapply incl_tran; [exact X2|exact Ha]].
    cbn. eapply IH; [exact I1|eapply incl_app_r; exact HU|rewrite S1; exact Hg|exact He|exact Ha].
  Qed.
  Lemma exprs_sound es : forall st r, INV D U st -> incl (flat_map expr_wants es) U -> gam r (scopes st) -> einv r -> incl (anns (eval_exprs es st)) places ->
    forallb (expr_ok r) es = true.
  Proof.
    unfold eval_exprs. induction es as [|e es IH]; cbn; intros st r HI HU Hg He Ha; [reflexivity|].
    destruct (eval_expr_inv D U e st HI (incl_app_l _ _ _ HU)) as [I1 [X1 S1]].
    destruct (eval_exprs_inv D U es (eval_expr e st) I1 (incl_app_r _ _ _ HU)) as [_ [[_ X2] _]].
    rewrite (expr_sound e st r HI (incl_app_l _ _ _ HU) Hg He); [|eapply incl_tran; [exact X2|exact Ha]].
    cbn. eapply IH; [exact I1|eapply incl_app_r; exact HU|rewrite S1; exact Hg|exact He|exact Ha].
  Qed.

  (** Runs keep [einv]. *)
  Definition pres (N : env -> env -> Prop) : Prop := forall r r', N r r' -> einv r -> einv r'.
  Lemma pres_iter N : pres N -> pres (iter N).
  Proof. clear. intros H r r' Hi. induction Hi; auto. intros He. apply IHHi. eapply H; eauto. Qed.
  Lemma pres_items items : forall r r', binds_items places items r r' ->
    Forall (fun it : nat * list nat * expr => length (snd (fst it)) <= 1 /\ no_calls (snd it) = true) items ->
    incl (flat_map (fun it : nat * list nat * expr => map (fun x => (fst (fst it), x, false)) (snd (fst it))) items) D ->
    einv r -> einv r'.
  Proof.
    clear. intros r r' H. induction H as [r|p xs e items r r' H IH]; cbn; intros HF Hd He; [exact He|].
    inversion HF as [|? ? [F1 _] F2]; subst. cbn in F1. apply IH; [exact F2|eapply incl_app_r; exact Hd|].
    destruct xs as [|x [|y xs]]; cbn in F1; [exact He| |lia]. cbn [bind_item]. apply einv_bind_all; [exact He|].
    intros y [<-|[]]. apply Hd. now left.
  Qed.

  Lemma run_pres :
    (forall s, stmt_supported s -> incl (stmt_binds s) D -> pres (fun r r' => run_stmt places r s (Norm r'))) /\
    (forall b, block_supported b -> incl (block_binds b) D -> pres (Nb places b)) /\
    (forall o, orelse_supported o -> incl (orelse_binds o) D -> pres (fun r r' => run_orelse places r o (Norm r'))) /\
    (forall hs : blocks, True).
  Proof.
    clear D_fun. destruct (no_jump places) as [_ [Jb _]].
    apply syntax_ind; cbn; try (intros; contradiction); auto; unfold pres, Nb.
    - intros e _ _ r r' H. inversion H; subst; auto.
    - intros p parts _ HD r r' H He. inversion H; subst. apply einv_bind_parts; auto.
    - intros e b IHb o IHo [_ [Sb So]] HD r r' H He. inversion H; subst; [eapply IHb|eapply IHo]; eauto; [eapply incl_app_l|eapply incl_app_r]; eauto.
    - intros p xs e b IHb els Sb HD r r' H He. inversion H; subst.
      match goal with K : run_loop _ _ _ _ _ |- _ => apply (loop_iter places _ _ (Jb b Sb)) in K; revert K end.
      intros K. eapply pres_iter; [|exact K|exact He]. intros a c Hn Ha. eapply IHb; [exact Sb|eapply incl_app_r; exact HD|exact Hn|].
      cbn. apply einv_bind_all; [exact Ha|]. intros x Hx. apply HD, in_app_iff. left. apply in_map_iff. exists x. auto.
    - intros e b IHb els Sb HD r r' H He. inversion H; subst.
      match goal with K : run_loop _ _ _ _ _ |- _ => apply (loop_iter places _ _ (Jb b Sb)) in K; revert K end.
      intros K. eapply pres_iter; [|exact K|exact He]. intros a c Hn Ha. eapply IHb; eauto.
    - intros items b IHb [HF Sb] HD r r' H He. inversion H; subst.
      match goal with K : run_with _ _ _ _ _ |- _ => apply with_iter in K; destruct K as [r1 [K1 K2]] end.
      eapply IHb; [exact Sb|eapply incl_app_r; exact HD|exact K2|]. eapply pres_items; [exact K1|exact HF|eapply incl_app_l; exact HD|exact He].
    - intros es _ _ r r' H. inversion H.
    - intros es _ _ r r' H. inversion H.
    - intros _ _ r r' H. inversion H; subst; auto.
    - intros s IHs b IHb [Ss Sb] HD r r' H He. inversion H; subst; [|contradiction].
      eapply IHb; [exact Sb|eapply incl_app_r; exact HD|eassumption|]. eapply IHs; [exact Ss|eapply incl_app_l; exact HD|eassumption|exact He].
    - intros _ _ r r' H. inversion H; subst; auto.
    - intros b IHb Sb HD r r' H He. inversion H; subst. eapply IHb; eauto.
    - intros e b IHb o IHo [_ [Sb So]] HD r r' H He. inversion H; subst; [eapply IHb|eapply IHo]; eauto; [eapply incl_app_l|eapply incl_app_r]; eauto.
  Qed.

  (** ** Nothing faults. *)
  Definition safe (run : state -> result state) (F : env -> Prop) : Prop :=
    forall st st' s r e, scopes st = s :: r -> s_term s = None -> INV D U st -> gam e (scopes st) -> einv e ->
      run st = Ok st' -> incl (anns st') places -> ~ F e.

  Lemma safe_ext f (F F' : env -> Prop) : (forall e, F' e -> F e) -> safe f F -> safe f F'.
  Proof. clear. intros H Hs st st' s r e H1 H2 H3 H4 H5 H6 H7 HF. eapply Hs; eauto. Qed.

  Lemma safe_seq f g N B al F1 F2 : good f N B al -> keeps D U f -> keeps D U g -> pres N -> safe f F1 -> safe g F2 ->
    safe (fun st => let? st1 := f st in g st1) (fun e => F1 e \/ exists e1, N e e1 /\ F2 e1).
  Proof.
    clear D_fun. intros G Kf Kg Hp S1 S2 st st' s r e Hs Ht HI Hg He H Ha HF. apply rbind_ok in H. destruct H as [st1 [E1 E2]].
    destruct (Kf _ _ HI E1) as [I1 X1]. destruct (Kg _ _ I1 E2) as [_ X2].
    destruct HF as [HF|[e1 [Hn HF]]].
    - eapply S1; eauto. eapply incl_tran; [apply X2|exact Ha].
    - destruct (G _ _ _ _ Hs E1) as [s1 [Hs1 Gs]].
      assert (Ht1 : s_term s1 = None).
      { destruct (s_term s1) eqn:Es; [|reflexivity]. exfalso. eapply (g_term _ _ _ _ _ Gs Ht); [congruence|exact Hn]. }
      eapply S2; [exact Hs1|exact Ht1|exact I1| |eapply Hp; eauto|exact E2|exact Ha|exact HF].
      rewrite Hs1. rewrite Hs in Hg. eapply gam_good; eauto.
  Qed.
  Lemma safe_never f : safe f (fun _ => False).
  Proof. clear. intros st st' s r e _ _ _ _ _ _ _ []. Qed.

  Lemma merge_inplace_anns t st st' : merge_inplace t st = Ok st' -> anns st' = anns st.
  Proof. clear. unfold merge_inplace. destruct (_ || _); [intros [= <-]; reflexivity|]. intros H. inv_ok. subst. reflexivity. Qed.

  Lemma safe_if x run o exh N B al F1 F2 : good run N B al -> incl (expr_wants x) U -> keeps D U run -> safe run F1 ->
    match o with Some run2 => keeps D U run2 /\ safe run2 F2 | None => forall e, ~ F2 e end ->
    safe (eval_if x run o exh) (fun e => expr_ok e x = false \/ F1 e \/ F2 e).
  Proof.
    intros G1 HU K1 S1 H2 st st' s r e Hs Ht HI Hg He H Ha HF. unfold eval_if in H. apply rbind_ok in H. destruct H as [st1 [E1 H]].
    destruct (eval_expr_inv D U x st HI HU) as [I0 [X0 Sc0]].
    pose proof (INV_push D U false _ I0) as Ip. destruct (K1 _ _ Ip E1) as [I1 X1].
    assert (Hpush : forall st0, scopes st0 = scopes st -> gam e (scopes (push false st0))).
    { intros st0 E0. cbn. rewrite E0. apply gam_in, Hg. }
    assert (HA1 : incl (anns st1) places /\ match o with Some run2 => exists st2, run2 (push false (pop st1)) = Ok st2 /\ incl (anns st2) places | None => True end).
    { destruct o as [run2|].
      - apply rbind_ok in H. destruct H as [st2 [E2 H]]. apply rbind_ok in H. destruct H as [m [_ H]].
        destruct H2 as [K2 _]. destruct (K2 _ _ (INV_push D U false _ (INV_pop D U _ I1)) E2) as [I2 X2].
        assert (Ea : anns st' = anns st2).
        { destruct exh; [injection H as <-; reflexivity|]. apply merge_inplace_anns in H. rewrite H. reflexivity. }
        rewrite Ea in Ha. split; [eapply incl_tran; [apply X2|exact Ha]|eauto].
      - apply merge_inplace_anns in H. cbn in H. rewrite H in Ha. auto. }
    destruct HA1 as [HA1 HA2].
    destruct HF as [HF|[HF|HF]].
    - rewrite (expr_sound x st e HI HU Hg He) in HF; [discriminate|]. eapply incl_tran; [exact (proj2 X1)|exact HA1].
    - eapply (S1 (push false (eval_expr x st))); [reflexivity|reflexivity|exact Ip|apply Hpush, Sc0|exact He|exact E1|exact HA1|exact HF].
    - destruct o as [run2|]; [|eapply H2; exact HF]. destruct HA2 as [st2 [E2 HA2]]. destruct H2 as [_ S2].
      eapply (S2 (push false (pop st1))); [reflexivity|reflexivity|exact (INV_push D U false _ (INV_pop D U _ I1))| |exact He|exact E2|exact HA2|exact HF].
      assert (Sp : scopes (push false (eval_expr x st)) = empty_scope false (s_rep (active (eval_expr x st))) :: scopes st) by (cbn; rewrite Sc0; reflexivity).
      destruct (G1 _ _ _ _ Sp E1) as [s1 [Hs1 _]]. apply Hpush. unfold pop. cbn. rewrite Hs1. reflexivity.
  Qed.

  (** Loops. *)
  Inductive loop_fault (N : env -> env -> Prop) (H F : env -> Prop) : env -> Prop :=
  | lf_head e : H e -> loop_fault N H F e
  | lf_body e : F e -> loop_fault N H F e
  | lf_step e e1 : N e e1 -> loop_fault N H F e1 -> loop_fault N H F e.

  Lemma safe_loop pre v1 v2 N B al (H F : env -> Prop) :
    (forall st, INV D U st -> INV D U (pre st) /\ EXT st (pre st) /\ scopes (pre st) = scopes st) ->
    good v1 N B al -> good v2 N B al -> keeps D U v1 -> keeps D U v2 -> pres N ->
    (forall st e, INV D U st -> gam e (scopes st) -> einv e -> incl (anns (pre st)) places -> ~ H e) ->
    safe v1 F -> safe v2 F -> safe v2 H \/ (forall e, ~ H e) ->
    safe (fun st => let? st1 := v1 (push true (pre st)) in let? st2 := again v2 st1 in merge_inplace (active st2) (pop st2)) (loop_fault N H F).
  Proof.
    clear D_fun. intros Hpre G1 G2 K1 K2 Hp HH S1 S2 SH st st' s r e Hs Ht HI Hg He E Ha HF.
    apply rbind_ok in E. destruct E as [st1 [E1 E]]. apply rbind_ok in E. destruct E as [st2 [E2 E]].
    apply merge_inplace_anns in E. cbn in E. rewrite E in Ha.
    destruct (Hpre st HI) as [I0 [X0 Sc0]]. pose proof (INV_push D U true _ I0) as Ip.
    destruct (K1 _ _ Ip E1) as [I1 X1].
    assert (Sp : scopes (push true (pre st)) = empty_scope true (s_rep (active (pre st))) :: scopes st) by (cbn; rewrite Sc0; reflexivity).
    destruct (G1 _ _ _ _ Sp E1) as [s1 [Hs1 Gs1]].
    destruct (again_inv D U v2 K2 _ _ I1 E2) as [_ X2].
    assert (Ha1 : incl (anns st1) places) by (eapply incl_tran; [apply X2|exact Ha]).
    assert (Ha0 : incl (anns (pre st)) places) by (eapply incl_tran; [exact (proj2 X1)|exact Ha1]).
    assert (B1 : forall e', gam e' (scopes st) -> einv e' -> ~ F e').
    { intros e' Hg' He'. eapply S1; [exact Sp|reflexivity|exact Ip| |exact He'|exact E1|exact Ha1]. rewrite Sp. apply gam_in, Hg'. }
    assert (Hstep : forall e1 e2, N e1 e2 -> gam e1 (s1 :: scopes st) -> gam e2 (s1 :: scopes st)).
    { intros e1 e2 Hn Hg1 x p q Ex. destruct (g_gen _ _ _ _ _ Gs1 eq_refl _ _ Hn x) as [[[p' [q' [Q1 Q2]]]|[Q1 _]] _].
      - rewrite Ex in Q1. injection Q1 as -> ->. exists s1. split; [now left|exact Q2].
      - rewrite Ex in Q1. symmetry in Q1. eapply Hg1; eauto. }
    unfold again in E2. replace (active st1) with s1 in E2 by (unfold active; rewrite Hs1; reflexivity).
    destruct (s_term s1) as [t|] eqn:Et1.
    - assert (HN : forall a b, ~ N a b) by (intros a b; apply (g_term _ _ _ _ _ Gs1 eq_refl); congruence).
      destruct HF as [e0 HF|e0 HF|e0 e1 Hn HF].
      + eapply (HH st e0); eauto.
      + eapply B1; eauto.
      + eapply HN; eauto.
    - apply rbind_ok in E2. destruct E2 as [st3 [E2 E3]]. injection E3 as E3.
      assert (Ha3 : incl (anns st3) places) by (rewrite <- E3 in Ha; exact Ha).
      assert (Sr : scopes (set_rep true st1) = with_rep s1 true :: scopes st).
      { unfold set_rep, set_active, active. rewrite Hs1. reflexivity. }
      assert (Gr : forall e', gam e' (s1 :: scopes st) -> gam e' (scopes (set_rep true st1))).
      { intros e' Hg' x p q Ex. destruct (Hg' x p q Ex) as [sc [[<-|Hi] Hq]]; rewrite Sr.
        - exists (with_rep s1 true). split; [now left|exact Hq].
        - exists sc. split; [now right|exact Hq]. }
      pose proof (INV_set_rep D U true st1 I1) as Ir.
      assert (Hinv : gam e (s1 :: scopes st)) by (apply gam_in, Hg).
      clear Hg. induction HF as [e0 HF|e0 HF|e0 e1 Hn HF IH].
      + destruct SH as [SH|SH]; [|eapply SH; exact HF].
        eapply SH; [exact Sr|exact Et1|exact Ir|apply Gr, Hinv|exact He|exact E2|exact Ha3|exact HF].
      + eapply S2; [exact Sr|exact Et1|exact Ir|apply Gr, Hinv|exact He|exact E2|exact Ha3|exact HF].
      + apply IH; [eapply Hp; eauto|eapply Hstep; eauto].
  Qed.

  Lemma loop_faults h b : (forall r out, run_block places r b out -> forall r', out <> Broke r' /\ out <> Continued r') ->
    forall r, run_loop places r h b Fault ->
    loop_fault (fun a c => Nb places b (head_bind places h a) c) (fun a => head_ok a h = false) (fun a => run_block places (head_bind places h a) b Fault) r.
  Proof.
    clear. intros Hj r H. remember Fault as out eqn:Eo. induction H; subst; try discriminate.
    - now apply lf_head.
    - eapply lf_step; [exact H0|auto].
    - exfalso. eapply (proj2 (Hj _ _ H0 r1)). reflexivity.
    - now apply lf_body.
  Qed.
  Lemma with_faults b items : Forall (fun it : nat * list nat * expr => length (snd (fst it)) <= 1 /\ no_calls (snd it) = true) items ->
    forall r, run_with places r items b Fault -> exists r1, binds_items places items r r1 /\ run_block places r1 b Fault.
  Proof.
    clear. induction items as [|[[p xs] e] items IH]; intros HF r H; inversion H; subst.
    - exists r. split; [constructor|assumption].
    - exfalso. inversion HF as [|? ? [_ F] _]; subst. cbn in F. destruct e as [[|c cs]|c]; try discriminate.
    - inversion HF as [|? ? _ F]; subst. destruct (IH F _ H8) as [r1 [H1 H2]]. exists r1. split; [constructor; exact H1|exact H2].
  Qed.

  Lemma safe_exprs es (post : state -> result state) : incl (flat_map expr_wants es) U ->
    (forall st st', INV D U st -> post st = Ok st' -> incl (anns st) (anns st')) ->
    safe (fun st => post (eval_exprs es st)) (fun e => forallb (expr_ok e) es = false).
  Proof.
    intros HU Hpost st st' s r e Hs Ht HI Hg He E Ha HF.
    destruct (eval_exprs_inv D U es st HI HU) as [I0 [X0 Sc0]].
    rewrite (exprs_sound es st e HI HU Hg He) in HF; [discriminate|]. eapply incl_tran; [eapply Hpost; eauto|exact Ha].
  Qed.

  Lemma no_fault :
    (forall s, stmt_supported s -> incl (stmt_binds s) D -> incl (stmt_wants s) U -> safe (eval_stmt s) (fun r => run_stmt places r s Fault)) /\
    (forall b, block_supported b -> incl (block_binds b) D -> incl (block_wants b) U -> safe (eval_block b) (fun r => run_block places r b Fault)) /\
    (forall o, orelse_supported o -> incl (orelse_binds o) D -> incl (orelse_wants o) U -> safe (eval_orelse o) (fun r => run_orelse places r o Fault)) /\
    (forall hs : blocks, True).
  Proof.
    destruct (no_jump places) as [_ [Jb _]]. destruct (cover places) as [Cs [Cb [Co _]]]. destruct run_pres as [Ps [Pb [Po _]]].
    destruct (eval_inv D U) as [Ks [Kb [Ko _]]].
    apply syntax_ind; auto.
    - intros e _ _ HU st st' s r x Hs Ht HI Hg He E Ha HF. cbn in E. injection E as <-. inversion HF; subst.
      rewrite (expr_sound e st x) in *; auto; discriminate.
    - intros p parts _ HB HU. cbn [eval_stmt]. cbn in HB, HU. eapply safe_ext; [|apply (safe_exprs (map snd parts) (process_all p parts)); [exact HU|]].
      + intros e HF. inversion HF; subst. assumption.
      + intros st st' HI E. apply (process_all_inv D U p parts st st' HI HB E).
    - intros e b IHb o IHo [_ [Sb So]] HB HU. cbn [eval_stmt]. cbn in HB, HU.
      pose proof (incl_app_l _ _ _ HB) as B1. pose proof (incl_app_r _ _ _ HB) as B2.
      pose proof (incl_app_l _ _ _ HU) as U0. pose proof (incl_app_r _ _ _ HU) as U3. pose proof (incl_app_l _ _ _ U3) as U1. pose proof (incl_app_r _ _ _ U3) as U2.
      eapply safe_ext; [|eapply (safe_if e _ _ _ _ _ _ (fun r => run_block places r b Fault) (fun r => run_orelse places r o Fault) (Cb b Sb) U0 (Kb b B1 U1) (IHb Sb B1 U1))].
      + intros r HF. inversion HF; subst; auto.
      + destruct o; [intros r HF; inversion HF|split; [apply Ko; auto|apply IHo; auto]|split; [apply Ko; auto|apply IHo; auto]].
    - intros p xs e b IHb els Sb HB HU. cbn [eval_stmt]. cbn in HB, HU. destruct els; [intros st st' s r x _ _ _ _ _ E; discriminate|].
      pose proof (incl_app_l _ _ _ HB) as B1. pose proof (incl_app_r _ _ _ HB) as B2.
      pose proof (incl_app_l _ _ _ HU) as U0. pose proof (incl_app_r _ _ _ HU) as U1.
      set (v := fun st0 => let? st1 := record_all xs p false st0 in eval_block b st1).
      assert (Kr : keeps D U (record_all xs p false)).
      { intros st st' HI E. apply (record_all_inv D U xs p false st st' HI); [|exact E]. intros x Hx. apply B1. apply in_map_iff. exists x. auto. }
      assert (Kv : keeps D U v).
      { intros st st' HI E. unfold v in E. inv_ok. destruct (Kr _ _ HI E0) as [I1 X1]. destruct (Kb b B2 U1 _ _ I1 E) as [I2 X2].
        split; [exact I2|eapply EXT_trans; eauto]. }
      assert (Gv : good v (fun a c => Nb places b (head_bind places (HFor p xs) a) c) (map (fun x => (p, x, false)) xs ++ block_binds b)
         (fun x => existsb (Nat.eqb x) xs || block_always x b)).
      { eapply good_weaken; [exact (good_seq _ _ _ _ _ _ _ _ (good_record_all xs p false) (Cb b Sb))| | |]; cbn.
        - intros r r' H. eexists. split; [apply bind_all_list|exact H].
        - apply incl_refl.
        - auto. }
      assert (Sv : safe v (fun a => run_block places (head_bind places (HFor p xs) a) b Fault)).
      { eapply safe_ext; [|eapply (safe_seq (record_all xs p false) (eval_block b) (fun a c => c = bind_all places xs p false a) (map (fun x => (p, x, false)) xs) (fun x => existsb (Nat.eqb x) xs) (fun _ => False) (fun r => run_block places r b Fault))].
        - cbn. intros a HF. right. eexists. split; [reflexivity|exact HF].
        - eapply good_weaken; [apply (good_record_all xs p false)| | |]; [intros a c ->; apply bind_all_list|apply incl_refl|intros x Hx; left; exact Hx].
        - exact Kr.
        - exact (Kb b B2 U1).
        - intros a c -> Ha. apply einv_bind_all; [exact Ha|]. intros x Hx. apply B1. apply in_map_iff. exists x. auto.
        - apply safe_never.
        - apply IHb; auto. }
      intros st st' s r x Hs Ht HI Hg He E Ha HF.
      inversion HF; subst.
      { assert (EX : expr_ok x e = true); [|congruence]. eapply expr_sound; eauto.
        apply rbind_ok in E. destruct E as [st1 [E1 E]]. apply rbind_ok in E. destruct E as [st2 [E2 E]].
        apply merge_inplace_anns in E. cbn in E. rewrite E in Ha.
        destruct (eval_expr_inv D U e st HI U0) as [I0 _]. destruct (Kv _ _ (INV_push D U true _ I0) E1) as [I1 [_ X1]].
        destruct (again_inv D U v Kv _ _ I1 E2) as [_ [_ X2]].
        eapply incl_tran; [exact X1|]. eapply incl_tran; [exact X2|exact Ha]. }
      eapply (safe_loop (eval_expr e) v v _ _ _ (fun a => head_ok a (HFor p xs) = false) (fun a => run_block places (head_bind places (HFor p xs) a) b Fault));
        [|exact Gv|exact Gv|exact Kv|exact Kv| | |exact Sv|exact Sv| |exact Hs|exact Ht|exact HI|exact Hg|exact He|exact E|exact Ha|].
      + intros st0 H0. apply eval_expr_inv; auto.
      + intros a c Hn Hea. eapply Pb; [exact Sb|exact B2|exact Hn|]. cbn. apply einv_bind_all; [exact Hea|]. intros y Hy. apply B1. apply in_map_iff. exists y. auto.
      + cbn. intros; discriminate.
      + right. cbn. intros; discriminate.
      + apply loop_faults; [apply Jb, Sb|assumption].
    - intros e b IHb els Sb HB HU. cbn [eval_stmt]. cbn in HB, HU. destruct els; [intros st st' s r x _ _ _ _ _ E; discriminate|].
      pose proof (incl_app_l _ _ _ HU) as U0. pose proof (incl_app_r _ _ _ HU) as U1.
      intros st st' s r x Hs Ht HI Hg He E Ha HF. inversion HF as [| | | | | | | | |? ? ? ? ? HL EE1 EE2 EE3| | | | | | | | | |]; subst.
      assert (Kv : keeps D U (fun st0 => eval_block b (eval_expr e st0))).
      { intros s0 s1 HI0 E0. destruct (eval_expr_inv D U e s0 HI0 U0) as [I1 [X1 _]]. destruct (Kb b HB U1 _ _ I1 E0) as [I2 X2].
        split; [exact I2|eapply EXT_trans; eauto]. }
      assert (Svb : safe (fun st0 => eval_block b (eval_expr e st0)) (fun a => run_block places a b Fault)).
      { intros s0 s1 sc rr a H1 H2 H3 H4 H5 H6 H7. destruct (eval_expr_inv D U e s0 H3 U0) as [I1 [X1 Sc]].
        eapply (IHb Sb HB U1); [rewrite Sc; exact H1|exact H2|exact I1|rewrite Sc; exact H4|exact H5|exact H6|exact H7]. }
      assert (Svh : safe (fun st0 => eval_block b (eval_expr e st0)) (fun a => head_ok a (HWhile e) = false)).
      { intros s0 s1 sc rr a H1 H2 H3 H4 H5 H6 H7 H8. destruct (eval_expr_inv D U e s0 H3 U0) as [I1 [X1 Sc]].
        destruct (Kb b HB U1 _ _ I1 H6) as [_ [_ X2]]. cbn in H8. rewrite (expr_sound e s0 a) in H8; auto; [discriminate|]. eapply incl_tran; [exact X2|exact H7]. }
      eapply (safe_loop (eval_expr e) (eval_block b) (fun st0 => eval_block b (eval_expr e st0)) _ _ _ (fun a => head_ok a (HWhile e) = false) (fun a => run_block places (head_bind places (HWhile e) a) b Fault));
        [|exact (Cb b Sb)|exact (good_pre _ (eval_expr e) _ _ _ (scopes_expr e) (Cb b Sb))|exact (Kb b HB U1)|exact Kv| | |exact (IHb Sb HB U1)|exact Svb|left; exact Svh|exact Hs|exact Ht|exact HI|exact Hg|exact He|exact E|exact Ha|].
      + intros st0 H0. apply eval_expr_inv; auto.
      + exact (Pb b Sb HB).
      + cbn. intros st0 a H1 H2 H3 H4 H5. rewrite (expr_sound e st0 a) in H5; auto. discriminate.
      + exact (loop_faults (HWhile e) b (Jb b Sb) x HL).
    - intros items b IHb [HF Sb] HB HU. cbn [eval_stmt]. cbn in HB, HU.
      pose proof (incl_app_l _ _ _ HB) as B1. pose proof (incl_app_r _ _ _ HB) as B2.
      eapply safe_ext; [|eapply (safe_seq (eval_items items) (eval_block b) _ _ _ (fun _ => False) (fun r => run_block places r b Fault) (good_items places items))].
      + intros e H. inversion H; subst. right. apply with_faults; assumption.
      + intros st st' HI E. apply (eval_items_inv D U items st st' HI); [exact B1|exact E].
      + exact (Kb b B2 HU).
      + intros a c Hn Hea. eapply pres_items; eauto.
      + apply safe_never.
      + apply IHb; auto.
    - cbn. tauto.
    - intros es _ HB HU. cbn [eval_stmt]. eapply safe_ext; [|apply (safe_exprs es (fun st => Ok st)); [exact HU|]].
      + intros e HF. inversion HF; subst. assumption.
      + intros st st' _ [= <-]. apply incl_refl.
    - intros es _ HB HU. cbn [eval_stmt]. eapply safe_ext; [|apply (safe_exprs es (fun st => Ok st)); [exact HU|]].
      + intros e HF. inversion HF; subst. assumption.
      + intros st st' _ [= <-]. apply incl_refl.
    - cbn. tauto.
    - cbn. tauto.
    - intros _ _ _ st st' s r e _ _ _ _ _ _ _ HF. inversion HF.
    - intros s IHs b IHb [Ss Sb] HB HU. cbn in HB, HU.
      pose proof (incl_app_l _ _ _ HB) as B1. pose proof (incl_app_r _ _ _ HB) as B2.
      pose proof (incl_app_l _ _ _ HU) as U1. pose proof (incl_app_r _ _ _ HU) as U2.
      assert (Hseq : good (eval_stmt s) (fun r r' => run_stmt places r s (Norm r')) (stmt_binds s) (fun x => stmt_always x s) ->
        safe (fun st => let? st1 := eval_stmt s st in eval_block b st1) (fun r => run_block places r (BCons s b) Fault)).
      { intros Gs. eapply safe_ext; [|exact (safe_seq _ _ _ _ _ _ _ Gs (Ks s B1 U1) (Kb b B2 U2) (Ps s Ss B1) (IHs Ss B1 U1) (IHb Sb B2 U2))].
        intros e HF. inversion HF; subst; [right; eauto|left; assumption]. }
      assert (Hend : forall t es, (forall r out, run_stmt places r s out -> match out with Norm _ => False | Fault => forallb (expr_ok r) es = false | _ => True end) ->
        t <> Break -> incl (flat_map expr_wants es) U -> safe (fun st => terminate t (eval_exprs es st)) (fun r => run_block places r (BCons s b) Fault)).
      { intros t es Hr Ht HUe. eapply safe_ext; [|apply (safe_exprs es (terminate t)); [exact HUe|]].
        - intros e HF. inversion HF; subst; match goal with K : run_stmt _ _ _ _ |- _ => apply Hr in K end; [contradiction|assumption].
        - intros st st' HI E. apply (terminate_inv D U t st st' HI E). }
      destruct s; try (exact (Hseq (Cs _ Ss))); try contradiction.
      + apply Hend; [|discriminate|exact U1]. intros r out H. inversion H; subst; auto.
      + apply Hend; [|discriminate|exact U1]. intros r out H. inversion H; subst; auto.
    - intros _ _ _ st st' s r e _ _ _ _ _ _ _ HF. inversion HF.
    - intros b IHb Sb HB HU. cbn [eval_orelse]. eapply safe_ext; [|exact (IHb Sb HB HU)]. intros e HF. inversion HF; subst. assumption.
    - intros e b IHb o IHo [_ [Sb So]] HB HU. cbn [eval_orelse]. cbn in HB, HU.
      pose proof (incl_app_l _ _ _ HB) as B1. pose proof (incl_app_r _ _ _ HB) as B2.
      pose proof (incl_app_l _ _ _ HU) as U0. pose proof (incl_app_r _ _ _ HU) as U3. pose proof (incl_app_l _ _ _ U3) as U1. pose proof (incl_app_r _ _ _ U3) as U2.
      eapply safe_ext; [|eapply (safe_if e _ _ _ _ _ _ (fun r => run_block places r b Fault) (fun r => run_orelse places r o Fault) (Cb b Sb) U0 (Kb b B1 U1) (IHb Sb B1 U1))].
      + intros r HF. inversion HF; subst; auto.
      + destruct o; [intros r HF; inversion HF|split; [apply Ko; auto|apply IHo; auto]|split; [apply Ko; auto|apply IHo; auto]].
  Qed.
End Safe.

(** Parameters. *)
Lemma good_params places ps : good (record_params ps) (fun r r' => r' = bind_params places ps r)
  (map (fun p => (p_node p, p_name p, false)) ps) (fun x => existsb (Nat.eqb x) (map p_name ps)).
Proof.
  induction ps as [|p ps IH].
  - eapply good_weaken; [apply good_id| | |]; cbn; auto. apply incl_refl.
  - eapply good_weaken; [exact (good_seq _ _ _ _ _ _ _ _ (good_record (p_name p) (p_node p) false) IH)| | |]; cbn.
    + intros r r' ->. eexists. split; [eexists; reflexivity|reflexivity].
    + apply incl_refl.
    + intros y Hy. left. rewrite Nat.eqb_sym. exact Hy.
Qed.

Lemma distinct_fun (D : list (nat * nat * bool)) : NoDup (map fst D) -> forall p x b1 b2, In (p, x, b1) D -> In (p, x, b2) D -> b1 = b2.
Proof.
  induction D as [|[[p' x'] b'] D IH]; cbn; intros H p x b1 b2 H1 H2; [contradiction|].
  inversion H as [|? ? N1 N2]; subst. destruct H1 as [H1|H1], H2 as [H2|H2].
  - congruence.
  - injection H1 as -> -> ->. exfalso. apply N1. apply in_map_iff. exists (p, x, b2). auto.
  - injection H2 as -> -> ->. exfalso. apply N1. apply in_map_iff. exists (p, x, b1). auto.
  - eapply IH; eauto.
Qed.

Lemma analysis_sound f A : analyze f = Ok A -> supported f -> ~ can_fault A f.
Proof.
  unfold analyze. intros H [Hp [Hb Hd]] HF. apply rbind_ok in H. destruct H as [st1 [E1 H]]. apply rbind_ok in H. destruct H as [st2 [E2 H]].
  injection H as HA.
  set (D := func_binds f) in *. set (U := block_wants (body f)).
  assert (B1 : incl (map (fun p => (p_node p, p_name p, false)) (params f)) D) by (intros y Hy; unfold D, func_binds; apply in_app_iff; auto).
  assert (B2 : incl (block_binds (body f)) D) by (intros y Hy; unfold D, func_binds; apply in_app_iff; auto).
  destruct (record_params_inv D U (params f) init st1 (INV_init D U) B1 E1) as [I1 _].
  destruct (good_params A (params f) init st1 (empty_scope false false) [empty_scope false false] eq_refl E1) as [s1 [Hs1 G]].
  assert (Ht1 : s_term s1 = None).
  { destruct (s_term s1) eqn:Es; [|reflexivity]. exfalso. refine (g_term _ _ _ _ _ G eq_refl _ (fun _ => None) _ eq_refl). congruence. }
  destruct (no_fault A D U (distinct_fun D Hd)) as [_ [NB _]].
  eapply (NB (body f) Hb B2 (incl_refl _)); [exact Hs1|exact Ht1|exact I1| | |exact E2| |exact HF].
  - rewrite Hs1. eapply gam_good; [exact G|reflexivity|reflexivity|]. intros x p q Ex. discriminate.
  - apply einv_bind_params; auto. intros x p q Ex. discriminate.
  - rewrite HA. apply incl_refl.
Qed.
