(** Invariants of the analysis that hold for every program: objects are typed, annotations only grow
    and are only put where they are needed. *)
From Verif Require Import Prelude QanModel QanSpec.
From Verif Require AffineTensorProofs.
Local Open Scope nat_scope.

Scheme stmt_rec4 := Induction for stmt Sort Prop
with block_rec4 := Induction for block Sort Prop
with orelse_rec4 := Induction for orelse Sort Prop
with blocks_rec4 := Induction for blocks Sort Prop.
Combined Scheme syntax_ind from stmt_rec4, block_rec4, orelse_rec4, blocks_rec4.

Lemma rbind_ok {A B} (r : result A) (f : A -> result B) b : rbind r f = Ok b -> exists a, r = Ok a /\ f a = Ok b.
Proof. destruct r as [a|e]; cbn; [intros H; exists a; auto|discriminate]. Qed.

Ltac inv_ok := repeat match goal with
  | H : rbind _ _ = Ok _ |- _ => apply rbind_ok in H; let a := fresh "st" in let E := fresh "E" in destruct H as [a [E H]]
  | H : Ok _ = Ok _ |- _ => injection H as H
  | H : Err _ = Ok _ |- _ => discriminate H
  end.

Definition typed (h : list obj) (x p o : nat) : Prop := exists q, nth_error h o = Some (mkObj x p q).
Definition wt_asgs (h : list obj) (a : asgs) : Prop :=
  forall x l p o, In (x, l) a -> In (p, o) l -> typed h x p o.
Definition wt_scope (h : list obj) (s : scope) : Prop :=
  wt_asgs h (s_asgs s) /\ forall b f, In (b, f) (s_breaking s) -> wt_asgs h b.
Definition heap_ext (h h' : list obj) : Prop := forall o ob, nth_error h o = Some ob ->
  exists q, nth_error h' o = Some (mkObj (o_name ob) (o_prod ob) q) /\ (o_q ob = true -> q = true).

Lemma heap_ext_refl h : heap_ext h h.
Proof. intros o [x p q] H. exists q. auto. Qed.
Lemma heap_ext_trans h1 h2 h3 : heap_ext h1 h2 -> heap_ext h2 h3 -> heap_ext h1 h3.
Proof.
  intros H1 H2 o ob H. destruct (H1 o ob H) as [q [E1 E2]]. destruct (H2 o _ E1) as [q' [E3 E4]]. cbn in *. exists q'. auto.
Qed.
Lemma typed_ext h h' x p o : heap_ext h h' -> typed h x p o -> typed h' x p o.
Proof. intros H [q E]. destruct (H o _ E) as [q' [E' _]]. exists q'. exact E'. Qed.
Lemma wt_asgs_ext h h' a : heap_ext h h' -> wt_asgs h a -> wt_asgs h' a.
Proof. intros H W x l p o H1 H2. eapply typed_ext; eauto. Qed.
Lemma wt_scope_ext h h' s : heap_ext h h' -> wt_scope h s -> wt_scope h' s.
Proof. intros H [W1 W2]. split; [eapply wt_asgs_ext; eauto|]. intros b f Hb. eapply wt_asgs_ext; eauto. Qed.

Lemma set_q_nth h o q o' : nth_error (set_q h o q) o' =
  if o =? o' then match nth_error h o' with Some ob => Some (mkObj (o_name ob) (o_prod ob) q) | None => None end else nth_error h o'.
Proof.
  revert o o'. induction h as [|ob h IH]; intros [|o] [|o']; cbn; try reflexivity.
  - destruct (o =? o'); reflexivity.
  - apply IH.
Qed.
Lemma set_q_ext h o q : (obj_q h o = true -> q = true) -> heap_ext h (set_q h o q).
Proof.
  intros Hq o' ob H. rewrite set_q_nth. destruct (o =? o') eqn:E.
  - apply Nat.eqb_eq in E. subst o'. rewrite H. exists q. split; [reflexivity|]. unfold obj_q in Hq. rewrite H in Hq. exact Hq.
  - exists (o_q ob). destruct ob; auto.
Qed.
Lemma app_ext h ob : heap_ext h (h ++ [ob]).
Proof.
  intros o ob' H. exists (o_q ob'). rewrite nth_error_app1; [destruct ob'; auto|].
  apply nth_error_Some. congruence.
Qed.

Lemma get_in x a p o : In (p, o) (get x a) -> exists l, In (x, l) a /\ In (p, o) l.
Proof.
  induction a as [|[y l] a IH]; cbn; [contradiction|]. destruct (x =? y) eqn:E; intros H.
  - apply Nat.eqb_eq in E. subst y. exists l. auto.
  - destruct (IH H) as [l' [H1 H2]]. exists l'. auto.
Qed.
Lemma put_in x l a y l' : In (y, l') (put x l a) -> (y = x /\ l' = l) \/ In (y, l') a.
Proof.
  induction a as [|[z m] a IH]; cbn.
  - intros [H|[]]. injection H as -> ->. auto.
  - destruct (x =? z) eqn:E; cbn; intros [H|H].
    + apply Nat.eqb_eq in E. subst z. injection H as -> ->. auto.
    + auto.
    + auto.
    + destruct (IH H) as [Hl|Hr]; auto.
Qed.
Lemma wt_get h a x p o : wt_asgs h a -> In (p, o) (get x a) -> typed h x p o.
Proof. intros W H. destruct (get_in _ _ _ _ H) as [l [H1 H2]]. eapply W; eauto. Qed.
Lemma wt_put h a x l : wt_asgs h a -> (forall p o, In (p, o) l -> typed h x p o) -> wt_asgs h (put x l a).
Proof.
  intros W H y l' p o H1 H2. destruct (put_in _ _ _ _ _ H1) as [[-> ->]|H3]; [auto|]. eapply W; eauto.
Qed.
Lemma find_prod_in p l o : find_prod p l = Some o -> In (p, o) l.
Proof.
  induction l as [|[q o'] l IH]; cbn; [discriminate|]. destruct (p =? q) eqn:E; intros H; [|auto].
  apply Nat.eqb_eq in E. injection H as ->. subst q. auto.
Qed.

Lemma wt_merge_one h x p o a c : wt_asgs h a -> typed h x p o -> merge_one h x p o a = Ok c -> wt_asgs h c.
Proof.
  unfold merge_one. intros W T. destruct (find_prod p (get x a)) as [o'|].
  - destruct (Bool.eqb _ _); [|discriminate]. intros [= <-]. exact W.
  - intros [= <-]. apply wt_put; [exact W|]. intros p' o' H. apply in_app_iff in H. destruct H as [H|[H|[]]].
    + eapply wt_get; eauto.
    + injection H as -> ->. exact T.
Qed.
Lemma wt_merge_var h x l a c : wt_asgs h a -> (forall p o, In (p, o) l -> typed h x p o) -> merge_var h x l a = Ok c -> wt_asgs h c.
Proof.
  revert a. induction l as [|[p o] l IH]; cbn; intros a W T H.
  - injection H as <-. exact W.
  - inv_ok. eapply IH; [|intros; apply T; now right|exact H]. eapply wt_merge_one; [exact W| |exact E]. apply T. now left.
Qed.
Lemma wt_merge_asgs h b : forall a c, wt_asgs h a -> wt_asgs h b -> merge_asgs h a b = Ok c -> wt_asgs h c.
Proof.
  induction b as [|[x l] b IH]; cbn; intros a c W T H.
  - injection H as <-. exact W.
  - inv_ok. eapply IH; [|intros y m p o H1 H2; eapply T; [right; exact H1|exact H2]|exact H].
    eapply wt_merge_var; [exact W| |exact E]. intros p o Hp. eapply T; [now left|exact Hp].
Qed.
Lemma wt_merge_breaking h bs : forall a c, wt_asgs h a -> (forall b f, In (b, f) bs -> wt_asgs h b) -> merge_breaking h a bs = Ok c -> wt_asgs h c.
Proof.
  induction bs as [|[b f] bs IH]; cbn; intros a c W T H.
  - injection H as <-. exact W.
  - inv_ok. destruct f; [discriminate|]. eapply IH; [|intros b' f' Hb; eapply T; right; exact Hb|exact H].
    eapply wt_merge_asgs; [exact W| |exact E]. eapply T. left. reflexivity.
Qed.
Lemma wt_merge_scopes h s t c : wt_scope h s -> wt_scope h t -> merge_scopes h s t = Ok c -> wt_asgs h c.
Proof.
  unfold merge_scopes. intros [W1 W2] [T1 T2] H. inv_ok.
  assert (W : wt_asgs h st) by exact (wt_merge_asgs _ _ _ _ W1 T1 E).
  destruct (s_loop t); [exact (wt_merge_breaking _ _ _ _ W T2 H)|]. injection H as <-. exact W.
Qed.
Lemma wt_empty h l r : wt_scope h (empty_scope l r).
Proof. split; [intros ? ? ? ? []|intros ? ? []]. Qed.
Lemma wt_with_asgs h s a : wt_scope h s -> wt_asgs h a -> wt_scope h (with_asgs s a).
Proof. intros [W1 W2] W. split; assumption. Qed.
Lemma wt_merge h s t m : wt_scope h s -> wt_scope h t -> merge h s t = Ok m -> wt_scope h m.
Proof.
  unfold merge. intros Ws Wt. destruct (leaves (s_term s)), (leaves (s_term t)); intros H; inv_ok; subst m.
  - apply wt_empty.
  - exact Wt.
  - exact Ws.
  - apply wt_with_asgs; [exact Ws|]. exact (wt_merge_scopes _ _ _ _ Ws Wt E).
Qed.
Lemma wt_overwrite h b : forall a, wt_asgs h a -> wt_asgs h b -> wt_asgs h (overwrite_asgs a b).
Proof.
  induction b as [|[x l] b IH]; cbn; intros a W T; [exact W|]. apply IH.
  - apply wt_put; [exact W|]. intros p o H. eapply T; [now left|exact H].
  - intros y m p o H1 H2. eapply T; [right; exact H1|exact H2].
Qed.

Section Inv.
  Variable D : list (nat * nat * bool).
  Variable U : list nat.

  Definition heap_ok (h : list obj) (an : list (nat * nat)) : Prop :=
    forall o ob, nth_error h o = Some ob ->
      (o_q ob = false -> In (o_prod ob, o_name ob, false) D) /\
      (o_q ob = true -> In (o_prod ob, o_name ob) an \/ In (o_prod ob, o_name ob, true) D).
  Definition anns_ok (an : list (nat * nat)) : Prop := forall p x, In (p, x) an -> In (p, x, false) D /\ In x U.
  Definition INV (st : state) : Prop :=
    heap_ok (heap st) (anns st) /\ anns_ok (anns st) /\ Forall (wt_scope (heap st)) (scopes st).
  Definition EXT (st st' : state) : Prop := heap_ext (heap st) (heap st') /\ incl (anns st) (anns st').

  Lemma EXT_refl st : EXT st st.
  Proof. split; [apply heap_ext_refl|apply incl_refl]. Qed.
  Lemma EXT_trans a b c : EXT a b -> EXT b c -> EXT a c.
  Proof. intros [H1 H2] [H3 H4]. split; [eapply heap_ext_trans; eauto|eapply incl_tran; eauto]. Qed.
  Lemma EXT_same st st' : heap st' = heap st -> anns st' = anns st -> EXT st st'.
  Proof. intros H1 H2. split; [rewrite H1; apply heap_ext_refl|rewrite H2; apply incl_refl]. Qed.

  Lemma INV_active st : INV st -> wt_scope (heap st) (active st).
  Proof.
    intros [_ [_ H]]. unfold active. destruct (scopes st) as [|s ss]; [apply wt_empty|]. cbn. inversion H; assumption.
  Qed.
  Lemma INV_set_active st s : INV st -> wt_scope (heap st) s -> INV (set_active st s).
  Proof.
    intros [H1 [H2 H3]] W. split; [exact H1|split; [exact H2|]]. cbn. destruct (scopes st) as [|s0 ss].
    - repeat constructor; apply W.
    - inversion H3; subst. constructor; assumption.
  Qed.
  Lemma INV_push l st : INV st -> INV (push l st).
  Proof. intros [H1 [H2 H3]]. split; [exact H1|split; [exact H2|]]. cbn. constructor; [apply wt_empty|exact H3]. Qed.
  Lemma INV_pop st : INV st -> INV (pop st).
  Proof. intros [H1 [H2 H3]]. split; [exact H1|split; [exact H2|]]. cbn. destruct H3; [constructor|assumption]. Qed.

  Lemma heap_ok_set h an o q : heap_ok h an -> heap_ext h (set_q h o q) ->
    (forall ob, nth_error h o = Some ob -> q = true -> o_q ob = false -> In (o_prod ob, o_name ob) an \/ In (o_prod ob, o_name ob, true) D) ->
    (q = false -> obj_q h o = false) -> heap_ok (set_q h o q) an.
  Proof.
    intros H _ Ht Hf o' ob'. rewrite set_q_nth. destruct (o =? o') eqn:E; [|apply H].
    apply Nat.eqb_eq in E. subst o'. destruct (nth_error h o) as [ob|] eqn:En; [|discriminate]. intros [= <-]. cbn.
    destruct (H o ob En) as [H1 H2]. split; intros Hq; subst q.
    - apply H1. specialize (Hf eq_refl). unfold obj_q in Hf. rewrite En in Hf. exact Hf.
    - destruct (o_q ob) eqn:Eo; [auto|]. eapply Ht; eauto.
  Qed.

  Lemma record_inv x p q st st' : INV st -> In (p, x, q) D -> record x p q st = Ok st' -> INV st' /\ EXT st st'.
  Proof.
    intros HI HD. unfold record. pose proof (INV_active _ HI) as HW. pose proof HI as [H1 [H2 H3]].
    destruct (s_term (active st)); [discriminate|].
    destruct (find_prod p (get x (s_asgs (active st)))) as [o|] eqn:Ef; intros [= <-].
    - assert (Hx : heap_ext (heap st) (set_q (heap st) o (obj_q (heap st) o || q))).
      { apply set_q_ext. intros ->. reflexivity. }
      apply find_prod_in in Ef. destruct (wt_get _ _ _ _ _ (proj1 HW) Ef) as [q0 Hq0].
      split; [|split; [exact Hx|apply incl_refl]].
      split; [|split; [exact H2|]]; cbn.
      + apply heap_ok_set; [exact H1|exact Hx| |].
        * intros ob Hob Hq Hf. rewrite Hq0 in Hob. injection Hob as <-. cbn in *. subst q0.
          unfold obj_q in Hq. rewrite Hq0 in Hq. cbn in Hq. subst q. auto.
        * intros Hq. apply orb_false_iff in Hq. tauto.
      + eapply Forall_impl; [|exact H3]. intros s Hs. eapply wt_scope_ext; eauto.
    - assert (Hx : heap_ext (heap st) (heap st ++ [mkObj x p q])) by apply app_ext.
      split; [|split; [exact Hx|apply incl_refl]].
      apply INV_set_active.
      + split; [|split; [exact H2|]]; cbn.
        * intros o ob Ho. destruct (Nat.lt_ge_cases o (length (heap st))) as [Hl|Hl].
          -- rewrite nth_error_app1 in Ho by exact Hl. apply (H1 o ob Ho).
          -- rewrite nth_error_app2 in Ho by exact Hl. destruct (o - length (heap st)) as [|n]; cbn in Ho.
             ++ injection Ho as <-. cbn. split; intros ->; auto.
             ++ destruct n; discriminate.
        * eapply Forall_impl; [|exact H3]. intros s Hs. eapply wt_scope_ext; eauto.
      + cbn. apply wt_with_asgs; [eapply wt_scope_ext; eauto|]. apply wt_put; [eapply wt_asgs_ext; [exact Hx|apply HW]|].
        intros p' o' [Hp|[]]. injection Hp as <- <-. exists q. rewrite nth_error_app2 by lia. rewrite Nat.sub_diag. reflexivity.
  Qed.

  Lemma record_all_inv xs p q st st' : INV st -> (forall x, In x xs -> In (p, x, q) D) -> record_all xs p q st = Ok st' -> INV st' /\ EXT st st'.
  Proof.
    revert st. induction xs as [|x xs IH]; cbn; intros st HI HD H.
    - injection H as <-. split; [exact HI|apply EXT_refl].
    - inv_ok. destruct (record_inv _ _ _ _ _ HI (HD x (or_introl eq_refl)) E) as [I1 X1].
      destruct (IH _ I1 (fun y Hy => HD y (or_intror Hy)) H) as [I2 X2]. split; [exact I2|eapply EXT_trans; eauto].
  Qed.

  Lemma add_ann_in a l b : In b (add_ann a l) <-> b = a \/ In b l.
  Proof.
    unfold add_ann. destruct (existsb _ l) eqn:E.
    - apply existsb_exists in E. destruct E as [c [Hc He]]. apply andb_true_iff in He. destruct He as [H1 H2].
      apply Nat.eqb_eq in H1. apply Nat.eqb_eq in H2. assert (c = a) by (destruct a, c; cbn in *; congruence). subst c.
      split; [auto|]. intros [->|H]; assumption.
    - rewrite in_app_iff. cbn. intuition (subst; auto).
  Qed.

  Lemma ensure_one_inv x po st : INV st -> In x U -> typed (heap st) x (fst po) (snd po) -> INV (ensure_one x po st) /\ EXT st (ensure_one x po st).
  Proof.
    intros [H1 [H2 H3]] HU [q Hq]. unfold ensure_one. destruct (obj_q (heap st) (snd po)) eqn:E.
    - split; [split; [exact H1|split; [exact H2|exact H3]]|apply EXT_refl].
    - assert (Hx : heap_ext (heap st) (set_q (heap st) (snd po) true)) by (apply set_q_ext; auto).
      unfold obj_q in E. rewrite Hq in E. cbn in E. subst q.
      assert (HD : In (fst po, x, false) D) by (destruct (H1 _ _ Hq) as [Hf _]; apply Hf; reflexivity).
      split; [|split; [exact Hx|]].
      + split; [|split]; cbn.
        * apply heap_ok_set; [|exact Hx| |discriminate].
          -- intros o ob Ho. destruct (H1 o ob Ho) as [Ha Hb]. split; [exact Ha|]. intros Ht. destruct (Hb Ht) as [H|H]; [|auto].
             left. apply add_ann_in. auto.
          -- intros ob Hob _ _. rewrite Hq in Hob. injection Hob as <-. cbn. left. apply add_ann_in. auto.
        * intros p' x' Hp. apply add_ann_in in Hp. destruct Hp as [Hp|Hp]; [injection Hp as -> ->; auto|apply H2; exact Hp].
        * eapply Forall_impl; [|exact H3]. intros s Hs. eapply wt_scope_ext; eauto.
      + intros a Ha. cbn. apply add_ann_in. auto.
  Qed.
  Lemma ensure_one_scopes x po st : scopes (ensure_one x po st) = scopes st.
  Proof. unfold ensure_one. destruct (obj_q _ _); reflexivity. Qed.

  Lemma lookup_typed st x p o : Forall (wt_scope (heap st)) (scopes st) -> In (p, o) (lookup st x) -> typed (heap st) x p o.
  Proof.
    intros H Hi. unfold lookup in Hi. apply in_flat_map in Hi. destruct Hi as [s [Hs Hp]].
    rewrite Forall_forall in H. eapply wt_get; [apply (H s Hs)|exact Hp].
  Qed.

  Lemma ensure_fold_inv x l : forall st, INV st -> In x U -> (forall p o, In (p, o) l -> typed (heap st) x p o) ->
    let st' := fold_left (fun s po => ensure_one x po s) l st in
    INV st' /\ EXT st st' /\ scopes st' = scopes st /\ (forall p o, In (p, o) l -> obj_q (heap st') o = true).
  Proof.
    induction l as [|[p o] l IH]; cbn; intros st HI HU HT.
    - split; [exact HI|split; [apply EXT_refl|split; [reflexivity|contradiction]]].
    - destruct (ensure_one_inv x (p, o) st HI HU (HT p o (or_introl eq_refl))) as [I1 X1].
      destruct (IH (ensure_one x (p, o) st) I1 HU) as [I2 [X2 [S2 Q2]]].
      { intros p' o' Hp. eapply typed_ext; [apply X1|]. apply HT. now right. }
      split; [exact I2|split; [eapply EXT_trans; eauto|split; [rewrite S2; apply ensure_one_scopes|]]].
      intros p' o' [Hp|Hp]; [|eapply Q2; eauto]. injection Hp as <- <-.
      destruct (HT p o (or_introl eq_refl)) as [q Hq].
      assert (Hb : obj_q (heap (ensure_one x (p, o) st)) o = true).
      { unfold ensure_one. cbn [snd]. destruct (obj_q (heap st) o) eqn:E; [exact E|]. cbn. unfold obj_q. rewrite set_q_nth, Nat.eqb_refl, Hq. reflexivity. }
      unfold obj_q in Hb |- *. destruct (nth_error (heap (ensure_one x (p, o) st)) o) as [ob|] eqn:En; [|discriminate].
      destruct (proj1 X2 _ _ En) as [q' [E1 E2]]. rewrite E1. cbn. auto.
  Qed.
  Lemma ensure_inv x st : INV st -> In x U ->
    INV (ensure x st) /\ EXT st (ensure x st) /\ scopes (ensure x st) = scopes st /\
    (forall p o, In (p, o) (lookup st x) -> obj_q (heap (ensure x st)) o = true).
  Proof. intros HI HU. apply (ensure_fold_inv x (lookup st x) st HI HU). intros p o. apply lookup_typed, HI. Qed.

  Lemma eval_call_inv c st : INV st -> incl (call_wants c) U -> INV (eval_call c st) /\ EXT st (eval_call c st) /\ scopes (eval_call c st) = scopes st.
  Proof.
    unfold eval_call, call_wants. destruct (returns c) as [b|]; [|intros; split; [assumption|split; [apply EXT_refl|reflexivity]]].
    revert st. induction (bound c) as [|[[x|] [|]] l IH]; cbn; intros st HI HU.
    1: split; [assumption|split; [apply EXT_refl|reflexivity]].
    2-4: apply IH; assumption.
    destruct (ensure_inv x st HI (HU x (or_introl eq_refl))) as [I1 [X1 [S1 _]]].
    destruct (IH (ensure x st) I1 (fun y Hy => HU y (or_intror Hy))) as [I2 [X2 S2]].
    split; [exact I2|split; [eapply EXT_trans; eauto|congruence]].
  Qed.
  Lemma eval_expr_inv e st : INV st -> incl (expr_wants e) U -> INV (eval_expr e st) /\ EXT st (eval_expr e st) /\ scopes (eval_expr e st) = scopes st.
  Proof.
    destruct e as [cs|c]; cbn; [|apply eval_call_inv]. revert st. induction cs as [|c cs IH]; cbn; intros st HI HU.
    - split; [assumption|split; [apply EXT_refl|reflexivity]].
    - destruct (eval_call_inv c st HI) as [I1 [X1 S1]]; [intros y Hy; apply HU, in_app_iff; now left|].
      destruct (IH (eval_call c st) I1) as [I2 [X2 S2]]; [intros y Hy; apply HU, in_app_iff; now right|].
      split; [exact I2|split; [eapply EXT_trans; eauto|congruence]].
  Qed.
  Lemma eval_exprs_inv es st : INV st -> incl (flat_map expr_wants es) U -> INV (eval_exprs es st) /\ EXT st (eval_exprs es st) /\ scopes (eval_exprs es st) = scopes st.
  Proof.
    unfold eval_exprs. revert st. induction es as [|c cs IH]; cbn; intros st HI HU.
    - split; [assumption|split; [apply EXT_refl|reflexivity]].
    - destruct (eval_expr_inv c st HI) as [I1 [X1 S1]]; [intros y Hy; apply HU, in_app_iff; now left|].
      destruct (IH (eval_expr c st) I1) as [I2 [X2 S2]]; [intros y Hy; apply HU, in_app_iff; now right|].
      split; [exact I2|split; [eapply EXT_trans; eauto|congruence]].
  Qed.

  Lemma process_inv p part st st' : INV st -> incl (part_binds p part) D -> process p part st = Ok st' -> INV st' /\ EXT st st'.
  Proof.
    destruct part as [ts e]. unfold process, part_binds. cbn [fst snd]. intros HI HD H.
    destruct e as [cs|c]; cbn [gives_quantized] in HD.
    - eapply record_all_inv; [exact HI| |exact H]. intros x Hx. apply HD. apply in_map_iff. exists x. auto.
    - destruct ts as [|t [|t' ts]]; try discriminate. eapply record_all_inv; [exact HI| |exact H].
      intros x Hx. apply HD. apply in_map_iff. exists x. auto.
  Qed.
  Lemma process_all_inv p parts : forall st st', INV st -> incl (flat_map (part_binds p) parts) D -> process_all p parts st = Ok st' -> INV st' /\ EXT st st'.
  Proof.
    induction parts as [|a parts IH]; cbn; intros st st' HI HD H.
    - injection H as <-. split; [exact HI|apply EXT_refl].
    - inv_ok. destruct (process_inv p a st st0 HI) as [I1 X1]; [intros y Hy; apply HD, in_app_iff; now left|exact E|].
      destruct (IH st0 st' I1) as [I2 X2]; [intros y Hy; apply HD, in_app_iff; now right|exact H|].
      split; [exact I2|eapply EXT_trans; eauto].
  Qed.
  Lemma eval_items_inv items : forall st st', INV st ->
    incl (flat_map (fun it : nat * list nat * expr => map (fun x => (fst (fst it), x, false)) (snd (fst it))) items) D ->
    eval_items items st = Ok st' -> INV st' /\ EXT st st'.
  Proof.
    induction items as [|[[p xs] e] items IH]; cbn; intros st st' HI HD H.
    - injection H as <-. split; [exact HI|apply EXT_refl].
    - inv_ok. destruct (record_all_inv xs p false st st0 HI) as [I1 X1]; [|exact E|].
      { intros x Hx. apply HD, in_app_iff. left. apply in_map_iff. exists x. auto. }
      destruct (IH st0 st' I1) as [I2 X2]; [intros y Hy; apply HD, in_app_iff; now right|exact H|].
      split; [exact I2|eapply EXT_trans; eauto].
  Qed.

  Lemma merge_inplace_inv t st st' : INV st -> wt_scope (heap st) t -> merge_inplace t st = Ok st' -> INV st' /\ EXT st st'.
  Proof.
    unfold merge_inplace. intros HI HT. destruct (_ || _).
    - intros [= <-]. split; [exact HI|apply EXT_refl].
    - intros H. inv_ok. subst st'. split; [|apply EXT_same; reflexivity]. apply INV_set_active; [exact HI|].
      apply wt_with_asgs; [apply INV_active, HI|]. eapply wt_merge_scopes; [apply INV_active, HI|exact HT|exact E].
  Qed.
  Lemma overwrite_inv t st : INV st -> wt_scope (heap st) t -> INV (overwrite t st) /\ EXT st (overwrite t st).
  Proof.
    intros HI HT. split; [|apply EXT_same; reflexivity]. apply INV_set_active; [exact HI|].
    apply wt_with_asgs; [apply INV_active, HI|]. apply wt_overwrite; [apply INV_active, HI|apply HT].
  Qed.
  Lemma wt_with_term h s t : wt_scope h s -> wt_scope h (with_term s t).
  Proof. intros [H1 H2]. split; assumption. Qed.
  Lemma wt_with_rep h s t : wt_scope h s -> wt_scope h (with_rep s t).
  Proof. intros [H1 H2]. split; assumption. Qed.
  Lemma attach_inv h b f ss ss' : wt_asgs h b -> Forall (wt_scope h) ss -> attach (b, f) ss = Some ss' -> Forall (wt_scope h) ss'.
  Proof.
    intros Hb. revert ss'. induction ss as [|s ss IH]; cbn; intros ss' HF H; [discriminate|].
    inversion HF as [|? ? H1 H2]; subst. destruct (s_loop s).
    - injection H as <-. constructor; [|exact H2]. destruct H1 as [Ha Hc]. split; [exact Ha|].
      cbn. intros b' f' Hi. apply in_app_iff in Hi. destruct Hi as [Hi|[Hi|[]]]; [eapply Hc; eauto|]. injection Hi as <- <-. exact Hb.
    - destruct (attach (b, f) ss) as [r|]; [|discriminate]. injection H as <-. constructor; auto.
  Qed.
  Lemma terminate_inv r st st' : INV st -> terminate r st = Ok st' -> INV st' /\ EXT st st'.
  Proof.
    intros HI. assert (H0 : INV (set_active st (with_term (active st) (Some r)))).
    { apply INV_set_active; [exact HI|]. apply wt_with_term, INV_active, HI. }
    unfold terminate. destruct r.
    1,3: intros [= <-]; split; [exact H0|apply EXT_same; reflexivity].
    intros H. inv_ok. subst st'. split; [|apply EXT_same; reflexivity].
    assert (H1 : INV (mkState (heap st) (anns st) st0)).
    { destruct H0 as [Ha [Hb Hc]]. split; [exact Ha|split; [exact Hb|]]. cbn [scopes].
      destruct (s_rep _); [|injection E as <-; exact Hc].
      destruct (attach _ _) as [ss|] eqn:Ea; [|discriminate]. injection E as <-. eapply attach_inv; [|exact Hc|exact Ea].
      apply (INV_active _ (conj Ha (conj Hb Hc))). }
    apply INV_set_active; [exact H1|]. apply wt_with_asgs; [apply (INV_active _ H1)|]. intros ? ? ? ? [].
  Qed.

  Lemma INV_set_rep r st : INV st -> INV (set_rep r st).
  Proof. intros HI. apply INV_set_active; [exact HI|]. apply wt_with_rep, INV_active, HI. Qed.

  Definition keeps (run : state -> result state) : Prop := forall st st', INV st -> run st = Ok st' -> INV st' /\ EXT st st'.

  Lemma again_inv run : keeps run -> keeps (again run).
  Proof.
    intros Hr st st' HI. unfold again. destruct (s_term (active st)).
    - intros [= <-]. split; [exact HI|apply EXT_refl].
    - intros H. inv_ok. subst st'. destruct (Hr _ _ (INV_set_rep true st HI) E) as [I1 X1].
      split; [apply INV_set_rep, I1|]. eapply EXT_trans; [|apply EXT_same; reflexivity]. exact X1.
  Qed.

  Lemma eval_if_inv e run o exh : incl (expr_wants e) U -> keeps run -> (forall r2, o = Some r2 -> keeps r2) -> keeps (eval_if e run o exh).
  Proof.
    intros HU Hr Ho st st' HI. unfold eval_if. intros H. inv_ok.
    destruct (eval_expr_inv e st HI HU) as [I0 [X0 _]].
    destruct (Hr _ _ (INV_push false _ I0) E) as [I1 X1].
    assert (X01 : EXT st st0) by (eapply EXT_trans; [exact X0|exact X1]).
    destruct o as [run2|].
    - inv_ok. destruct (Ho _ eq_refl _ _ (INV_push false _ (INV_pop _ I1)) E0) as [I2 X2].
      assert (X12 : EXT st0 st1) by exact X2.
      assert (Wm : wt_scope (heap st1) st2).
      { eapply wt_merge; [|apply INV_active, I2|exact E1]. eapply wt_scope_ext; [apply X12|]. apply INV_active, I1. }
      destruct exh.
      + injection H as <-. destruct (overwrite_inv st2 (pop st1) (INV_pop _ I2) Wm) as [I3 X3].
        split; [exact I3|]. eapply EXT_trans; [exact X01|]. eapply EXT_trans; [exact X12|exact X3].
      + destruct (merge_inplace_inv _ _ _ (INV_pop _ I2) Wm H) as [I3 X3].
        split; [exact I3|]. eapply EXT_trans; [exact X01|]. eapply EXT_trans; [exact X12|exact X3].
    - destruct (merge_inplace_inv _ _ _ (INV_pop _ I1) (INV_active _ I1) H) as [I3 X3].
      split; [exact I3|]. eapply EXT_trans; [exact X01|exact X3].
  Qed.

  Lemma incl_app_l {A} (a b c : list A) : incl (a ++ b) c -> incl a c.
  Proof. intros H x Hx. apply H, in_app_iff. now left. Qed.
  Lemma incl_app_r {A} (a b c : list A) : incl (a ++ b) c -> incl b c.
  Proof. intros H x Hx. apply H, in_app_iff. now right. Qed.

  Definition Pk_handlers (hs : blocks) : Prop := forall t st t' st', INV st -> wt_scope (heap st) t ->
    eval_handlers t hs st = Ok (t', st') -> INV st' /\ EXT st st' /\ wt_scope (heap st') t'.

  Lemma eval_inv :
    (forall s, incl (stmt_binds s) D -> incl (stmt_wants s) U -> keeps (eval_stmt s)) /\
    (forall b, incl (block_binds b) D -> incl (block_wants b) U -> keeps (eval_block b)) /\
    (forall o, incl (orelse_binds o) D -> incl (orelse_wants o) U -> keeps (eval_orelse o)) /\
    (forall hs, incl (blocks_binds hs) D -> incl (blocks_wants hs) U -> Pk_handlers hs).
  Proof.
    apply syntax_ind.
    - intros e HB HU st st' HI H. cbn in H. injection H as <-. destruct (eval_expr_inv e st HI HU) as [A [B _]]. auto.
    - intros p parts HB HU st st' HI H. cbn in H. cbn in HB, HU.
      destruct (eval_exprs_inv (map snd parts) st HI HU) as [A [B _]].
      destruct (process_all_inv p parts _ _ A HB H) as [C Dd]. split; [exact C|eapply EXT_trans; eauto].
    - intros e b IHb o IHo HB HU. cbn in HB, HU. cbn [eval_stmt]. apply eval_if_inv.
      + eapply incl_app_l; eauto.
      + apply IHb; [eapply incl_app_l; eauto|]. eapply incl_app_l, incl_app_r; eauto.
      + intros r2 Hr. destruct o; [discriminate| |]; injection Hr as <-; (apply IHo; [eapply incl_app_r; eauto|]; eapply incl_app_r, incl_app_r; eauto).
    - intros p xs e b IHb els HB HU st st' HI H. cbn in HB, HU. cbn [eval_stmt] in H. destruct els; [discriminate|].
      destruct (eval_expr_inv e st HI) as [I0 [X0 _]]; [eapply incl_app_l; eauto|].
      assert (Hv : keeps (fun st0 => let? st1 := record_all xs p false st0 in eval_block b st1)).
      { intros s s' Hs Hr. inv_ok. destruct (record_all_inv xs p false s st0 Hs) as [A B]; [|exact E|].
        - intros x Hx. apply HB, in_app_iff. left. apply in_map_iff. exists x. auto.
        - destruct (IHb (incl_app_r _ _ _ HB) (incl_app_r _ _ _ HU) st0 s' A Hr) as [C Dd]. split; [exact C|eapply EXT_trans; eauto]. }
      apply rbind_ok in H. destruct H as [st0 [E H]]. apply rbind_ok in H. destruct H as [st1 [E0 H]].
      destruct (Hv _ _ (INV_push true _ I0) E) as [I1 X1]. destruct (again_inv _ Hv _ _ I1 E0) as [I2 X2].
      destruct (merge_inplace_inv _ _ _ (INV_pop _ I2) (INV_active _ I2) H) as [I3 X3].
      split; [exact I3|]. eapply EXT_trans; [exact X0|]. eapply EXT_trans; [exact X1|]. eapply EXT_trans; [exact X2|exact X3].
    - intros e b IHb els HB HU st st' HI H. cbn in HB, HU. cbn [eval_stmt] in H. destruct els; [discriminate|].
      destruct (eval_expr_inv e st HI) as [I0 [X0 _]]; [eapply incl_app_l; eauto|].
      specialize (IHb HB (incl_app_r _ _ _ HU)).
      assert (Hv : keeps (fun st0 => eval_block b (eval_expr e st0))).
      { intros s s' Hs Hr. destruct (eval_expr_inv e s Hs) as [A [B _]]; [eapply incl_app_l; eauto|].
        destruct (IHb _ _ A Hr) as [C Dd]. split; [exact C|eapply EXT_trans; eauto]. }
      inv_ok. destruct (IHb _ _ (INV_push true _ I0) E) as [I1 X1]. destruct (again_inv _ Hv _ _ I1 E0) as [I2 X2].
      destruct (merge_inplace_inv _ _ _ (INV_pop _ I2) (INV_active _ I2) H) as [I3 X3].
      split; [exact I3|]. eapply EXT_trans; [exact X0|]. eapply EXT_trans; [exact X1|]. eapply EXT_trans; [exact X2|exact X3].
    - intros items b IHb HB HU st st' HI H. cbn in HB, HU. cbn [eval_stmt] in H. inv_ok.
      destruct (eval_items_inv items st st0 HI) as [I1 X1]; [eapply incl_app_l; eauto|exact E|].
      destruct (IHb (incl_app_r _ _ _ HB) HU _ _ I1 H) as [I2 X2]. split; [exact I2|eapply EXT_trans; eauto].
    - intros b IHb hs IHhs els IHels fin IHfin HB HU st st' HI H. cbn in HB, HU. cbn [eval_stmt] in H. inv_ok.
      destruct st1 as [t st1]. inv_ok. subst st'.
      destruct (IHb (incl_app_l _ _ _ HB) (incl_app_l _ _ _ HU) _ _ (INV_push false _ HI) E) as [I1 X1].
      apply incl_app_r in HB. apply incl_app_r in HU.
      destruct (IHhs (incl_app_l _ _ _ HB) (incl_app_l _ _ _ HU) _ _ _ _ (INV_pop _ I1) (INV_active _ I1) E0) as [I2 [X2 _]].
      apply incl_app_r in HB. apply incl_app_r in HU.
      destruct (IHels (incl_app_l _ _ _ HB) (incl_app_l _ _ _ HU) _ _ (INV_push false _ I2) E1) as [I3 X3].
      destruct (IHfin (incl_app_r _ _ _ HB) (incl_app_r _ _ _ HU) _ _ (INV_push false _ (INV_pop _ I3)) E3) as [I4 X4].
      split; [apply INV_pop, I4|]. eapply EXT_trans; [exact X1|]. eapply EXT_trans; [exact X2|]. eapply EXT_trans; [exact X3|exact X4].
    - intros es HB HU st st' HI H. cbn in H. injection H as <-. destruct (eval_exprs_inv es st HI HU) as [A [B _]]. auto.
    - intros es HB HU st st' HI H. cbn in H. injection H as <-. destruct (eval_exprs_inv es st HI HU) as [A [B _]]. auto.
    - intros HB HU st st' HI H. cbn in H. injection H as <-. split; [exact HI|apply EXT_refl].
    - intros HB HU st st' HI H. cbn in H. injection H as <-. split; [exact HI|apply EXT_refl].
    - intros HB HU st st' HI H. cbn in H. injection H as <-. split; [exact HI|apply EXT_refl].
    - intros s IHs b IHb HB HU st st' HI H. cbn in HB, HU.
      specialize (IHs (incl_app_l _ _ _ HB) (incl_app_l _ _ _ HU)). specialize (IHb (incl_app_r _ _ _ HB) (incl_app_r _ _ _ HU)).
      assert (Hseq : (let? st1 := eval_stmt s st in eval_block b st1) = Ok st' -> INV st' /\ EXT st st').
      { intros Hs. inv_ok. destruct (IHs _ _ HI E) as [I1 X1]. destruct (IHb _ _ I1 Hs) as [I2 X2]. split; [exact I2|eapply EXT_trans; eauto]. }
      destruct s; try (apply Hseq; exact H); cbn [eval_block] in H.
      + destruct (eval_exprs_inv es st HI (incl_app_l _ _ _ HU)) as [A [B _]].
        destruct (terminate_inv _ _ _ A H) as [C Dd]. split; [exact C|eapply EXT_trans; eauto].
      + destruct (eval_exprs_inv es st HI (incl_app_l _ _ _ HU)) as [A [B _]].
        destruct (terminate_inv _ _ _ A H) as [C Dd]. split; [exact C|eapply EXT_trans; eauto].
      + injection H as <-. split; [exact HI|apply EXT_refl].
      + eapply terminate_inv; eauto.
    - intros HB HU st st' HI H. cbn in H. injection H as <-. split; [exact HI|apply EXT_refl].
    - intros b IHb HB HU. cbn [eval_orelse]. apply IHb; assumption.
    - intros e b IHb o IHo HB HU. cbn in HB, HU. cbn [eval_orelse]. apply eval_if_inv.
      + eapply incl_app_l; eauto.
      + apply IHb; [eapply incl_app_l; eauto|]. eapply incl_app_l, incl_app_r; eauto.
      + intros r2 Hr. destruct o; [discriminate| |]; injection Hr as <-; (apply IHo; [eapply incl_app_r; eauto|]; eapply incl_app_r, incl_app_r; eauto).
    - intros HB HU t st t' st' HI HT H. cbn in H. injection H as <- <-. split; [exact HI|split; [apply EXT_refl|exact HT]].
    - intros b IHb hs IHhs HB HU t st t' st' HI HT H. cbn in HB, HU. cbn [eval_handlers] in H. inv_ok.
      destruct (IHb (incl_app_l _ _ _ HB) (incl_app_l _ _ _ HU) _ _ (INV_push false _ HI) E) as [I1 X1].
      assert (Wm : wt_scope (heap st0) st1).
      { eapply wt_merge; [|apply INV_active, I1|exact E0]. eapply wt_scope_ext; [apply X1|]. exact HT. }
      destruct (IHhs (incl_app_r _ _ _ HB) (incl_app_r _ _ _ HU) _ _ _ _ (INV_pop _ I1) Wm H) as [I2 [X2 W2]].
      split; [exact I2|split; [|exact W2]]. eapply EXT_trans; [exact X1|exact X2].
  Qed.

  Lemma record_params_inv ps : forall st st', INV st -> incl (map (fun p => (p_node p, p_name p, false)) ps) D ->
    record_params ps st = Ok st' -> INV st' /\ EXT st st'.
  Proof.
    induction ps as [|p ps IH]; cbn; intros st st' HI HD H.
    - injection H as <-. split; [exact HI|apply EXT_refl].
    - inv_ok. destruct (record_inv _ _ _ _ _ HI (HD _ (or_introl eq_refl)) E) as [I1 X1].
      destruct (IH _ _ I1 (fun y Hy => HD y (or_intror Hy)) H) as [I2 X2]. split; [exact I2|eapply EXT_trans; eauto].
  Qed.
  Lemma INV_init : INV init.
  Proof.
    split; [|split]; cbn.
    - intros o ob H. destruct o; discriminate.
    - intros p x [].
    - constructor; [apply wt_empty|]. constructor; [apply wt_empty|constructor].
  Qed.
End Inv.

Lemma anns_needed f A : analyze f = Ok A -> forall p x, In (p, x) A -> In (p, x, false) (func_binds f) /\ In x (block_wants (body f)).
Proof.
  unfold analyze. intros H p x Hp. inv_ok. subst A.
  destruct (record_params_inv (func_binds f) (block_wants (body f)) (params f) init st (INV_init _ _)) as [I1 _]; [|exact E|].
  { intros y Hy. unfold func_binds. apply in_app_iff. now left. }
  destruct (proj1 (proj2 (eval_inv (func_binds f) (block_wants (body f)))) (body f)) with (st := st) (st' := st0) as [I2 _]; auto.
  - intros y Hy. unfold func_binds. apply in_app_iff. now right.
  - apply incl_refl.
  - destruct I2 as [_ [H2 _]]. apply H2. exact Hp.
Qed.
Lemma anns_nodup_add a l : NoDup l -> NoDup (add_ann a l).
Proof.
  intros H. unfold add_ann. destruct (existsb _ l) eqn:E; [exact H|].
  apply NoDup_rev in H. rewrite <- (rev_involutive (l ++ [a])). apply NoDup_rev. rewrite rev_app_distr. cbn. constructor; [|exact H].
  rewrite <- in_rev. intros Hi. assert (existsb (fun b => (fst a =? fst b) && (snd a =? snd b)) l = true).
  { apply existsb_exists. exists a. split; [exact Hi|]. rewrite !Nat.eqb_refl. reflexivity. }
  congruence.
Qed.
