(** Quantizers in forward passes, and strict mode. *)
From Coq Require Import List Arith Bool Lia.
From Verif Require Import Prelude FwdModel FwdSpec FwdProofs.
Import ListNotations.

Section Quant.
  Variable F : torch.

  (** From [s] to [t] nothing that existed was changed. *)
  Definition extends (s t : state F) : Prop := next s <= next t /\ forall a, a < next s -> mem t a = mem s a.
  Lemma extends_refl : forall s, extends s s.
  Proof. intro s. split; auto. Qed.
  Lemma extends_trans : forall s t u, extends s t -> extends t u -> extends s u.
  Proof. intros s t u (A & B) (C & E). split; [lia|]. intros a L. rewrite E, B; auto. lia. Qed.
  Lemma extends_read : forall s t a, extends s t -> a < next s -> read t a = read s a.
  Proof. intros s t a (_ & B) L. unfold read. rewrite B; auto. Qed.

  Lemma alloc_extends : forall s t, extends s (snd (alloc s t)).
  Proof.
    intros s t. split; cbn; [lia|]. intros a L. destruct (a =? next s) eqn:Q; auto. apply Nat.eqb_eq in Q. lia.
  Qed.

  Lemma aq_spec : forall q s a, a < next s ->
    exists b t, apply_quantizer q s a = (b, t) /\ extends s t /\ b < next t
    /\ read t b = after q (read s a) /\ calls t = calls s ++ called q (read s a)
    /\ quantized (mem t b) = quantized (mem s a) || is_real q.
  Proof.
    intros [|id f] s a L; cbn.
    - exists a, s. rewrite app_nil_r, orb_false_r. repeat split; auto.
    - do 2 eexists. split; [reflexivity|]. unfold extends, read. cbn. rewrite Nat.eqb_refl. cbn.
      rewrite orb_true_r. repeat split; auto; try lia.
      intros c Lc. destruct (c =? next s) eqn:Q; auto. apply Nat.eqb_eq in Q. lia.
  Qed.

  Lemma qopt_spec : forall q s a, (forall b, a = Some b -> b < next s) ->
    exists b t, quantize_opt q s a = (b, t) /\ extends s t /\ (forall c, b = Some c -> c < next t)
    /\ read_opt t b = after_opt q (read_opt s a) /\ calls t = calls s ++ called_opt q (read_opt s a)
    /\ forallb (fun c => quantized (mem t c)) (list_opt b) = opt_ok q (fun c => quantized (mem s c)) a.
  Proof.
    intros q s [a|] L; cbn.
    - specialize (L a eq_refl). destruct q as [q|].
      + destruct (aq_spec q s a L) as (b & t & E & X & Lb & Rb & C & Q). rewrite E. exists (Some b), t.
        split; [reflexivity|]. split; [exact X|]. split; [intros c H; inversion H; subst; exact Lb|]. cbn.
        rewrite Rb, C, Q, andb_true_r. auto.
      + exists (Some a), s. rewrite app_nil_r. split; [reflexivity|]. split; [apply extends_refl|].
        split; [intros c H; inversion H; subst; exact L|]. cbn. rewrite andb_true_r, orb_false_r. auto.
    - exists None, s. split; [destruct q; reflexivity|]. split; [apply extends_refl|].
      split; [discriminate|]. cbn. destruct q; rewrite app_nil_r; auto.
  Qed.

  Lemma finish_spec : forall q s d,
    exists b t, finish q s d = (b, t) /\ extends s t /\ b < next t
    /\ read t b = after q d /\ calls t = calls s ++ called q d /\ quantized (mem t b) = is_real q.
  Proof.
    intros q s d. unfold finish. destruct (alloc s (mkTensor false d)) as [a s'] eqn:E.
    assert (X : extends s s') by (rewrite <- (f_equal snd E : _ = s'); apply alloc_extends).
    unfold alloc in E. inversion E; subst a.
    assert (L : next s < next s') by (subst s'; cbn; lia).
    destruct (aq_spec q s' (next s) L) as (b & t & E1 & X1 & Lb & Rb & C & Q). exists b, t.
    assert (Rs : mem s' (next s) = mkTensor false d) by (subst s'; cbn; rewrite Nat.eqb_refl; reflexivity).
    unfold read in *. rewrite Rs in *. cbn in *.
    split; [rewrite H1; exact E1|]. split; [eapply extends_trans; eauto|]. split; [exact Lb|]. split; [exact Rb|].
    split; [|exact Q]. rewrite C. subst s'. reflexivity.
  Qed.



  (** Values and calls *)
  Lemma forward_ideal :
    (forall (m : qmodule F) x s val, x < next s -> (forall p, In p (qparams m) -> p < next s /\ read s p = val p) ->
       weights_stay m ->
       exists y t, forward false m x s = Ok (y, t) /\ extends s t /\ y < next t
       /\ read t y = fst (ideal m val (read s x)) /\ calls t = calls s ++ snd (ideal m val (read s x)))
    /\ (forall (l : qmodules F) x s val, x < next s -> (forall p, In p (qparams_all l) -> p < next s /\ read s p = val p) ->
       weights_stay_all l ->
       exists y t, forward_all false l x s = Ok (y, t) /\ extends s t /\ y < next t
       /\ read t y = fst (ideal_all l val (read s x)) /\ calls t = calls s ++ snd (ideal_all l val (read s x))).
  Proof.
    apply qmodule_qmodules_ind.
    - intros iq wq bq oq w b x s val Lx P _.
      assert (P' : forall p, In p (w :: opt_list b) -> p < next s /\ read s p = val p) by exact P. clear P.
      destruct (P' w (or_introl eq_refl)) as (Lw & Vw).
      assert (Vb : read_opt s b = option_map val b).
      { destruct b as [b|]; cbn; auto. f_equal. apply P'. right. left. reflexivity. }
      assert (Lb : forall c, b = Some c -> c < next s) by (intros c ->; apply P'; right; left; reflexivity).
      cbn [forward ideal fst snd].
      destruct (aq_spec iq s x Lx) as (x' & s1 & E1 & X1 & L1 & R1 & C1 & _). rewrite E1.
      assert (Lw1 : w < next s1) by (destruct X1; lia).
      destruct (aq_spec wq s1 w Lw1) as (w' & s2 & E2 & X2 & L2 & R2 & C2 & _). rewrite E2.
      assert (Lb2 : forall c, b = Some c -> c < next s2).
      { intros c Q. specialize (Lb c Q). destruct X1, X2. lia. }
      destruct (qopt_spec bq s2 b Lb2) as (b' & s3 & E3 & X3 & L3 & R3 & C3 & _). rewrite E3.
      cbn [guard negb orb].
      assert (X02 : extends s s2) by (eapply extends_trans; eauto).
      assert (Rb : read_opt s2 b = option_map val b).
      { rewrite <- Vb. destruct b as [b|]; cbn; auto. f_equal. apply extends_read; auto. }
      assert (Rw : read s1 w = val w) by (rewrite <- Vw; apply extends_read; auto).
      destruct (finish_spec oq s3 (f_linear F (read s3 x') (read s3 w') (read_opt s3 b'))) as (y & t & E & X & L & R & C & _).
      rewrite E. exists y, t. split; [reflexivity|].
      assert (Rx3 : read s3 x' = after iq (read s x)).
      { rewrite (extends_read s1 s3); [exact R1| |exact L1]. eapply extends_trans; eauto. }
      assert (Rw3 : read s3 w' = after wq (val w)) by (rewrite (extends_read s2 s3), R2, Rw; auto).
      rewrite Rx3, Rw3, R3, Rb in R, C. split; [eapply extends_trans; [exact X02|eapply extends_trans; eauto]|].
      split; [exact L|]. split; [exact R|]. rewrite C, C3, C2, C1, Rb, Rw, <- !app_assoc. reflexivity.
    - intros iq wq bq oq d w b c p mode x s val Lx P _.
      assert (P' : forall p, In p (w :: opt_list b) -> p < next s /\ read s p = val p) by exact P. clear P.
      destruct (P' w (or_introl eq_refl)) as (Lw & Vw).
      assert (Vb : read_opt s b = option_map val b).
      { destruct b as [b|]; cbn; auto. f_equal. apply P'. right. left. reflexivity. }
      assert (Lb : forall c, b = Some c -> c < next s) by (intros c0 ->; apply P'; right; left; reflexivity).
      cbn [forward ideal fst snd].
      destruct (aq_spec iq s x Lx) as (x' & s1 & E1 & X1 & L1 & R1 & C1 & _). rewrite E1.
      assert (Lw1 : w < next s1) by (destruct X1; lia).
      destruct (aq_spec wq s1 w Lw1) as (w' & s2 & E2 & X2 & L2 & R2 & C2 & _). rewrite E2.
      assert (Lb2 : forall c, b = Some c -> c < next s2).
      { intros c0 Q. specialize (Lb c0 Q). destruct X1, X2. lia. }
      destruct (qopt_spec bq s2 b Lb2) as (b' & s3 & E3 & X3 & L3 & R3 & C3 & _). rewrite E3.
      cbn [guard negb orb].
      assert (X02 : extends s s2) by (eapply extends_trans; eauto).
      assert (Rb : read_opt s2 b = option_map val b).
      { rewrite <- Vb. destruct b as [b|]; cbn; auto. f_equal. apply extends_read; auto. }
      assert (Rw : read s1 w = val w) by (rewrite <- Vw; apply extends_read; auto).
      destruct (finish_spec oq s3 (f_conv F d (read s3 x') (read s3 w') (read_opt s3 b') c p)) as (y & t & E & X & L & R & C & _).
      rewrite E. exists y, t. split; [reflexivity|].
      assert (Rx3 : read s3 x' = after iq (read s x)).
      { rewrite (extends_read s1 s3); [exact R1| |exact L1]. eapply extends_trans; eauto. }
      assert (Rw3 : read s3 w' = after wq (val w)) by (rewrite (extends_read s2 s3), R2, Rw; auto).
      rewrite Rx3, Rw3, R3, Rb in R, C. split; [eapply extends_trans; [exact X02|eapply extends_trans; eauto]|].
      split; [exact L|]. split; [exact R|]. rewrite C, C3, C2, C1, Rb, Rw, <- !app_assoc. reflexivity.
    - intros iq wq bq oq w b c x s val Lx P _.
      assert (P' : forall p, In p (opt_list w ++ opt_list b) -> p < next s /\ read s p = val p) by exact P. clear P.
      assert (Vw : read_opt s w = option_map val w).
      { destruct w as [w|]; cbn; auto. f_equal. apply P'. left. reflexivity. }
      assert (Vb : read_opt s b = option_map val b).
      { destruct b as [b|]; cbn; auto. f_equal. apply P'. apply in_app_iff. right. left. reflexivity. }
      assert (Lw : forall c, w = Some c -> c < next s) by (intros c0 ->; apply P'; left; reflexivity).
      assert (Lb : forall c, b = Some c -> c < next s) by (intros c0 ->; apply P', in_app_iff; right; left; reflexivity).
      cbn [forward ideal fst snd].
      destruct (aq_spec iq s x Lx) as (x' & s1 & E1 & X1 & L1 & R1 & C1 & _). rewrite E1.
      assert (Lw1 : forall c, w = Some c -> c < next s1) by (intros c0 Q; specialize (Lw c0 Q); destruct X1; lia).
      destruct (qopt_spec wq s1 w Lw1) as (w' & s2 & E2 & X2 & L2 & R2 & C2 & _). rewrite E2.
      assert (Lb2 : forall c, b = Some c -> c < next s2).
      { intros c0 Q. specialize (Lb c0 Q). destruct X1, X2. lia. }
      destruct (qopt_spec bq s2 b Lb2) as (b' & s3 & E3 & X3 & L3 & R3 & C3 & _). rewrite E3.
      cbn [guard negb orb].
      assert (X02 : extends s s2) by (eapply extends_trans; eauto).
      assert (Rb : read_opt s2 b = option_map val b).
      { rewrite <- Vb. destruct b as [b|]; cbn; auto. f_equal. apply extends_read; auto. }
      assert (Rw : read_opt s1 w = option_map val w).
      { rewrite <- Vw. destruct w as [w|]; cbn; auto. f_equal. apply extends_read; auto. }
      destruct (finish_spec oq s3 (f_layer_norm F (read s3 x') c (read_opt s3 w') (read_opt s3 b'))) as (y & t & E & X & L & R & C & _).
      rewrite E. exists y, t. split; [reflexivity|].
      assert (Rx3 : read s3 x' = after iq (read s x)).
      { rewrite (extends_read s1 s3); [exact R1| |exact L1]. eapply extends_trans; eauto. }
      assert (Rw3 : read_opt s3 w' = after_opt wq (option_map val w)).
      { rewrite <- Rw, <- R2. destruct w' as [w'|]; cbn; auto. f_equal. apply extends_read; auto. }
      rewrite Rx3, Rw3, R3, Rb in R, C. split; [eapply extends_trans; [exact X02|eapply extends_trans; eauto]|].
      split; [exact L|]. split; [exact R|]. rewrite C, C3, C2, C1, Rb, Rw, <- !app_assoc. reflexivity.
    - intros wq oq w c x s val Lx P W.
      destruct (P w (or_introl eq_refl)) as (Lw & Vw).
      cbn [forward ideal fst snd]. cbn [weights_stay] in W.
      destruct (aq_spec wq s w Lw) as (w' & s1 & E1 & X1 & L1 & R1 & C1 & Q1). rewrite E1.
      cbn [guard negb orb].
      assert (Rx1 : read s1 x = read s x) by (apply extends_read; auto).
      assert (Q : exists w2 s2, (if quantized (mem s1 w') then alloc s1 (mkTensor false (read s1 w')) else (w', s1)) = (w2, s2)
         /\ extends s1 s2 /\ w2 < next s2 /\ read s2 w2 = read s1 w' /\ calls s2 = calls s1
         /\ (is_real wq = true -> next s1 <= w2)).
      { rewrite Q1. destruct (is_real wq) eqn:Rl.
        - rewrite orb_true_r. do 2 eexists. split; [reflexivity|]. split; [apply alloc_extends|]. cbn.
          unfold read. cbn. rewrite Nat.eqb_refl. cbn. repeat split; auto.
        - rewrite orb_false_r. destruct (quantized (mem s w)).
          + do 2 eexists. split; [reflexivity|]. split; [apply alloc_extends|]. cbn.
            unfold read. cbn. rewrite Nat.eqb_refl. cbn. repeat split; auto.
          + do 2 eexists. split; [reflexivity|]. split; [apply extends_refl|]. repeat split; auto. discriminate. }
      destruct Q as (w2 & s2 & E2 & X2 & L2 & R2 & C2 & N2). rewrite E2.
      assert (Rx2 : read s2 x = read s x).
      { rewrite (extends_read s1 s2); auto. destruct X1. lia. }
      rewrite R2, R1, Rx2, Vw.
      set (s3 := match f_renorm F (after wq (val w)) (read s x) c with
                 | Some d => set s2 w2 (mkTensor false d) | None => s2 end).
      assert (X3 : extends s1 s3 /\ read s3 w2 = match f_renorm F (after wq (val w)) (read s x) c with
                 | Some d => d | None => after wq (val w) end /\ calls s3 = calls s1).
      { unfold s3. destruct W as [W|W].
        - destruct (f_renorm F _ _ c) as [d|].
          + split; [|split; [|exact C2]].
            * destruct X2 as (A & B). split; [exact A|]. intros a La. cbn. specialize (N2 W).
              destruct (a =? w2) eqn:Q; [apply Nat.eqb_eq in Q; lia|]. auto.
            * unfold read. cbn. rewrite Nat.eqb_refl. reflexivity.
          + split; [exact X2|]. split; [|exact C2]. rewrite R2, R1, Vw. reflexivity.
        - rewrite W. split; [exact X2|]. split; [|exact C2]. rewrite R2, R1, Vw. reflexivity. }
      destruct X3 as (X3 & R3 & C3). rewrite R3.
      assert (Rx3 : read s3 x = read s x).
      { rewrite (extends_read s1 s3); auto. destruct X1. lia. }
      rewrite Rx3.
      destruct (finish_spec oq s3 (f_embedding F (read s x) match f_renorm F (after wq (val w)) (read s x) c with
                 | Some d => d | None => after wq (val w) end c)) as (y & t & E & X & L & R & C & _).
      rewrite E. exists y, t. split; [reflexivity|].
      split; [eapply extends_trans; [exact X1|eapply extends_trans; eauto]|].
      split; [exact L|]. split; [exact R|]. rewrite C, C3, C1, Vw, <- app_assoc. reflexivity.
    - intros iq oq f x s val Lx _ _. cbn [forward ideal fst snd].
      destruct (aq_spec iq s x Lx) as (x' & s1 & E1 & X1 & L1 & R1 & C1 & _). rewrite E1.
      cbn [guard negb orb].
      destruct (finish_spec oq s1 (f_act F f (read s1 x'))) as (y & t & E & X & L & R & C & _).
      rewrite E. exists y, t. split; [reflexivity|]. rewrite R1 in R, C.
      split; [eapply extends_trans; eauto|]. split; [exact L|]. split; [exact R|].
      rewrite C, C1, <- app_assoc. reflexivity.
    - intros l IH x s val Lx P W. exact (IH x s val Lx P W).
    - intros x s val Lx _ _. exists x, s. cbn. rewrite app_nil_r. repeat split; auto.
    - intros m IHm r IHr x s val Lx P (W1 & W2).
      destruct (IHm x s val Lx (fun p I => P p (in_or_app _ _ _ (or_introl I))) W1) as (y & t & E & X & L & R & C).
      rewrite forward_all_cons, E. cbn [rbind fst snd].
      destruct (IHr y t val L) as (z & u & E' & X' & L' & R' & C'); auto.
      { intros p I. destruct (P p (in_or_app _ _ _ (or_intror I))) as (Lp & Vp). split; [destruct X; lia|].
        rewrite (extends_read s t); auto. }
      exists z, u. split; [exact E'|]. split; [eapply extends_trans; eauto|]. split; [exact L'|].
      change (ideal_all (QCons m r) val (read s x)) with
        (let (y0, c) := ideal m val (read s x) in let (z0, c') := ideal_all r val y0 in (z0, c ++ c')).
      destruct (ideal m val (read s x)) as [y0 c]. cbn [fst snd] in *. rewrite R in *.
      destruct (ideal_all r val y0) as [z0 c']. cbn [fst snd] in *. split; [exact R'|].
      rewrite C', C, <- app_assoc. reflexivity.
  Qed.

  (** ** Strict mode *)
  Definition flags_stay (s t : state F) : Prop :=
    next s <= next t /\ forall a, a < next s -> quantized (mem t a) = quantized (mem s a).
  Lemma extends_flags : forall s t, extends s t -> flags_stay s t.
  Proof. intros s t (A & B). split; auto. intros a L. rewrite B; auto. Qed.
  Lemma flags_trans : forall s t u, flags_stay s t -> flags_stay t u -> flags_stay s u.
  Proof. intros s t u (A & B) (C & E). split; [lia|]. intros a L. rewrite E, B; auto. lia. Qed.

  Definition strict_spec (s : state F) (acc : option bool) (strict_r plain_r : result (nat * state F)) : Prop :=
    match acc with
    | None => strict_r = Err QuantizationError
    | Some f => exists y t, strict_r = Ok (y, t) /\ plain_r = Ok (y, t) /\ quantized (mem t y) = f
                /\ y < next t /\ flags_stay s t
    end.

  Lemma finish_strict : forall (g acc : bool) oq s s' d, acc = g -> flags_stay s s' ->
    strict_spec s (if acc then Some (is_real oq) else None)
      (if g then Ok (finish oq s' d) else Err QuantizationError) (Ok (finish oq s' d)).
  Proof.
    intros g acc oq s s' d -> Fl. destruct g; [|reflexivity].
    destruct (finish_spec oq s' d) as (y & t & E & X & L & R & C & Q). rewrite E. exists y, t.
    split; [reflexivity|]. split; [reflexivity|]. split; [exact Q|]. split; [exact L|].
    eapply flags_trans; eauto. apply extends_flags. exact X.
  Qed.

  Lemma extends_flag : forall s t a, extends s t -> a < next s -> quantized (mem t a) = quantized (mem s a).
  Proof. intros s t a (_ & B) L. rewrite B; auto. Qed.

  Lemma opt_ok_ext : forall q qp qp' (w : option nat), (forall a, w = Some a -> qp a = qp' a) ->
    @opt_ok F q qp w = opt_ok q qp' w.
  Proof. intros q qp qp' [a|] H; cbn; auto. rewrite H; auto. Qed.

  Lemma forward_strict :
    (forall (m : qmodule F) x s qp, x < next s -> (forall p, In p (qparams m) -> p < next s /\ quantized (mem s p) = qp p) ->
       strict_spec s (accepted m (quantized (mem s x)) qp) (forward true m x s) (forward false m x s))
    /\ (forall (l : qmodules F) x s qp, x < next s -> (forall p, In p (qparams_all l) -> p < next s /\ quantized (mem s p) = qp p) ->
       strict_spec s (accepted_all l (quantized (mem s x)) qp) (forward_all true l x s) (forward_all false l x s)).
  Proof.
    apply qmodule_qmodules_ind.
    - intros iq wq bq oq w b x s qp Lx P.
      destruct (P w (or_introl eq_refl)) as (Lw & Vw).
      assert (Lb : forall c, b = Some c -> c < next s) by (intros c ->; apply P; right; left; reflexivity).
      cbn [forward accepted].
      destruct (aq_spec iq s x Lx) as (x' & s1 & E1 & X1 & L1 & _ & _ & Q1). rewrite E1.
      assert (Lw1 : w < next s1) by (destruct X1; lia).
      destruct (aq_spec wq s1 w Lw1) as (w' & s2 & E2 & X2 & L2 & _ & _ & Q2). rewrite E2.
      assert (Lb2 : forall c, b = Some c -> c < next s2).
      { intros c Q. specialize (Lb c Q). destruct X1, X2. lia. }
      destruct (qopt_spec bq s2 b Lb2) as (b' & s3 & E3 & X3 & _). rewrite E3.
      cbn [guard negb orb forallb]. apply finish_strict.
      + rewrite andb_true_r, <- Vw, (extends_flag s2 s3 w'), Q2, (extends_flag s s1 w), (extends_flag s1 s3 x'), Q1; auto.
        eapply extends_trans; eauto.
      + apply extends_flags. eapply extends_trans; [exact X1|eapply extends_trans; eauto].
    - intros iq wq bq oq d w b c p mode x s qp Lx P.
      destruct (P w (or_introl eq_refl)) as (Lw & Vw).
      assert (Lb : forall c, b = Some c -> c < next s) by (intros c0 ->; apply P; right; left; reflexivity).
      cbn [forward accepted].
      destruct (aq_spec iq s x Lx) as (x' & s1 & E1 & X1 & L1 & _ & _ & Q1). rewrite E1.
      assert (Lw1 : w < next s1) by (destruct X1; lia).
      destruct (aq_spec wq s1 w Lw1) as (w' & s2 & E2 & X2 & L2 & _ & _ & Q2). rewrite E2.
      assert (Lb2 : forall c, b = Some c -> c < next s2).
      { intros c0 Q. specialize (Lb c0 Q). destruct X1, X2. lia. }
      destruct (qopt_spec bq s2 b Lb2) as (b' & s3 & E3 & X3 & _). rewrite E3.
      cbn [guard negb orb forallb]. apply finish_strict.
      + rewrite andb_true_r, <- Vw, (extends_flag s2 s3 w'), Q2, (extends_flag s s1 w), (extends_flag s1 s3 x'), Q1; auto.
        eapply extends_trans; eauto.
      + apply extends_flags. eapply extends_trans; [exact X1|eapply extends_trans; eauto].
    - intros iq wq bq oq w b c x s qp Lx P.
      assert (Lw : forall c, w = Some c -> c < next s /\ quantized (mem s c) = qp c) by (intros c0 ->; apply P; left; reflexivity).
      assert (Lb : forall c, b = Some c -> c < next s).
      { intros c0 ->. apply P. cbn [qparams]. apply in_app_iff. right. left. reflexivity. }
      cbn [forward accepted].
      destruct (aq_spec iq s x Lx) as (x' & s1 & E1 & X1 & L1 & _ & _ & Q1). rewrite E1.
      assert (Lw1 : forall c, w = Some c -> c < next s1) by (intros c0 Q; destruct (Lw c0 Q); destruct X1; lia).
      destruct (qopt_spec wq s1 w Lw1) as (w' & s2 & E2 & X2 & L2 & _ & _ & Q2). rewrite E2.
      assert (Lb2 : forall c, b = Some c -> c < next s2).
      { intros c0 Q. specialize (Lb c0 Q). destruct X1, X2. lia. }
      destruct (qopt_spec bq s2 b Lb2) as (b' & s3 & E3 & X3 & _). rewrite E3.
      cbn [guard negb orb forallb]. apply finish_strict.
      + rewrite (extends_flag s1 s3 x'), Q1; auto; [|eapply extends_trans; eauto]. f_equal.
        rewrite (opt_ok_ext wq qp (fun c => quantized (mem s1 c)) w).
        * rewrite <- Q2. destruct w' as [w'|]; cbn; auto. rewrite (extends_flag s2 s3); auto.
        * intros a ->. destruct (Lw a eq_refl) as (La & Qa). rewrite <- Qa. symmetry. apply extends_flag; auto.
      + apply extends_flags. eapply extends_trans; [exact X1|eapply extends_trans; eauto].
    - intros wq oq w c x s qp Lx P.
      destruct (P w (or_introl eq_refl)) as (Lw & Vw).
      cbn [forward accepted].
      destruct (aq_spec wq s w Lw) as (w' & s1 & E1 & X1 & L1 & R1 & C1 & Q1). rewrite E1.
      cbn [guard negb orb forallb]. rewrite andb_true_r, Q1, Vw.
      destruct (qp w || is_real wq) eqn:G; [|reflexivity].
      unfold strict_spec. unfold alloc. cbv beta iota zeta.
      match goal with |- context [finish oq ?st _] => set (s3 := st) end.
      match goal with |- context [finish oq s3 ?d] => set (dd := d) end.
      assert (Fl : flags_stay s1 s3).
      { unfold s3. destruct (f_renorm F _ _ c).
        - split; cbn; [lia|]. intros a La. destruct (a =? next s1) eqn:Q; [apply Nat.eqb_eq in Q; lia|reflexivity].
        - split; cbn; [lia|]. intros a La. destruct (a =? next s1) eqn:Q; [apply Nat.eqb_eq in Q; lia|reflexivity]. }
      destruct (finish_spec oq s3 dd) as (y & t & E & X & L & R & C & Q). rewrite E. exists y, t.
      split; [reflexivity|]. split; [reflexivity|]. split; [exact Q|]. split; [exact L|].
      eapply flags_trans; [apply extends_flags; exact X1|]. eapply flags_trans; [exact Fl|].
      apply extends_flags. exact X.
    - intros iq oq f x s qp Lx _. cbn [forward accepted].
      destruct (aq_spec iq s x Lx) as (x' & s1 & E1 & X1 & L1 & _ & _ & Q1). rewrite E1.
      cbn [guard negb orb forallb]. apply finish_strict.
      + rewrite andb_true_r, Q1. reflexivity.
      + apply extends_flags. exact X1.
    - intros l IH x s qp Lx P. exact (IH x s qp Lx P).
    - intros x s qp Lx _. exists x, s. cbn. split; [reflexivity|]. split; [reflexivity|]. split; [reflexivity|].
      split; [exact Lx|]. split; auto.
    - intros m IHm r IHr x s qp Lx P.
      specialize (IHm x s qp Lx (fun p I => P p (in_or_app _ _ _ (or_introl I)))).
      change (accepted_all (QCons m r) (quantized (mem s x)) qp) with
        (match accepted m (quantized (mem s x)) qp with Some qy => accepted_all r qy qp | None => None end).
      rewrite !forward_all_cons. unfold strict_spec in IHm.
      destruct (accepted m (quantized (mem s x)) qp) as [qy|].
      + destruct IHm as (y & t & E1 & E2 & Q & L & Fl). rewrite E1, E2. cbn [rbind fst snd]. rewrite <- Q.
        assert (IH := IHr y t qp L). unfold strict_spec in *.
        destruct (accepted_all r (quantized (mem t y)) qp).
        * destruct IH as (z & u & A1 & A2 & A3 & A4 & A5).
          { intros p I. destruct (P p (in_or_app _ _ _ (or_intror I))) as (Lp & Vp). destruct Fl as (N & Fl).
            split; [lia|]. rewrite Fl; auto. }
          exists z, u. split; [exact A1|]. split; [exact A2|]. split; [exact A3|]. split; [exact A4|].
          eapply flags_trans; eauto.
        * apply IH. intros p I. destruct (P p (in_or_app _ _ _ (or_intror I))) as (Lp & Vp). destruct Fl as (N & Fl).
          split; [lia|]. rewrite Fl; auto.
      + rewrite IHm. reflexivity.
  Qed.
End Quant.

Lemma pair_stub_opt : forall (F : torch) (b : option nat), pair_opt F (stub_opt b) b = map (fun a => (a, Stub)) (opt_list b).
Proof. intros F [b|]; reflexivity. Qed.

Lemma converted_parameters : forall (F : torch) (m : module F), well_made m ->
  parameter_quantizers (quantize m) = map (fun a => (a, Stub)) (params m).
Proof.
  intros F. fix rec 1.
  assert (all : forall l : modules F, well_made_all l ->
    parameter_quantizers_all (quantize_all l) = map (fun a => (a, Stub)) (params_all l)).
  { fix rec2 1. intros [|m r] W; [reflexivity|]. destruct W as [W1 W2]. cbn [quantize_all parameter_quantizers_all params_all].
    rewrite map_app. f_equal; [apply rec, W1|apply rec2, W2]. }
  intros [w b|d w b c p mode|af w b c|w c|f ip|l] W; cbn [quantize parameter_quantizers params map]; try reflexivity.
  - now rewrite pair_stub_opt.
  - now rewrite pair_stub_opt.
  - destruct W as [->|[-> ->]].
    + destruct w, b; reflexivity.
    + destruct af; reflexivity.
  - exact (all l W).
Qed.
