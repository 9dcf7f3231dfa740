(** Proofs about running passes. *)
From Coq Require Import List Arith Bool Lia.
From Verif Require Import Prelude PmgModel PmgSpec.
Import ListNotations.

Section Proofs.
  Variables node cls : Type.
  Variable class_of : node -> cls.
  Variable below : cls -> cls -> bool.
  Notation ap := (apply_pass class_of below).
  Notation tu := (turns class_of below).

  Lemma same_ok : forall v n m, visit_same class_of below v n = Ok m <->
    on_statement v n = Ok (Node m) /\ below (class_of m) (class_of n) = true.
  Proof.
    intros v n m. unfold visit_same, is_instance. destruct (on_statement v n) as [[a| |l]|e]; cbn.
    - destruct (below (class_of a) (class_of n)) eqn:E; split; intro H; try discriminate.
      + injection H as ->. auto.
      + destruct H as [H _]. congruence.
      + destruct H as [H B]. injection H as ->. congruence.
    - split; [discriminate|intros [H _]; discriminate].
    - split; [discriminate|intros [H _]; discriminate].
    - split; [discriminate|intros [H _]; discriminate].
  Qed.
  Lemma metadata_ok : forall v n m, apply_metadata class_of below v true n = Ok m <->
    exists l, leaves v n true (m :: l) /\ below (class_of m) (class_of n) = true.
  Proof.
    intros v n m. unfold apply_metadata, visit_module, is_instance. split.
    - destruct (on_statement v n) as [o|e] eqn:E; cbn; [|discriminate]. fold (left_by o).
      destruct (on_module v (left_by o)) as [[b|]|e] eqn:E2; cbn; try discriminate.
      destruct b as [|a b]; [discriminate|]. destruct (below (class_of a) (class_of n)) eqn:B; [|discriminate].
      intro H. injection H as ->. exists b. split; auto. econstructor; eauto.
    - intros (l & H & B). inversion H as [|o l' E E2]; subst. rewrite E. cbn. fold (left_by o). rewrite E2. cbn. now rewrite B.
  Qed.

  Lemma means_det : forall (p : pass node) v w, means p v w -> forall v' w', means p v' w' -> v = v' /\ w = w'.
  Proof. induction 1; intros v' w' H'; inversion H'; subst; auto; congruence. Qed.

  Lemma apply_ok : forall p n m, ap p n = Ok m <->
    exists v w, means p v w /\ below (class_of m) (class_of n) = true
    /\ if w then exists l, leaves v n true (m :: l) else on_statement v n = Ok (Node m).
  Proof.
    fix rec 1. intros [v|v w|[q|e]|] n m; cbn [apply_pass].
    - destruct (needs_metadata v) eqn:E.
      + rewrite metadata_ok. split.
        * intros (l & H & B). exists v, true. split; [now constructor|]. eauto.
        * intros (v' & w & M & B & H). inversion M; subst; try congruence. destruct H as [l H]. eauto.
      + rewrite same_ok. split.
        * intros (H & B). exists v, false. split; [now constructor|]. eauto.
        * intros (v' & w & M & B & H). inversion M; subst; try congruence. auto.
    - destruct w.
      + rewrite metadata_ok. split.
        * intros (l & H & B). exists v, true. split; [now constructor|]. eauto.
        * intros (v' & w & M & B & H). inversion M; subst. destruct H as [l H]. eauto.
      + cbn [apply_metadata]. rewrite same_ok. split.
        * intros (H & B). exists v, false. split; [now constructor|]. eauto.
        * intros (v' & w & M & B & H). inversion M; subst. auto.
    - rewrite rec. split; intros (v & w & M & H); exists v, w; (split; [|exact H]); [now constructor|now inversion M].
    - split; [discriminate|]. intros (v & w & M & _). inversion M.
    - split; [discriminate|]. intros (v & w & M & _). inversion M.
  Qed.

  Lemma apply_class : forall p n m, ap p n = Ok m -> below (class_of m) (class_of n) = true.
  Proof. intros p n m H. apply apply_ok in H as (v & w & _ & B & _). exact B. Qed.

  Lemma leaves_alone_inv : forall (v : visitor node) n l, leaves v n false l -> exists o, on_statement v n = Ok o /\ left_by o = l.
  Proof. intros v n l H. inversion H; subst. eauto. Qed.

  Lemma apply_single : forall p n m, single_pass p -> (ap p n = Ok m <-> tu p n m).
  Proof.
    intros p n m S. rewrite apply_ok. unfold turns. split.
    - intros (v & w & M & B & H). exists v, w. split; [exact M|]. split; [|exact B]. specialize (S v w M) as [S1 S2]. destruct w.
      + destruct H as [l H]. inversion H as [|o l' E E2]; subst. apply S2 in E2 as L. cbn in L.
        destruct l; [exact H|cbn in L; lia].
      + change [m] with (left_by (Node m)). now constructor.
    - intros (v & w & M & H & B). exists v, w. split; [exact M|]. split; [exact B|]. specialize (S v w M) as [S1 S2]. destruct w; [eauto|].
      destruct (leaves_alone_inv _ _ _ H) as (o & E & Q). destruct o as [a| |l]; cbn in Q; try discriminate.
      + injection Q as ->. exact E.
      + now apply S1 in E.
  Qed.

  Lemma run_chain : forall l i n r, (forall p, In p l -> single_pass p) ->
    (run_from class_of below i l n = Done r <-> chain class_of below l n r).
  Proof.
    induction l as [|p l IH]; intros i n r S; cbn [run_from].
    - split; intro H; [injection H as <-; constructor|inversion H; subst; reflexivity].
    - split.
      + destruct (ap p n) as [m|e] eqn:E; [|discriminate]. intro H.
        apply apply_single in E; [|apply S; now left]. apply IH in H; [|intros q I; apply S; now right]. econstructor; eauto.
      + intro H. inversion H as [|p' l' n' m k T C]; subst. apply apply_single in T; [|apply S; now left]. rewrite T.
        apply IH; auto. intros q I. apply S. now right.
  Qed.

  Lemma run_error : forall l i n k e, run_from class_of below i l n = PassManagerError k e <->
    exists before p after m, l = before ++ p :: after /\ k = i + length before
    /\ run_from class_of below i before n = Done m /\ ap p m = Err e.
  Proof.
    induction l as [|p l IH]; intros i n k e; cbn [run_from].
    - split; [discriminate|]. intros ([|x b] & q & a & m & E & _); discriminate.
    - destruct (ap p n) as [m|e'] eqn:E.
      + rewrite IH. split.
        * intros (b & q & a & m' & -> & -> & H & F). exists (p :: b), q, a, m'. split; [reflexivity|]. split; [cbn; lia|].
          split; [|exact F]. cbn [run_from]. now rewrite E.
        * intros ([|x b] & q & a & m' & H & -> & R & F).
          -- cbn in H, R. injection H as -> ->. injection R as ->. congruence.
          -- cbn in H. injection H as -> ->. cbn [run_from] in R. rewrite E in R.
             exists b, q, a, m'. split; [reflexivity|]. split; [cbn; lia|]. auto.
      + split.
        * intro H. injection H as <- <-. exists [], p, l, n. cbn. split; [reflexivity|]. split; [lia|]. auto.
        * intros ([|x b] & q & a & m' & H & -> & R & F).
          -- cbn in H, R. injection H as -> ->. injection R as ->. rewrite E in F. injection F as ->. f_equal. cbn. lia.
          -- cbn in H. injection H as -> ->. cbn [run_from] in R. rewrite E in R. discriminate.
  Qed.

  Lemma run_class : (forall c, below c c = true) -> (forall a b c, below a b = true -> below b c = true -> below a c = true) ->
    forall l i n r, run_from class_of below i l n = Done r -> below (class_of r) (class_of n) = true.
  Proof.
    intros Rf Tr. induction l as [|p l IH]; intros i n r H; cbn [run_from] in H.
    - injection H as <-. apply Rf.
    - destruct (ap p n) as [m|e] eqn:E; [|discriminate]. apply IH in H. apply apply_class in E. eauto.
  Qed.

  Lemma run_from_shift : forall l i n, run_from class_of below i l n =
    match run class_of below l n with Done r => Done r | PassManagerError k e => PassManagerError (i + k) e end.
  Proof.
    unfold run. assert (G : forall l i j n, run_from class_of below (i + j) l n =
      match run_from class_of below j l n with Done r => Done r | PassManagerError k e => PassManagerError (i + k) e end).
    { induction l as [|p l IH]; intros i j n; cbn [run_from]; [reflexivity|].
      destruct (ap p n) as [m|e]; [|reflexivity]. rewrite <- IH. f_equal. lia. }
    intros l i n. rewrite <- G. f_equal. lia.
  Qed.
  Lemma run_app : forall a b i n m, run_from class_of below i a n = Done m ->
    run_from class_of below i (a ++ b) n = run_from class_of below (i + length a) b m.
  Proof.
    induction a as [|p a IH]; intros b i n m H; cbn [run_from app length] in *.
    - injection H as ->. f_equal. lia.
    - destruct (ap p n) as [k|e]; [|discriminate]. rewrite (IH b _ _ _ H). f_equal. lia.
  Qed.
  Lemma run_one : forall p m e, run class_of below [p] m = PassManagerError 0 e <-> ap p m = Err e.
  Proof. intros p m e. unfold run. cbn. destruct (ap p m); split; intro H; congruence. Qed.
End Proofs.
