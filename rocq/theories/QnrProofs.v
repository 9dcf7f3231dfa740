(** Proofs about references by qualified names. *)
From Coq Require Import Ascii List Arith Bool Lia.
From Verif Require Import Prelude QnrModel QnrSpec.
Import ListNotations.

Lemma split_ne : forall s, split s <> [].
Proof. destruct s as [|c s]; cbn; [discriminate|]. destruct (split s); [discriminate|]. destruct (Ascii.eqb c dot); discriminate. Qed.

Lemma split_dotted : forall s, dotted (split s) s.
Proof.
  induction s as [|c s IH]; cbn [split]; [constructor; intros []|].
  destruct (split s) as [|p r] eqn:E; [now apply split_ne in E|].
  destruct (Ascii.eqb c dot) eqn:D.
  - apply Ascii.eqb_eq in D. subst c. change (dot :: s) with ([] ++ "."%char :: s). constructor; [intros []|exact IH].
  - apply Ascii.eqb_neq in D. inversion IH as [p' N|p' l s' N H]; subst.
    + constructor. intros [E2|I]; [now apply D|auto].
    + change (c :: p ++ "."%char :: s') with ((c :: p) ++ "."%char :: s'). constructor; auto. intros [E2|I]; [now apply D|auto].
Qed.
Lemma dotted_join : forall l s, dotted l s -> join l = s.
Proof.
  induction 1 as [p N|p l s N H IH]; [reflexivity|]. cbn [join]. destruct l as [|q l]; [inversion H|]. now rewrite IH.
Qed.
Lemma split_app : forall p s, ~ In "."%char p -> split (p ++ "."%char :: s) = p :: split s.
Proof.
  induction p as [|c p IH]; intros s N.
  - cbn [app split]. destruct (split s) eqn:E; [now apply split_ne in E|]. reflexivity.
  - cbn [app split]. rewrite IH by (intro; apply N; now right). destruct (Ascii.eqb c dot) eqn:D; auto.
    apply Ascii.eqb_eq in D. exfalso. apply N. left. exact D.
Qed.
Lemma split_plain : forall p, ~ In "."%char p -> split p = [p].
Proof.
  induction p as [|c p IH]; intro N; [reflexivity|]. cbn [split]. rewrite IH by (intro; apply N; now right).
  destruct (Ascii.eqb c dot) eqn:D; auto. apply Ascii.eqb_eq in D. exfalso. apply N. left. exact D.
Qed.
Lemma dotted_split : forall l s, dotted l s -> split s = l.
Proof. induction 1 as [p N|p l s N H IH]; [now apply split_plain|]. rewrite split_app by exact N. now rewrite IH. Qed.
Lemma dotted_fun : forall l s s', dotted l s -> dotted l s' -> s = s'.
Proof. intros l s s' H H'. apply dotted_join in H, H'. congruence. Qed.
Lemma dotted_parts : forall l s, dotted l s -> l <> [] /\ forall p, In p l -> ~ In "."%char p.
Proof.
  induction 1 as [p N|p l s N H [IH1 IH2]]; split; try discriminate.
  - intros q [<-|[]]. exact N.
  - intros q [<-|I]; auto.
Qed.
Lemma dotted_ex : forall l, l <> [] -> (forall p, In p l -> ~ In "."%char p) -> dotted l (join l).
Proof.
  induction l as [|p l IH]; intros N H; [congruence|]. destruct l as [|q l].
  - cbn. constructor. apply H. now left.
  - cbn [join]. constructor; [apply H; now left|]. apply IH; [discriminate|]. intros x I. apply H. now right.
Qed.
Lemma dotted_prefix : forall a b s, dotted (a ++ b) s -> a <> [] -> dotted a (join a).
Proof.
  intros a b s H N. apply dotted_ex; auto. intros p I. apply dotted_parts in H as [_ H]. apply H. apply in_or_app. now left.
Qed.
Lemma dotted_app : forall a s b t, dotted a s -> dotted b t -> dotted (a ++ b) (s ++ "."%char :: t).
Proof.
  intros a s b t H Hb. induction H as [p N|p l s N H IH]; [now constructor|]. rewrite <- app_assoc. cbn [app]. now constructor.
Qed.

Section Proofs.
  Variable object : Type.
  Variable load : list ascii -> loaded object.
  Variable attr : object -> list ascii -> option object.

  Lemma follow_path : forall l m o, follow attr m l = Some o <-> path attr m l o.
  Proof.
    induction l as [|x l IH]; intros m o; cbn.
    - split; intro H; [injection H as ->; constructor|inversion H; subst; reflexivity].
    - split.
      + destruct (attr m x) as [p|] eqn:E; [|discriminate]. intro H. econstructor; eauto. now apply IH.
      + intro H. inversion H as [|? ? p ? ? E P]; subst. rewrite E. now apply IH.
  Qed.

  (** All beginnings of [rev r] longer than ... are unknown. *)
  Lemma prefix_spec : forall r b s, dotted (rev r ++ b) s ->
    (forall c d s, b = c ++ d -> c <> [] -> dotted (rev r ++ c) s -> load s = NotFound) ->
    match import_prefix load r b with
    | Object (m, n, mem) => exists a, rev r ++ b = a ++ mem /\ longest load a mem (Found m) /\ dotted a n
    | ImportError => forall a c n, rev r ++ b = a ++ c -> dotted a n -> load n = NotFound
    | Raises e => exists a mem, rev r ++ b = a ++ mem /\ longest load a mem (Fails e)
    end.
  Proof.
    induction r as [|p r IH]; intros b s D H; cbn [import_prefix].
    - cbn in *. intros a c n E Dn. apply (H a c n E); auto. apply dotted_parts in Dn. tauto.
    - assert (Dp : dotted (rev (p :: r)) (join (rev (p :: r)))).
      { eapply dotted_prefix; [exact D|]. cbn. destruct (rev r); discriminate. }
      destruct (load (join (rev (p :: r)))) as [m| |e] eqn:L.
      + exists (rev (p :: r)). split; [reflexivity|]. split; [|exact Dp]. split; [discriminate|]. split; [eauto|]. exact H.
      + cbn [rev] in *. rewrite <- app_assoc in *. cbn [app] in *. apply (IH (p :: b) s D).
        intros c d t E N Dt. destruct c as [|q c]; [congruence|]. cbn in E. injection E as <- E.
        destruct c as [|q' c].
        * rewrite <- (dotted_fun _ _ _ Dp Dt) in *. exact L.
        * apply (H (q' :: c) d t E); [discriminate|]. rewrite <- app_assoc. exact Dt.
      + exists (rev (p :: r)), b. split; [reflexivity|]. split; [discriminate|]. split; [eauto|]. exact H.
  Qed.

  Lemma prefix_whole : forall l s, dotted l s ->
    match import_prefix load (rev l) [] with
    | Object (m, n, mem) => exists a, l = a ++ mem /\ longest load a mem (Found m) /\ dotted a n
    | ImportError => forall a c n, l = a ++ c -> dotted a n -> load n = NotFound
    | Raises e => exists a mem, l = a ++ mem /\ longest load a mem (Fails e)
    end.
  Proof.
    intros l s D. pose proof (prefix_spec (rev l) [] s) as H. rewrite rev_involutive, app_nil_r in H. apply H; [exact D|].
    intros c d t E N. destruct c; [congruence|discriminate].
  Qed.

  Lemma longest_unique : forall a b a' b' r r', a ++ b = a' ++ b' -> longest load a b r -> longest load a' b' r' -> a = a' /\ b = b' /\ r = r'.
  Proof.
    intros a b a' b' r r' E (N & (s & D & L) & M) (N' & (s' & D' & L') & M').
    assert (K : forall x y : list (list ascii), (exists c, a = a' ++ c /\ b' = c ++ b) \/ (exists c, a' = a ++ c /\ b = c ++ b')).
    { intros _ _. clear -E. revert a' E. induction a as [|x a IH]; intros [|y a'] E; cbn in E.
      - left. exists []. auto.
      - right. exists (y :: a'). auto.
      - left. exists (x :: a). auto.
      - injection E as -> E. destruct (IH a' E) as [(c & -> & ->)|(c & -> & ->)]; [left|right]; exists c; auto. }
    destruct (K [] []) as [(c & -> & ->)|(c & -> & ->)]; destruct c as [|x c].
    - rewrite app_nil_r in *. cbn in *. rewrite (dotted_fun _ _ _ D D') in L. rewrite <- L, <- L'. auto.
    - exfalso. apply N. rewrite <- L. apply (M' (x :: c) b s); [reflexivity|discriminate|exact D].
    - rewrite app_nil_r in *. cbn in *. rewrite (dotted_fun _ _ _ D D') in L. rewrite <- L, <- L'. auto.
    - exfalso. apply N'. rewrite <- L'. apply (M (x :: c) b' s'); [reflexivity|discriminate|exact D'].
  Qed.

  Lemma import_spec : forall l s, dotted l s ->
    match import load attr s with
    | Object o => exists a b m, l = a ++ b /\ longest load a b (Found m) /\ path attr m b o
    | ImportError => (forall a c n, l = a ++ c -> dotted a n -> load n = NotFound)
                     \/ exists a b m, l = a ++ b /\ longest load a b (Found m) /\ forall o, ~ path attr m b o
    | Raises e => exists a b, l = a ++ b /\ longest load a b (Fails e)
    end.
  Proof.
    intros l s D. unfold import. rewrite (dotted_split _ _ D). pose proof (prefix_whole l s D) as H.
    destruct (import_prefix load (rev l) []) as [[[m n] mem]| |e]; auto.
    destruct H as (a & E & L & _). destruct (follow attr m mem) as [o|] eqn:F.
    - exists a, mem, m. split; [exact E|]. split; [exact L|]. now apply follow_path.
    - right. exists a, mem, m. split; [exact E|]. split; [exact L|]. intros o P. apply follow_path in P. congruence.
  Qed.
  Lemma import_conv : forall l s a b m o, dotted l s -> l = a ++ b -> longest load a b (Found m) -> path attr m b o ->
    import load attr s = Object o.
  Proof.
    intros l s a b m o D E L P. unfold import. rewrite (dotted_split _ _ D). pose proof (prefix_whole l s D) as H.
    destruct (import_prefix load (rev l) []) as [[[m' n] mem]| |e].
    - destruct H as (a' & E' & L' & _). rewrite E in E'. destruct (longest_unique _ _ _ _ _ _ E' L L') as (<- & <- & F).
      injection F as <-. apply follow_path in P. now rewrite P.
    - exfalso. destruct L as (N & (t & Dt & Lt) & _). specialize (H a b t E Dt). congruence.
    - exfalso. destruct H as (a' & mem & E' & L'). rewrite E in E'. destruct (longest_unique _ _ _ _ _ _ E' L L') as (_ & _ & F). discriminate.
  Qed.
  Lemma import_module_spec : forall l s m n, dotted l s -> import_module load s = Object (m, n) ->
    exists a b, l = a ++ b /\ longest load a b (Found m) /\ dotted a n.
  Proof.
    intros l s m n D. unfold import_module. rewrite (dotted_split _ _ D). pose proof (prefix_whole l s D) as H.
    destruct (import_prefix load (rev l) []) as [[[m' n'] mem]| |e]; try discriminate. intro E. injection E as <- <-.
    destruct H as (a & E & L & Dn). eauto.
  Qed.
End Proofs.
