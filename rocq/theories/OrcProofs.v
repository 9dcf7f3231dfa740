(** Proofs about the registry of pipelines and export requests. *)
From Coq Require Import Ascii String List Arith Bool Lia.
From Verif Require Import Prelude OrcModel OrcSpec.
Import ListNotations.

Lemma text_eqb_eq : forall a b, text_eqb a b = true <-> a = b.
Proof.
  induction a as [|c a IH]; intros [|d b]; cbn; split; intro H; try discriminate; auto.
  - apply andb_prop in H as [E H]. apply Ascii.eqb_eq in E. apply IH in H. congruence.
  - injection H as -> ->. rewrite Ascii.eqb_refl. cbn. now apply IH.
Qed.
Lemma key_eqb_eq : forall a b, key_eqb a b = true <-> a = b.
Proof.
  intros [a b] [c d]. unfold key_eqb. cbn [fst snd]. rewrite andb_true_iff, !text_eqb_eq. split; [intros [-> ->]; auto|intro H; injection H; auto].
Qed.

(** ** White space *)
Lemma space_table : forall c, is_space c = existsb (Ascii.eqb c) white.
Proof. intros [[] [] [] [] [] [] [] []]; vm_compute; reflexivity. Qed.
Lemma space_spec : forall c, is_space c = true <-> In c white.
Proof.
  intro c. rewrite space_table, existsb_exists. split.
  - intros (x & I & E). apply Ascii.eqb_eq in E. now subst.
  - intro I. exists c. split; auto. apply Ascii.eqb_refl.
Qed.
Lemma not_space : forall c, is_space c = false <-> ~ In c white.
Proof. intro c. rewrite <- space_spec. destruct (is_space c); split; congruence. Qed.

Definition starts_black (s : text) : Prop := forall c r, s = c :: r -> ~ In c white.
Lemma drop_split : forall s, exists a, s = a ++ drop_spaces s /\ all_white a /\ starts_black (drop_spaces s).
Proof.
  induction s as [|c s (a & E & W & B)].
  - exists []. split; [reflexivity|]. split; [intros c []|intros c r H; discriminate].
  - cbn [drop_spaces]. destruct (is_space c) eqn:S.
    + exists (c :: a). split; [cbn; now rewrite <- E|]. split; [|exact B]. intros x [<-|I]; [now apply space_spec|auto].
    + exists []. split; [reflexivity|]. split; [intros x []|]. intros x r H. injection H as <- <-. now apply not_space.
Qed.
Lemma drop_white : forall a s, all_white a -> drop_spaces (a ++ s) = drop_spaces s.
Proof.
  induction a as [|c a IH]; intros s W; [reflexivity|]. cbn [app drop_spaces].
  assert (E : is_space c = true) by (apply space_spec, W; now left). rewrite E. apply IH. intros x I. apply W. now right.
Qed.
Lemma drop_black : forall s, starts_black s -> drop_spaces s = s.
Proof.
  intros [|c s] B; [reflexivity|]. cbn. assert (E : is_space c = false) by (apply not_space, (B c s eq_refl)). now rewrite E.
Qed.
Lemma white_rev : forall a, all_white a -> all_white (rev a).
Proof. intros a W c I. apply W. now apply in_rev. Qed.

Lemma strip_trimmed : forall s, trimmed s (strip s).
Proof.
  intro s. unfold strip. destruct (drop_split s) as (a & E & W & B). set (t := drop_spaces s) in *.
  destruct (drop_split (rev t)) as (b & E2 & W2 & B2). set (d := drop_spaces (rev t)) in *.
  assert (T : t = rev d ++ rev b) by (rewrite <- rev_app_distr, <- E2; symmetry; apply rev_involutive).
  exists a, (rev b). split; [now rewrite <- T|]. split; [exact W|]. split; [now apply white_rev|]. split.
  - intros c r H. rewrite H in T. exact (B c _ T).
  - intros c r H. apply (B2 c (rev r)). rewrite <- (rev_involutive d), H, rev_app_distr. reflexivity.
Qed.
Lemma trimmed_strip : forall s t, trimmed s t -> t = strip s.
Proof.
  intros s t (a & b & -> & Wa & Wb & H1 & H2). unfold strip. rewrite drop_white by exact Wa. destruct t as [|c t].
  - cbn [app]. rewrite <- (app_nil_r b), drop_white by exact Wb. reflexivity.
  - rewrite (drop_black ((c :: t) ++ b)) by (intros x r E; injection E as <- _; exact (H1 c t eq_refl)).
    rewrite rev_app_distr, drop_white by now apply white_rev.
    rewrite drop_black; [symmetry; apply rev_involutive|]. intros x r E. apply (H2 x (rev r)).
    rewrite <- (rev_involutive (c :: t)), E. reflexivity.
Qed.

(** ** Case *)
Lemma lower_pair : forall c, lower_char c = c \/ In (c, lower_char c) (combine upper_case lower_case).
Proof. intros [[] [] [] [] [] [] [] []]; vm_compute; auto 40. Qed.
Lemma pair_lower : forall c d, In (c, d) (combine upper_case lower_case) -> lower_char c = d /\ lower_char d = d.
Proof.
  intros c d I. vm_compute in I. repeat (destruct I as [I|I]; [injection I as <- <-; vm_compute; auto|]). destruct I.
Qed.
Lemma pair_fun : forall c d e, In (c, e) (combine upper_case lower_case) -> In (d, e) (combine upper_case lower_case) -> c = d.
Proof.
  assert (A : forall c e, In (c, e) (combine upper_case lower_case) -> c = ascii_of_nat (nat_of_ascii e - 32)).
  { intros c e I. vm_compute in I. repeat (destruct I as [I|I]; [injection I as <- <-; vm_compute; auto|]). destruct I. }
  intros c d e H H'. apply A in H, H'. congruence.
Qed.
Lemma same_letter_lower : forall c d, same_letter c d <-> lower_char c = lower_char d.
Proof.
  intros c d. split.
  - intros [->|[H|H]]; auto; apply pair_lower in H as [H1 H2]; congruence.
  - intro E. destruct (lower_pair c) as [Hc|Hc], (lower_pair d) as [Hd|Hd].
    + left. congruence.
    + right. right. rewrite <- E, Hc in Hd. exact Hd.
    + right. left. rewrite E, Hd in Hc. exact Hc.
    + left. rewrite <- E in Hd. exact (pair_fun _ _ _ Hc Hd).
Qed.
Lemma lower_same : forall s t, Forall2 same_letter s t <-> lower s = lower t.
Proof.
  induction s as [|c s IH]; intros [|d t]; cbn; split; intro H; try discriminate; try (inversion H; fail); auto.
  - inversion H; subst. f_equal; [now apply same_letter_lower|now apply IH].
  - injection H as H1 H2. constructor; [now apply same_letter_lower|now apply IH].
Qed.
Lemma same_name_eq : forall s t, same_name s t <-> lower (strip s) = lower (strip t).
Proof.
  intros s t. split.
  - intros (s' & t' & A & B & H). apply trimmed_strip in A, B. subst. now apply lower_same.
  - intro H. exists (strip s), (strip t). split; [apply strip_trimmed|]. split; [apply strip_trimmed|]. now apply lower_same.
Qed.
Lemma key_same : forall t f t' f', key t f = key t' f' <-> same_name t t' /\ same_name f f'.
Proof.
  intros. unfold key. rewrite !same_name_eq. split; [intro H; injection H; auto|intros [-> ->]; auto].
Qed.

(** ** The registry *)
Section Registry.
  Variable factory : Type.
  Lemma find_set : forall k k' (f : factory) r, find_key k (set_key k' f r) = if key_eqb k k' then Some f else find_key k r.
  Proof.
    intros k k' f. induction r as [|[k2 g] r IH]; cbn; [reflexivity|]. destruct (key_eqb k' k2) eqn:E; cbn.
    - apply key_eqb_eq in E. subst k2. destruct (key_eqb k k'); reflexivity.
    - rewrite IH. destruct (key_eqb k k2) eqn:E2; auto. apply key_eqb_eq in E2. subst k2.
      destruct (key_eqb k k') eqn:E3; auto. apply key_eqb_eq in E3. subst k'.
      assert (key_eqb k k = true) by now apply key_eqb_eq. congruence.
  Qed.

  Lemma same_entry_key : forall (o : registration factory) t f, same_entry o t f <-> key_eqb (key t f) (key (target o) (format o)) = true.
  Proof.
    intros o t f. unfold same_entry. rewrite key_eqb_eq, <- key_same. split; auto.
  Qed.

  Lemma history_snoc : forall l (o : registration factory), history (l ++ [o]) = after_register (history l) o.
  Proof. intros. unfold history. now rewrite fold_left_app. Qed.

  Lemma after_found : forall r (o : registration factory) t f,
    find_key (key t f) (after_register r o) =
    if key_eqb (key t f) (key (target o) (format o))
    then (if replace o then Some (made o) else match find_key (key t f) r with Some x => Some x | None => Some (made o) end)
    else find_key (key t f) r.
  Proof.
    intros r o t f. unfold after_register, register. destruct (key_eqb (key t f) (key (target o) (format o))) eqn:E.
    - apply key_eqb_eq in E. rewrite <- E. destruct (replace o); cbn [negb andb].
      + rewrite find_set. now rewrite (proj2 (key_eqb_eq _ _) eq_refl).
      + destruct (find_key (key t f) r) eqn:F; [exact F|]. rewrite find_set. now rewrite (proj2 (key_eqb_eq _ _) eq_refl).
    - destruct (negb (replace o) && _); auto. rewrite find_set, E. reflexivity.
  Qed.

  Lemma history_none : forall (l : list (registration factory)) t f, find_key (key t f) (history l) = None <-> forall o, In o l -> ~ same_entry o t f.
  Proof.
    induction l as [|o l IH] using rev_ind; intros t f.
    - split; [intros _ o []|reflexivity].
    - rewrite history_snoc, after_found. split.
      + intros H o' I S. apply in_app_or in I as [I|[<-|[]]].
        * destruct (key_eqb _ _); [|exact (proj1 (IH t f) H o' I S)].
          destruct (replace o); [discriminate|]. destruct (find_key (key t f) (history l)); discriminate.
        * apply same_entry_key in S. rewrite S in H. destruct (replace o); [discriminate|]. destruct (find_key (key t f) (history l)); discriminate.
      + intro H. destruct (key_eqb _ _) eqn:E.
        * exfalso. apply (H o); [apply in_or_app; right; now left|]. now apply same_entry_key.
        * apply IH. intros o' I. apply H. apply in_or_app. now left.
  Qed.

  Lemma snoc_split : forall (A : Type) (l b a : list A) o w, l ++ [o] = b ++ w :: a ->
    (a = [] /\ b = l /\ w = o) \/ exists a', a = a' ++ [o] /\ l = b ++ w :: a'.
  Proof.
    intros A l b a o w H. destruct a as [|x a] using rev_ind.
    - left. apply app_inj_tail in H as [-> ->]. auto.
    - right. exists a. change (b ++ w :: a ++ [x]) with (b ++ (w :: a) ++ [x]) in H. rewrite app_assoc in H.
      apply app_inj_tail in H as [-> ->]. auto.
  Qed.

  Lemma history_counts : forall (l : list (registration factory)) t f x, find_key (key t f) (history l) = Some x <-> counts l t f x.
  Proof.
    induction l as [|o l IH] using rev_ind; intros t f x.
    - split; [discriminate|]. intros ([|y b] & w & a & E & _); discriminate.
    - rewrite history_snoc, after_found. destruct (key_eqb _ _) eqn:E.
      + assert (S : same_entry o t f) by now apply same_entry_key.
        destruct (replace o) eqn:R.
        * split.
          -- intro H. injection H as <-. exists l, o, []. split; auto. split; auto. split; auto. split; auto. intros o' [].
          -- intros (b & w & a & H & Sw & M & _ & Af). apply snoc_split in H as [(-> & -> & ->)|(a' & -> & ->)]; [now subst|].
             exfalso. assert (replace o = false) by (apply Af; auto; apply in_or_app; right; now left). congruence.
        * destruct (find_key (key t f) (history l)) as [y|] eqn:F.
          -- rewrite <- F, IH. split.
             ++ intros (b & w & a & -> & Sw & M & C & Af). exists b, w, (a ++ [o]). split; [now rewrite <- app_assoc|].
                split; auto. split; auto. split; auto. intros o' I S'. apply in_app_or in I as [I|[<-|[]]]; auto.
             ++ intros (b & w & a & H & Sw & M & C & Af). apply snoc_split in H as [(-> & -> & ->)|(a' & -> & ->)].
                ** exfalso. destruct C as [C|C]; [congruence|]. apply history_none in C. congruence.
                ** exists b, w, a'. split; auto. split; auto. split; auto. split; auto. intros o' I. apply Af. apply in_or_app. now left.
          -- pose proof (proj1 (history_none l t f) F) as N. split.
             ++ intro H. injection H as <-. exists l, o, []. split; auto. split; auto. split; auto. split; auto. intros o' [].
             ++ intros (b & w & a & H & Sw & M & C & Af). apply snoc_split in H as [(-> & -> & ->)|(a' & -> & ->)]; [now subst|].
                exfalso. apply (N w); auto. apply in_or_app. right. now left.
      + assert (S : ~ same_entry o t f) by (rewrite same_entry_key; congruence). rewrite IH. split.
        * intros (b & w & a & -> & Sw & M & C & Af). exists b, w, (a ++ [o]). split; [now rewrite <- app_assoc|].
          split; auto. split; auto. split; auto. intros o' I S'. apply in_app_or in I as [I|[<-|[]]]; auto. contradiction.
        * intros (b & w & a & H & Sw & M & C & Af). apply snoc_split in H as [(-> & -> & ->)|(a' & -> & ->)]; [contradiction|].
          exists b, w, a'. split; auto. split; auto. split; auto. split; auto. intros o' I. apply Af. apply in_or_app. now left.
  Qed.

  Lemma register_raises : forall (l : list (registration factory)) t f x b,
    (register (history l) t f x b = Err ValueError /\ b = false /\ exists o, In o l /\ same_entry o t f)
    \/ (register (history l) t f x b = Ok (history (l ++ [mkReg t f x b])) /\ (b = true \/ forall o, In o l -> ~ same_entry o t f)).
  Proof.
    intros l t f x b. rewrite history_snoc. unfold after_register. cbn [target format made replace].
    unfold register at 1 2 3. destruct (negb b && _) eqn:E.
    - left. apply andb_prop in E as [E1 E2]. split; [reflexivity|]. split; [now destruct b|].
      destruct (find_key (key t f) (history l)) as [y|] eqn:F; [|discriminate].
      apply history_counts in F as (bf & o & a & -> & S & _). exists o. split; auto. apply in_or_app. right. now left.
    - right. split; [reflexivity|]. destruct b; auto. right. apply history_none.
      cbn in E. now destruct (find_key (key t f) (history l)).
  Qed.
End Registry.

(** ** Contexts *)
Lemma entry_cons : forall k k' v c, entry k ((k', v) :: c) = if list_eq_dec ascii_dec k' k then Some v else entry k c.
Proof. intros. unfold entry. cbn [find fst]. destruct (list_eq_dec ascii_dec k' k); reflexivity. Qed.
Lemma entry_set : forall k k' v c, entry k (set_option k' v c) = if list_eq_dec ascii_dec k' k then Some v else entry k c.
Proof.
  intros k k' v. induction c as [|[k2 u] c IH]; cbn [set_option].
  - rewrite entry_cons. reflexivity.
  - destruct (text_eqb k' k2) eqn:E.
    + apply text_eqb_eq in E. subst k2. rewrite !entry_cons. destruct (list_eq_dec ascii_dec k' k); reflexivity.
    + rewrite !entry_cons, IH. destruct (list_eq_dec ascii_dec k2 k) as [->|]; auto.
      destruct (list_eq_dec ascii_dec k' k) as [->|]; auto. assert (text_eqb k k = true) by now apply text_eqb_eq. congruence.
Qed.
Lemma entry_none : forall k c, ~ In k (map fst c) -> entry k c = None.
Proof.
  intros k. induction c as [|[k' v] c IH]; intro N; [reflexivity|]. rewrite entry_cons. cbn in N.
  destruct (list_eq_dec ascii_dec k' k); [tauto|]. apply IH. tauto.
Qed.
Lemma entry_update : forall k l c, NoDup (map fst l) -> entry k (update c l) = match entry k l with Some v => Some v | None => entry k c end.
Proof.
  intros k. unfold update. induction l as [|[k' v] l IH]; intros c N; [reflexivity|]. inversion N as [|? ? A B]; subst.
  cbn [fold_left fst snd]. rewrite IH, entry_set, entry_cons by exact B. destruct (list_eq_dec ascii_dec k' k) as [->|]; auto.
  now rewrite (entry_none _ _ A).
Qed.
