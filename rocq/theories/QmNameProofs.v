(** Proofs about the de-duplication of quantizer names. *)
From Coq Require Import String Ascii Sorted Permutation.
From Verif Require Import Prelude ModulesModel ModulesSpec ModulesProofs QmModel QmSpec QmProofs.
Local Open Scope nat_scope.
Local Open Scope list_scope.

Lemma app_assoc_s (a b c : string) : ((a ++ b) ++ c = a ++ (b ++ c))%string.
Proof. induction a; cbn; congruence. Qed.
Lemma app_nil_s (a : string) : (a ++ "" = a)%string.
Proof. induction a; cbn; congruence. Qed.
Lemma chars_app a b : list_ascii_of_string (a ++ b) = list_ascii_of_string a ++ list_ascii_of_string b.
Proof. induction a; cbn; congruence. Qed.
Lemma join_concat l : join_dots l = String.concat "." l.
Proof. induction l as [|x l IH]; [reflexivity|]. destruct l as [|y l]; [reflexivity|]. cbn [join_dots String.concat] in *. now rewrite IH. Qed.

Definition nodot (p : string) : Prop := ~ In "."%char (list_ascii_of_string p).
Lemma split_ne cur s : split_dots cur s <> [].
Proof. revert cur. induction s; intros cur; cbn; [discriminate|]. destruct Ascii.eqb; [discriminate|apply IHs]. Qed.
Lemma split_spec s : forall cur, nodot cur ->
  String.concat "." (split_dots cur s) = (cur ++ s)%string /\ Forall nodot (split_dots cur s).
Proof.
  induction s as [|c s IH]; intros cur Hc; cbn [split_dots].
  - cbn. rewrite app_nil_s. split; [reflexivity|]. constructor; [assumption|constructor].
  - destruct (Ascii.eqb c ".") eqn:E.
    + apply Ascii.eqb_eq in E. subst c. destruct (IH EmptyString) as [H1 H2]; [intros []|]. split; [|now constructor].
      pose proof (split_ne EmptyString s) as Hne. destruct (split_dots EmptyString s) as [|y l]; [congruence|].
      cbn [String.concat]. cbn [String.concat] in H1. rewrite H1. reflexivity.
    + apply Ascii.eqb_neq in E. destruct (IH (cur ++ String c EmptyString)%string) as [H1 H2].
      { unfold nodot. rewrite chars_app. intros H. apply in_app_or in H. destruct H as [H|[H|[]]]; [contradiction|congruence]. }
      split; [|assumption]. rewrite H1, app_assoc_s. reflexivity.
Qed.
Lemma parts_split name : parts name (split_dots EmptyString name).
Proof. destruct (split_spec name EmptyString) as [H1 H2]; [intros []|]. split; [apply split_ne|]. split; [symmetry; exact H1|exact H2]. Qed.
Lemma split_nodot p : forall cur s, nodot p -> split_dots cur (p ++ s) = split_dots (cur ++ p) s.
Proof.
  induction p as [|c p IH]; intros cur s H; cbn [append]; [now rewrite app_nil_s|]. cbn [split_dots].
  destruct (Ascii.eqb c ".") eqn:E; [apply Ascii.eqb_eq in E; subst c; exfalso; apply H; left; reflexivity|].
  rewrite IH; [|intros Hin; apply H; right; exact Hin]. now rewrite app_assoc_s.
Qed.
Lemma split_concat ps : ps <> [] -> Forall nodot ps -> split_dots EmptyString (String.concat "." ps) = ps.
Proof.
  induction ps as [|p ps IH]; intros Hne F; [congruence|]. inversion F as [|? ? F0 F1]; subst. destruct ps as [|q ps].
  - cbn [String.concat]. rewrite <- (app_nil_s p) at 1. now rewrite split_nodot.
  - cbn [String.concat]. rewrite split_nodot by assumption. cbn [append split_dots Ascii.eqb Bool.eqb]. f_equal. apply IH; [discriminate|assumption].
Qed.
Lemma parts_unique name ps : parts name ps -> ps = split_dots EmptyString name.
Proof. intros (H1 & -> & H2). symmetry. now apply split_concat. Qed.

Lemma digit_iff c : digit c = true <-> is_digit c.
Proof.
  destruct c as [b0 b1 b2 b3 b4 b5 b6 b7].
  destruct b0, b1, b2, b3, b4, b5, b6, b7; (split; [intros H; vm_compute in H; first [discriminate H|unfold is_digit; cbn; tauto]
    |intros H; first [reflexivity|exfalso; unfold is_digit in H; cbn in H; repeat (destruct H as [H|H]; [discriminate H|]); exact H]]).
Qed.
Lemma isdigit_iff p : isdigit p = true <-> number p.
Proof.
  unfold isdigit, number. rewrite andb_true_iff, negb_true_iff, String.eqb_neq.
  assert (all_digits p = true <-> Forall is_digit (list_ascii_of_string p)); [|tauto].
  induction p as [|c p IH]; cbn; [split; [constructor|reflexivity]|]. rewrite andb_true_iff, digit_iff, IH. split.
  - intros [H1 H2]. now constructor.
  - intros H. inversion H; auto.
Qed.
Lemma part_key_eq p q : part_key p = part_key q <-> p = q \/ (number p /\ number q).
Proof.
  unfold part_key. rewrite <- !isdigit_iff. destruct (isdigit p) eqn:E, (isdigit q) eqn:E'; split; intros H; try tauto; try discriminate.
  - destruct H as [->|[H1 H2]]; congruence.
  - destruct H as [->|[H1 H2]]; congruence.
  - left. congruence.
  - destruct H as [->|[H1 H2]]; congruence.
Qed.
Lemma alike_iff a b : alike a b <-> name_key a = name_key b.
Proof.
  unfold name_key. split.
  - intros (ps & qs & H1 & H2 & F). apply parts_unique in H1, H2. rewrite <- H1, <- H2. clear - F.
    induction F; cbn; [reflexivity|]. f_equal; [now apply part_key_eq|assumption].
  - intros H. exists (split_dots EmptyString a), (split_dots EmptyString b). split; [apply parts_split|]. split; [apply parts_split|].
    revert H. generalize (split_dots EmptyString a), (split_dots EmptyString b). induction l as [|p ps IH]; intros [|q qs] H; try discriminate; constructor.
    + apply part_key_eq. now injection H.
    + apply IH. now injection H.
Qed.
Lemma key_eqb_ok a b : key_eqb a b = true <-> a = b.
Proof.
  revert b. induction a as [|x a IH]; intros [|y b]; cbn; try (split; [discriminate|discriminate]); [split; reflexivity|].
  rewrite andb_true_iff, IH. assert (opt_eqb x y = true <-> x = y) as ->.
  { destruct x, y; cbn; try (split; congruence). rewrite String.eqb_eq. split; congruence. }
  split; [intros [-> ->]; reflexivity|]. intros E. injection E as -> ->. auto.
Qed.
Lemma pattern_key a s : pattern a s <-> s = String.concat "." (map show_part (name_key a)).
Proof.
  unfold name_key. split.
  - intros (ps & qs & H1 & F & ->). apply parts_unique in H1. rewrite <- H1. f_equal. clear - F.
    induction F as [|p q ps qs H F IH]; cbn; [reflexivity|]. f_equal; [|assumption]. unfold part_key.
    destruct (isdigit p) eqn:E; cbn.
    + apply isdigit_iff in E. destruct H as [[_ ->]|[H _]]; [reflexivity|contradiction].
    + destruct H as [[H _]|[_ ->]]; [apply isdigit_iff in H; congruence|reflexivity].
  - intros ->. exists (split_dots EmptyString a), (map show_part (map part_key (split_dots EmptyString a))).
    split; [apply parts_split|]. split; [|reflexivity]. generalize (split_dots EmptyString a). clear. induction l as [|p l IH]; cbn; constructor; [|assumption].
    unfold part_key. destruct (isdigit p) eqn:E; cbn; [left; split; [now apply isdigit_iff|reflexivity]|right; split; [|reflexivity]].
    rewrite <- isdigit_iff. congruence.
Qed.

Lemma plain_key m : ~ In "[]"%string (map show_part (name_key m)) -> map show_part (name_key m) = split_dots EmptyString m.
Proof.
  unfold name_key. generalize (split_dots EmptyString m). induction l as [|p ps IH]; cbn; [reflexivity|]. intros H.
  rewrite IH by tauto. f_equal. unfold part_key in *. destruct (isdigit p); [|reflexivity]. exfalso. apply H. left. reflexivity.
Qed.
Section Rows.
  Variable names : list string.
  Let l := map (fun n => (name_key n, n)) names.
  Let g := sort_by (group key_eqb l).

  Lemma values_names k : values key_eqb l k = filter (fun n => key_eqb k (name_key n)) names.
  Proof. unfold values, l. induction names as [|n ns IH]; cbn; [reflexivity|]. destruct key_eqb; cbn; congruence. Qed.
  Lemma g_in k vs : In (k, vs) g <-> vs = filter (fun n => key_eqb k (name_key n)) names /\ vs <> [].
  Proof.
    destruct (group_spec key_eqb key_eqb_ok l) as (_ & G & _). rewrite <- values_names, <- G. unfold g. split; intros H.
    - eapply Permutation_in; [apply sort_by_perm|exact H].
    - eapply Permutation_in; [symmetry; apply sort_by_perm|exact H].
  Qed.
  Lemma g_nodup : NoDup (map fst g).
  Proof.
    destruct (group_spec key_eqb key_eqb_ok l) as (N & _). eapply Permutation_NoDup; [apply Permutation_map; symmetry; apply sort_by_perm|exact N].
  Qed.
  Lemma g_member k vs n : In (k, vs) g -> In n vs -> In n names /\ name_key n = k.
  Proof.
    intros H Hn. apply g_in in H. destruct H as [-> _]. apply filter_In in Hn. destruct Hn as [Hn E]. apply key_eqb_ok in E. auto.
  Qed.
  Lemma g_selects k vs n : In (k, vs) g -> In n vs -> selects (alike n) names vs.
  Proof.
    intros H Hn. destruct (g_member k vs n H Hn) as [_ E]. apply g_in in H. destruct H as [-> _].
    apply filter_selects. intros x _. rewrite key_eqb_ok, alike_iff. split; congruence.
  Qed.
  Lemma row_snd e : In e g -> snd (dedup_row e) = length (snd e).
  Proof. destruct e as [k vs]. unfold dedup_row. cbn [snd]. destruct vs as [|a [|b vs]]; reflexivity. Qed.
  Lemma rows_each row : In row (deduplicate_names names) ->
    exists n grp, In n names /\ selects (alike n) names grp /\ snd row = length grp /\
      ((grp = [n] /\ fst row = n) \/ (1 < length grp /\ pattern n (fst row))).
  Proof.
    unfold deduplicate_names. fold l g. intros H. apply in_map_iff in H. destruct H as ([k vs] & <- & H).
    destruct vs as [|n vs]; [apply g_in in H; destruct H; congruence|].
    exists n, (n :: vs). assert (Hn : In n (n :: vs)) by (left; reflexivity).
    destruct (g_member _ _ _ H Hn) as [H1 H2]. split; [assumption|]. split; [eapply g_selects; eauto|].
    split; [apply row_snd; assumption|]. destruct vs as [|n' vs]; [left; auto|right].
    split; [cbn; lia|]. apply pattern_key. unfold dedup_row. cbn [snd fst]. rewrite join_concat, H2. reflexivity.
  Qed.
  Lemma rows_all n : In n names -> exists row grp, In row (deduplicate_names names) /\ selects (alike n) names grp /\ snd row = length grp /\
      ((grp = [n] /\ fst row = n) \/ (1 < length grp /\ pattern n (fst row))).
  Proof.
    intros Hn. set (vs := filter (fun x => key_eqb (name_key n) (name_key x)) names).
    assert (Hin : In n vs). { apply filter_In. split; [assumption|]. now apply key_eqb_ok. }
    assert (H : In (name_key n, vs) g). { apply g_in. split; [reflexivity|]. intros E. rewrite E in Hin. destruct Hin. }
    exists (dedup_row (name_key n, vs)), vs. split; [unfold deduplicate_names; fold l g; now apply in_map|].
    split; [eapply g_selects; eauto|]. split; [now apply row_snd|]. clearbody vs.
    destruct vs as [|a [|b vs]]; [destruct Hin| |].
    - destruct Hin as [<-|[]]. left. auto.
    - right. split; [cbn; lia|]. apply pattern_key. unfold dedup_row. cbn [fst snd]. now rewrite join_concat.
  Qed.
  Lemma map_row_snd g' : (forall e, In e g' -> In e g) -> map snd (map dedup_row g') = map (fun e => length (snd e)) g'.
  Proof. intros H. rewrite map_map. apply map_ext_in. intros e He. apply row_snd. auto. Qed.
  Lemma rows_sum : list_sum (map snd (deduplicate_names names)) = length names.
  Proof.
    unfold deduplicate_names. fold l g. rewrite map_row_snd by auto. unfold g.
    rewrite (sum_perm _ _ (Permutation_map _ (sort_by_perm _))), group_sum. unfold l. apply map_length.
  Qed.
  Lemma rows_sorted : StronglySorted (fun a b => b <= a) (map snd (deduplicate_names names)).
  Proof.
    unfold deduplicate_names. fold l g. rewrite map_row_snd by auto.
    assert (X : StronglySorted (stable (appears_before fst l)) g).
    { apply sort_by_sorted. apply (group_spec key_eqb key_eqb_ok l). }
    clear - X. induction X as [|a r X IH F]; cbn; constructor; [assumption|]. apply Forall_map. eapply Forall_impl; [|exact F].
    intros b [H|[H _]]; lia.
  Qed.

  (** Distinct rows. *)
  Hypothesis distinct : NoDup names.
  Hypothesis no_brackets : forall n ps, In n names -> parts n ps -> ~ In "[]"%string ps.
  Definition shown (e : list (option string) * list string) : list string :=
    match snd e with [n] => split_dots EmptyString n | _ => map show_part (fst e) end.
  Lemma key_nodot e : In e g -> Forall nodot (map show_part (fst e)) /\ map show_part (fst e) <> [].
  Proof.
    destruct e as [k vs]. intros H. destruct vs as [|n vs]; [apply g_in in H; destruct H; congruence|].
    destruct (g_member k (n :: vs) n H (or_introl eq_refl)) as [_ <-]. cbn [fst]. unfold name_key.
    destruct (parts_split n) as (H1 & _ & F). split; [|destruct (split_dots EmptyString n); [congruence|discriminate]].
    clear - F. induction F as [|p ps Hp F IH]; cbn; constructor; [|assumption]. unfold part_key. destruct (isdigit p); cbn; [|assumption].
    unfold nodot. cbn. intuition discriminate.
  Qed.
  Lemma shown_text e : In e g -> fst (dedup_row e) = String.concat "." (shown e) /\ shown e <> [] /\ Forall nodot (shown e).
  Proof.
    intros H. destruct (key_nodot e H) as [K1 K2]. destruct e as [k vs]. unfold dedup_row, shown in *. cbn [snd fst] in *.
    destruct vs as [|n [|n' vs]]; cbn [fst].
    - rewrite join_concat. auto.
    - destruct (parts_split n) as (H1 & H2 & H3). auto.
    - rewrite join_concat. auto.
  Qed.
  Lemma group_nodup k vs : In (k, vs) g -> NoDup vs.
  Proof. intros H. apply g_in in H. destruct H as [-> _]. now apply NoDup_filter. Qed.
  Lemma shown_inj e e' : In e g -> In e' g -> shown e = shown e' -> fst e = fst e'.
  Proof.
    intros H H' E.
    assert (NB : forall k vs n, In (k, vs) g -> In n vs -> ~ In "[]"%string (split_dots EmptyString n)).
    { intros k vs n Hg Hn. destruct (g_member k vs n Hg Hn) as [Hi _]. eapply no_brackets; [exact Hi|apply parts_split]. }
    (** from what is shown for several names the key can be read off *)
    assert (Hkey : forall k n, name_key n = k -> ~ In "[]"%string (split_dots EmptyString n) ->
       k = map (fun s => if String.eqb s "[]" then None else Some s) (map show_part k)).
    { intros k n <- Hnb. unfold name_key. rewrite !map_map. apply map_ext_in. intros p Hp. unfold part_key.
      destruct (isdigit p) eqn:Ed; cbn; [reflexivity|]. destruct (String.eqb_spec p "[]"); [subst p; contradiction|reflexivity]. }
    (** what is shown for one name alone differs from what is shown for several *)
    assert (Hmix : forall k n k' a b vs, In (k, [n]) g -> In (k', a :: b :: vs) g -> split_dots EmptyString n = map show_part k' -> False).
    { intros k n k' a b vs Hg Hg' Es.
      destruct (g_member k' (a :: b :: vs) a Hg' (or_introl eq_refl)) as [Ia Ka].
      destruct (g_member k' (a :: b :: vs) b Hg' (or_intror (or_introl eq_refl))) as [Ib Kb].
      assert (Hn : ~ In "[]"%string (map show_part k')) by (rewrite <- Es; eapply NB; [exact Hg|left; reflexivity]).
      assert (Hs : forall m, name_key m = k' -> split_dots EmptyString m = map show_part k').
      { intros m Hm. rewrite <- Hm in *. symmetry. now apply plain_key. }
      assert (a = b).
      { destruct (parts_split a) as (_ & -> & _). destruct (parts_split b) as (_ & E2 & _). rewrite E2 at 1.
        now rewrite (Hs a Ka), (Hs b Kb). }
      subst b. pose proof (group_nodup _ _ Hg') as N. inversion N as [|? ? N0 _]; subst. apply N0. left. reflexivity. }
    destruct e as [k vs], e' as [k' vs']. unfold shown in E. cbn [fst snd] in *.
    destruct vs as [|a [|b vs]]; [apply g_in in H; destruct H; congruence| |];
    destruct vs' as [|a' [|b' vs']]; try (apply g_in in H'; destruct H'; congruence).
    - destruct (g_member _ _ a H (or_introl eq_refl)) as [_ <-]. destruct (g_member _ _ a' H' (or_introl eq_refl)) as [_ <-].
      unfold name_key. now rewrite E.
    - exfalso. eapply Hmix; eauto.
    - exfalso. eapply Hmix; eauto.
    - destruct (g_member _ _ a H (or_introl eq_refl)) as [_ K]. destruct (g_member _ _ a' H' (or_introl eq_refl)) as [_ K'].
      rewrite (Hkey k a K), (Hkey k' a' K').
      + now rewrite E.
      + eapply NB; [exact H'|left; reflexivity].
      + eapply NB; [exact H|left; reflexivity].
  Qed.
  Lemma rows_distinct : NoDup (map fst (deduplicate_names names)).
  Proof.
    unfold deduplicate_names. fold l g.
    assert (X : forall g', (forall e, In e g' -> In e g) -> NoDup (map fst g') -> NoDup (map fst (map dedup_row g'))).
    { induction g' as [|e g' IH]; intros Hin N; cbn; constructor.
      - inversion N as [|? ? N0 N1]; subst. intros H. apply in_map_iff in H. destruct H as (row & E & H).
        apply in_map_iff in H. destruct H as (e' & <- & H). apply N0. apply in_map_iff. exists e'. split; [|assumption].
        apply shown_inj; [apply Hin; right; assumption|apply Hin; left; reflexivity|].
        destruct (shown_text e (Hin e (or_introl eq_refl))) as (T1 & T2 & T3). destruct (shown_text e' (Hin e' (or_intror H))) as (T1' & T2' & T3').
        rewrite <- (split_concat (shown e)), <- (split_concat (shown e')) by assumption. congruence.
      - apply IH; [intros x Hx; apply Hin; right; assumption|]. now inversion N. }
    apply X; [auto|apply g_nodup].
  Qed.
End Rows.
