(** The loop over the rules, the visit of a tree, and scopes. *)
From Coq Require Import String Ascii Lia.
From Verif Require Import Prelude PatModel PatSpec PatProofs.
From Verif Require QmModel QmSpec QmNameProofs.
Local Open Scope nat_scope.
Local Open Scope list_scope.

Lemma star_snoc {A} (R : A -> A -> Prop) a b c : star R a b -> R b c -> star R a c.
Proof. induction 1; intros; econstructor; eauto. constructor. Qed.

Lemma parts_eqb_eq a b : parts_eqb a b = true <-> a = b.
Proof.
  revert b. induction a as [|x a IH]; intros [|y b]; cbn [parts_eqb]; try (split; [discriminate|discriminate]); [tauto|].
  rewrite andb_true_iff, IH. split.
  - intros [H ->]. apply String.eqb_eq in H. now subst.
  - intros [= -> ->]. now rewrite String.eqb_refl.
Qed.
Lemma scope_matches_iff m s o : scope_matches m s (Some o) = true <-> within o m s.
Proof.
  unfold scope_matches, within, full_name, scope_parts, dotted. rewrite parts_eqb_eq. split.
  - intros H. exists (skipn (length (QmModel.split_dots EmptyString o)) ((if String.eqb m EmptyString then [] else QmModel.split_dots EmptyString m) ++ s)).
    rewrite <- (firstn_skipn (length (QmModel.split_dots EmptyString o)) _) at 1. now rewrite H.
  - intros (rest & ->). rewrite firstn_app, Nat.sub_diag, firstn_all. cbn. now rewrite app_nil_r.
Qed.
Lemma within_dec o m s : within o m s \/ ~ within o m s.
Proof.
  destruct (scope_matches m s (Some o)) eqn:E; [left|right].
  - now apply scope_matches_iff.
  - intros H. apply scope_matches_iff in H. congruence.
Qed.
Lemma within_deeper o m s t : within o m s -> within o m (s ++ t).
Proof. intros (rest & H). exists (rest ++ t). unfold full_name in *. now rewrite app_assoc, H, app_assoc. Qed.
Lemma active_iff m s rules r : active m s rules r <-> In r rules /\ scope_matches m s (on r) = true.
Proof.
  unfold active. apply and_iff_compat_l. destruct (on r) as [o|].
  - rewrite scope_matches_iff. split; [auto|]. intros H o' [= <-]. exact H.
  - split; [reflexivity|]. discriminate.
Qed.

Section Loop.
  Variable kind_sort : string -> sort.
  Variable key : node -> string.
  Notation loop := (loop kind_sort key).
  Notation transform := (transform kind_sort key).
  Notation apply_rules := (apply_rules kind_sort key).

  Lemma loop_more fuel : forall k m s rules idx n seen x, loop fuel m s rules idx n seen = Some x ->
    loop (fuel + k) m s rules idx n seen = Some x.
  Proof.
    induction fuel as [|fuel IH]; intros k m s rules idx n seen x; cbn [PatModel.loop plus]; [discriminate|].
    destruct (nth_error rules idx) as [r|]; [|auto]. destruct (negb _); [apply IH|].
    destruct (apply kind_sort r n) as [[v|]|]; [|apply IH|auto]. destruct (existsb _ seen); apply IH.
  Qed.
  Lemma apply_rules_more fuel fuel' m s rules n x : fuel <= fuel' -> apply_rules fuel m s rules n = Some x ->
    apply_rules fuel' m s rules n = Some x.
  Proof. intros Hle H. replace fuel' with (fuel + (fuel' - fuel)) by lia. now apply loop_more. Qed.

  (** The list version of the visit *)
  Fixpoint transform_list (fuel : nat) (m : string) (rules : list rule) (s : list string) (cs : list node)
    : option (result (list node)) :=
    match cs with
    | [] => Some (Ok [])
    | c :: cs' =>
        match transform fuel m rules s c with
        | None => None
        | Some (Err e) => Some (Err e)
        | Some (Ok d) => match transform_list fuel m rules s cs' with
                         | None => None
                         | Some (Err e) => Some (Err e)
                         | Some (Ok ds) => Some (Ok (d :: ds))
                         end
        end
    end.
  Definition inner (s : list string) (n : node) : list string :=
    match defines n with Some x => s ++ [x] | None => s end.
  Lemma transform_node fuel m rules s par k cs : transform fuel m rules s (Node par k cs) =
    match transform_list fuel m rules (inner s (Node par k cs)) cs with
    | None => None
    | Some (Err e) => Some (Err e)
    | Some (Ok cs') => apply_rules fuel m s rules (Node par k cs')
    end.
  Proof.
    cbn [PatModel.transform]. fold (inner s (Node par k cs)). generalize (inner s (Node par k cs)). intros s'.
    match goal with |- match ?g cs with _ => _ end = _ => assert (Hg : forall l, g l = transform_list fuel m rules s' l) end.
    { induction l as [|c l IH]; cbn [transform_list]; [reflexivity|]. rewrite <- IH. reflexivity. }
    now rewrite Hg.
  Qed.
  Lemma transform_more n : forall fuel fuel' m rules s x, fuel <= fuel' -> transform fuel m rules s n = Some x ->
    transform fuel' m rules s n = Some x.
  Proof.
    induction n as [par y|par k cs IH] using node_ind2; intros fuel fuel' m rules s x Hle.
    - apply apply_rules_more. assumption.
    - rewrite !transform_node. generalize (inner s (Node par k cs)). intros s'.
      assert (Hl : forall y, transform_list fuel m rules s' cs = Some y -> transform_list fuel' m rules s' cs = Some y).
      { induction IH as [|c cs Hc _ IHl]; intros y; cbn [transform_list]; [auto|].
        destruct (transform fuel m rules s' c) as [r|] eqn:E; [|discriminate]. rewrite (Hc _ _ _ _ _ _ Hle E).
        destruct r as [d|]; [|auto].
        destruct (transform_list fuel m rules s' cs) as [r|]; [|discriminate]. now rewrite (IHl r eq_refl). }
      destruct (transform_list fuel m rules s' cs) as [r|]; [|discriminate]. rewrite (Hl r eq_refl).
      destruct r as [cs'|]; [|auto]. now apply apply_rules_more.
  Qed.

  (** ** Where the loop stops *)
  Lemma loop_stops m s rules n0 : forall fuel idx n seen v,
    loop fuel m s rules idx n seen = Some (Ok v) ->
    star (fun a b => exists r, active m s rules r /\ apply kind_sort r a = Ok (Some b)) n0 n ->
    (forall j r w, j < idx -> nth_error rules j = Some r -> scope_matches m s (on r) = true -> apply kind_sort r n = Ok (Some w) ->
       In (key w) seen) ->
    (forall j r e, j < idx -> nth_error rules j = Some r -> scope_matches m s (on r) = true -> apply kind_sort r n <> Err e) ->
    (forall k, In k seen -> exists u, key u = k /\
       star (fun a b => exists r, active m s rules r /\ apply kind_sort r a = Ok (Some b)) n0 u /\
       star (fun a b => exists r, active m s rules r /\ apply kind_sort r a = Ok (Some b)) u n) ->
    star (fun a b => exists r, active m s rules r /\ apply kind_sort r a = Ok (Some b)) n0 v /\
    forall r, active m s rules r -> apply kind_sort r v = Ok None \/
      exists w u, apply kind_sort r v = Ok (Some w) /\ key w = key u /\
        star (fun a b => exists r, active m s rules r /\ apply kind_sort r a = Ok (Some b)) n0 u /\
        star (fun a b => exists r, active m s rules r /\ apply kind_sort r a = Ok (Some b)) u v.
  Proof.
    set (R := fun a b => exists r, active m s rules r /\ apply kind_sort r a = Ok (Some b)).
    induction fuel as [|fuel IH]; intros idx n seen v; cbn [PatModel.loop]; [discriminate|].
    destruct (nth_error rules idx) as [r|] eqn:Er.
    - destruct (scope_matches m s (on r)) eqn:Es; cbn [negb].
      + destruct (apply kind_sort r n) as [[w|]|e] eqn:Ea; [|intros H Hst Hj He Hs|discriminate].
        * destruct (existsb (String.eqb (key w)) seen) eqn:Ex; intros H Hst Hj He Hs.
          -- assert (Hin : In (key w) seen).
             { apply existsb_exists in Ex. destruct Ex as (k & Hk & Heq). apply String.eqb_eq in Heq. now subst. }
             eapply (IH (S idx) n seen v H Hst); [| |exact Hs].
             ++ intros j r' w' Hlt Hr' Hs' Hw'. destruct (Nat.eq_dec j idx) as [->|]; [|eapply Hj; eauto; lia].
                rewrite Er in Hr'. injection Hr' as <-. congruence.
             ++ intros j r' e Hlt Hr' Hs'. destruct (Nat.eq_dec j idx) as [->|]; [|eapply He; eauto; lia].
                rewrite Er in Hr'. injection Hr' as <-. congruence.
          -- assert (HR : R n w) by (exists r; split; [apply active_iff; split; [eapply nth_error_In; eauto|assumption]|assumption]).
             eapply (IH 0 w (key w :: seen) v H); [eapply star_snoc; eauto| | |].
             ++ intros j r' w' Hlt. lia.
             ++ intros j r' w' Hlt. lia.
             ++ intros k [<-|Hk].
                ** exists w. split; [reflexivity|]. split; [eapply star_snoc; eauto|constructor].
                ** destruct (Hs k Hk) as (u & Hu & H1 & H2). exists u. repeat split; auto. eapply star_snoc; eauto.
        * eapply (IH (S idx) n seen v H Hst); [| |exact Hs].
          -- intros j r' w' Hlt Hr' Hs' Hw'. destruct (Nat.eq_dec j idx) as [->|]; [|eapply Hj; eauto; lia].
             rewrite Er in Hr'. injection Hr' as <-. congruence.
          -- intros j r' e Hlt Hr' Hs'. destruct (Nat.eq_dec j idx) as [->|]; [|eapply He; eauto; lia].
             rewrite Er in Hr'. injection Hr' as <-. congruence.
      + intros H Hst Hj He Hs. eapply (IH (S idx) n seen v H Hst); [| |exact Hs].
        * intros j r' w' Hlt Hr' Hs' Hw'. destruct (Nat.eq_dec j idx) as [->|]; [|eapply Hj; eauto; lia].
          rewrite Er in Hr'. injection Hr' as <-. congruence.
        * intros j r' e Hlt Hr' Hs'. destruct (Nat.eq_dec j idx) as [->|]; [|eapply He; eauto; lia].
          rewrite Er in Hr'. injection Hr' as <-. congruence.
    - intros [= <-] Hst Hj He Hs. split; [assumption|]. intros r Hr. apply active_iff in Hr. destruct Hr as [Hin Hsm].
      apply In_nth_error in Hin. destruct Hin as [j Hr]. assert (Hlt : j < idx).
      { apply nth_error_None in Er. assert (j < length rules) by (apply nth_error_Some; congruence). lia. }
      destruct (apply kind_sort r n) as [[w|]|e] eqn:Ea; [right|now left|exfalso; eapply He; eauto].
      destruct (Hs _ (Hj j r w Hlt Hr Hsm Ea)) as (u & Hu & H1 & H2). exists w, u. auto.
  Qed.

  (** ** Rules that shrink the text *)
  Variable mu : string -> nat.
  Definition shrinking (rules : list rule) : Prop := forall r a b, In r rules -> apply kind_sort r a = Ok (Some b) -> mu (key b) < mu (key a).
  Lemma loop_ends m s rules : shrinking rules -> forall f1 f2 idx n seen,
    mu (key n) <= f1 -> length rules <= idx + f2 -> (forall k, In k seen -> mu (key n) <= mu k) ->
    exists x, loop (S (f2 + f1 * S (length rules))) m s rules idx n seen = Some x /\
      forall v, x = Ok v -> (forall j r, j < idx -> nth_error rules j = Some r -> scope_matches m s (on r) = true ->
                             apply kind_sort r n = Ok None) ->
        forall r, active m s rules r -> apply kind_sort r v = Ok None.
  Proof.
    intros Hsh. induction f1 as [f1 IH1] using lt_wf_ind. induction f2 as [|f2 IH2]; intros idx n seen Hmu Hl Hseen.
    - cbn [plus PatModel.loop]. destruct (nth_error rules idx) as [r|] eqn:Er.
      + assert (idx < length rules) by (apply nth_error_Some; congruence). lia.
      + eexists. split; [reflexivity|]. intros v [= <-] Hn r Hr. apply active_iff in Hr. destruct Hr as [Hin Hs].
        apply In_nth_error in Hin. destruct Hin as [j Hj]. apply (Hn j r); auto.
        assert (j < length rules) by (apply nth_error_Some; congruence). lia.
    - change (S (S f2 + f1 * S (length rules))) with (S (S (f2 + f1 * S (length rules)))).
      remember (S (f2 + f1 * S (length rules))) as F. cbn [PatModel.loop].
      destruct (nth_error rules idx) as [r|] eqn:Er.
      + assert (Hnext : (scope_matches m s (on r) = true -> apply kind_sort r n = Ok None) ->
          exists x, loop F m s rules (S idx) n seen = Some x /\
            forall v, x = Ok v -> (forall j r, j < idx -> nth_error rules j = Some r -> scope_matches m s (on r) = true ->
                             apply kind_sort r n = Ok None) -> forall r, active m s rules r -> apply kind_sort r v = Ok None).
        { intros Hr. destruct (IH2 (S idx) n seen Hmu ltac:(lia) Hseen) as (x & Hx & Hv). subst F. exists x. split; [exact Hx|].
          intros v Hv' Hn. apply (Hv v Hv'). intros j r' Hlt Hr' Hs'. destruct (Nat.eq_dec j idx) as [->|]; [|apply (Hn j r'); auto; lia].
          rewrite Er in Hr'. injection Hr' as <-. auto. }
        destruct (scope_matches m s (on r)) eqn:Es; cbn [negb]; [|apply Hnext; discriminate].
        destruct (apply kind_sort r n) as [[w|]|e] eqn:Ea.
        * pose proof (Hsh r n w (nth_error_In _ _ Er) Ea) as Hlt.
          assert (Hns : existsb (String.eqb (key w)) seen = false).
          { apply not_true_is_false. intros Hx. apply existsb_exists in Hx. destruct Hx as (k & Hk & Heq).
            apply String.eqb_eq in Heq. subst k. specialize (Hseen _ Hk). lia. }
          rewrite Hns. destruct f1 as [|f1]; [lia|].
          destruct (IH1 f1 ltac:(lia) (length rules) 0 w (key w :: seen)) as (x & Hx & Hv); [lia|lia| |].
          { intros k [<-|Hk]; [lia|]. specialize (Hseen k Hk). lia. }
          exists x. split.
          -- subst F. replace (S (f2 + S f1 * S (length rules))) with (S (length rules + f1 * S (length rules)) + (S f2)) by lia.
             apply loop_more. exact Hx.
          -- intros v Hv' _. apply (Hv v Hv'). intros j r' Hj. lia.
        * apply Hnext. auto.
        * eexists. split; [reflexivity|]. discriminate.
      + eexists. split; [reflexivity|]. intros v [= <-] Hn r Hr. apply active_iff in Hr. destruct Hr as [Hin Hs].
        apply In_nth_error in Hin. destruct Hin as [j Hj]. apply (Hn j r); auto.
        apply nth_error_None in Er. assert (j < length rules) by (apply nth_error_Some; congruence). lia.
  Qed.
  Lemma apply_rules_ends m s rules n : shrinking rules -> exists fuel x, apply_rules fuel m s rules n = Some x /\
    forall v, x = Ok v -> forall r, active m s rules r -> apply kind_sort r v = Ok None.
  Proof.
    intros Hsh. destruct (loop_ends m s rules Hsh (mu (key n)) (length rules) 0 n [key n]) as (x & Hx & Hv); [lia|lia| |].
    { intros k [<-|[]]. lia. }
    eexists _, x. split; [exact Hx|]. intros v Hv' r Hr. apply (Hv v Hv'); [|assumption]. intros j r' Hj. lia.
  Qed.
  Lemma transform_ends m rules n : shrinking rules -> forall s, exists fuel x, transform fuel m rules s n = Some x.
  Proof.
    intros Hsh. induction n as [par y|par k cs IH] using node_ind2; intros s.
    - destruct (apply_rules_ends m s rules (Name par y) Hsh) as (fuel & x & H & _). exists fuel, x. exact H.
    - assert (Hl : forall s', exists fuel y, transform_list fuel m rules s' cs = Some y).
      { intros s'. induction IH as [|c cs Hc _ (f2 & y & Hy)]; [exists 0, (Ok []); reflexivity|].
        destruct (Hc s') as (f1 & x & Hx). exists (f1 + f2). cbn [transform_list].
        rewrite (transform_more c f1 (f1 + f2) m rules s' x ltac:(lia) Hx). destruct x as [d|e]; [|eauto].
        assert (Hy' : transform_list (f1 + f2) m rules s' cs = Some y).
        { clear - Hy. revert y Hy. induction cs as [|c' cs IHc]; intros y; cbn [transform_list]; [auto|].
          destruct (transform f2 m rules s' c') as [r|] eqn:E; [|discriminate].
          rewrite (transform_more c' f2 (f1 + f2) m rules s' r ltac:(lia) E). destruct r; [|auto].
          destruct (transform_list f2 m rules s' cs) as [r|]; [|discriminate]. now rewrite (IHc r eq_refl). }
        rewrite Hy'. destruct y; eauto. }
      destruct (Hl (inner s (Node par k cs))) as (f1 & y & Hy). destruct y as [cs'|e].
      + destruct (apply_rules_ends m s rules (Node par k cs') Hsh) as (f2 & x & Hx & _). exists (f1 + f2), x. rewrite transform_node.
        assert (Hy' : transform_list (f1 + f2) m rules (inner s (Node par k cs)) cs = Some (Ok cs')).
        { revert Hy. generalize (inner s (Node par k cs)). intros s'. generalize (Ok cs'). clear.
          induction cs as [|c' cs IHc]; intros y; cbn [transform_list]; [auto|].
          destruct (transform f1 m rules s' c') as [r|] eqn:E; [|discriminate].
          rewrite (transform_more c' f1 (f1 + f2) m rules s' r ltac:(lia) E). destruct r; [|auto].
          destruct (transform_list f1 m rules s' cs) as [r|]; [|discriminate]. now rewrite (IHc r eq_refl). }
        rewrite Hy'. apply (apply_rules_more f2); [lia|assumption].
      + exists f1, (Err e). rewrite transform_node, Hy. reflexivity.
  Qed.
End Loop.
