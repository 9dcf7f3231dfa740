(** Scopes: which rules matter at a position, and that dropping the others changes nothing. *)
From Coq Require Import String Ascii Lia.
From Verif Require Import Prelude PatModel PatSpec PatProofs PatLoopProofs.
From Verif Require QmModel QmNameProofs TrcNameProofs.
Local Open Scope nat_scope.
Local Open Scope list_scope.

Definition pr (r : rule) : node * node := (pattern r, replacement r).
Definition act (m : string) (s : list string) (rules : list rule) : list (node * node) :=
  map pr (filter (fun r => scope_matches m s (on r)) rules).

(** ** The filter of a module *)
Lemma concat_app a b : a <> [] -> b <> [] -> String.concat "." (a ++ b) = (String.concat "." a ++ "." ++ String.concat "." b)%string.
Proof.
  intros Ha Hb. induction a as [|x a IH]; [congruence|]. destruct a as [|y a].
  - cbn [app String.concat]. destruct b; [congruence|]. reflexivity.
  - cbn [app String.concat] in *. rewrite IH by discriminate. rewrite !QmNameProofs.app_assoc_s. reflexivity.
Qed.
Lemma dotted_concat s : String.concat "." (dotted s) = s.
Proof. destruct (QmNameProofs.split_spec s EmptyString) as [H _]; [intros []|]. exact H. Qed.
Lemma dotted_prefix a b rest : dotted a = dotted b ++ rest -> String.prefix b a = true.
Proof.
  intros H. apply TrcNameProofs.prefix_split. rewrite <- (dotted_concat a), H. destruct rest as [|x rest].
  - rewrite app_nil_r, dotted_concat. exists EmptyString. now rewrite QmNameProofs.app_nil_s.
  - rewrite concat_app; [|apply QmNameProofs.split_ne|discriminate]. rewrite dotted_concat. eexists. reflexivity.
Qed.
Lemma scope_applicable m s o : scope_matches m s o = true -> applicable o m = true.
Proof.
  destruct o as [o|]; [|reflexivity]. rewrite scope_matches_iff. intros (rest & H). unfold applicable.
  destruct (String.eqb m EmptyString) eqn:Em; [reflexivity|]. unfold full_name in H. rewrite Em in H.
  destruct (negb _); [reflexivity|]. apply orb_true_iff.
  apply app_eq_app in H. destruct H as (l & [[H1 H2]|[H1 H2]]).
  - right. eapply dotted_prefix; eauto.
  - left. eapply dotted_prefix; eauto.
Qed.
Lemma act_applicable m s rules : act m s (filter (fun r => applicable (on r) m) rules) = act m s rules.
Proof.
  unfold act. f_equal. induction rules as [|r rules IH]; cbn [filter]; [reflexivity|].
  destruct (scope_matches m s (on r)) eqn:E.
  - rewrite (scope_applicable _ _ _ E). cbn [filter]. now rewrite E, IH.
  - destruct (applicable (on r) m); cbn [filter]; [rewrite E|]; exact IH.
Qed.
Lemma act_app m s a b : act m s (a ++ b) = act m s a ++ act m s b.
Proof. unfold act. rewrite filter_app, map_app. reflexivity. Qed.

Section Scope.
  Variable kind_sort : string -> sort.
  Variable key : node -> string.
  Notation loop := (loop kind_sort key).
  Notation transform := (transform kind_sort key).

  (** The loop over the rules that apply *)
  Fixpoint ploop (fuel : nat) (all rest : list (node * node)) (n : node) (seen : list string) : option (result node) :=
    match fuel with
    | 0 => None
    | S fuel' =>
        match rest with
        | [] => Some (Ok n)
        | (p, q) :: rest' =>
            match apply kind_sort (mkRule p q None) n with
            | Err e => Some (Err e)
            | Ok None => ploop fuel' all rest' n seen
            | Ok (Some w) => if existsb (String.eqb (key w)) seen then ploop fuel' all rest' n seen
                             else ploop fuel' all all w (key w :: seen)
            end
        end
    end.
  Lemma ploop_more fuel : forall k all rest n seen x, ploop fuel all rest n seen = Some x -> ploop (fuel + k) all rest n seen = Some x.
  Proof.
    induction fuel as [|fuel IH]; intros k all rest n seen x; cbn [ploop plus]; [discriminate|].
    destruct rest as [|[p q] rest]; [auto|]. destruct (apply _ _ _) as [[v|]|]; [|apply IH|auto]. destruct (existsb _ seen); apply IH.
  Qed.
  Lemma skipn_nth {A} (l : list A) i x : nth_error l i = Some x -> skipn i l = x :: skipn (S i) l.
  Proof. revert i. induction l as [|y l IH]; intros [|i] H; cbn in *; try discriminate; [congruence|]. now apply IH. Qed.
  Lemma loop_ploop m s rules : forall fuel idx n seen x, loop fuel m s rules idx n seen = Some x ->
    ploop fuel (act m s rules) (act m s (skipn idx rules)) n seen = Some x.
  Proof.
    induction fuel as [|fuel IH]; intros idx n seen x; [discriminate|]. cbn [PatModel.loop].
    destruct (nth_error rules idx) as [r|] eqn:Er.
    - rewrite (skipn_nth _ _ _ Er). unfold act at 2. cbn [filter map]. destruct (scope_matches m s (on r)); cbn [negb].
      + cbn [map]. change (map pr (filter (fun r => scope_matches m s (on r)) (skipn (S idx) rules))) with (act m s (skipn (S idx) rules)).
        cbn [ploop]. unfold pr at 1. change (apply kind_sort (mkRule (pattern r) (replacement r) None) n) with (apply kind_sort r n).
        destruct (apply kind_sort r n) as [[w|]|]; [|apply IH|auto]. destruct (existsb _ seen); [apply IH|].
        intros H. apply IH in H. exact H.
      + intros H. apply IH in H. apply (ploop_more _ 1) in H. rewrite Nat.add_1_r in H. exact H.
    - intros [= <-]. rewrite skipn_all2; [reflexivity|]. now apply nth_error_None.
  Qed.
  Lemma ploop_loop m s rules : forall fuel k idx n seen x, length rules <= idx + k ->
    ploop fuel (act m s rules) (act m s (skipn idx rules)) n seen = Some x ->
    exists fuel', loop fuel' m s rules idx n seen = Some x.
  Proof.
    induction fuel as [|fuel IH]; [discriminate|]. induction k as [|k IHk]; intros idx n seen x Hl.
    - rewrite skipn_all2 by lia. cbn. intros [= <-]. exists 1. cbn.
      assert (E : nth_error rules idx = None) by (apply nth_error_None; lia). now rewrite E.
    - destruct (nth_error rules idx) as [r|] eqn:Er.
      + rewrite (skipn_nth _ _ _ Er). unfold act at 2. cbn [filter]. destruct (scope_matches m s (on r)) eqn:Es.
        * cbn [map]. change (map pr (filter (fun r => scope_matches m s (on r)) (skipn (S idx) rules))) with (act m s (skipn (S idx) rules)).
          cbn [ploop]. unfold pr at 1. change (apply kind_sort (mkRule (pattern r) (replacement r) None) n) with (apply kind_sort r n).
          destruct (apply kind_sort r n) as [[w|]|] eqn:Ea.
          -- destruct (existsb (String.eqb (key w)) seen) eqn:Ex; intros H.
             ++ apply (IH k (S idx)) in H; [|lia]. destruct H as [f Hf]. exists (S f). cbn. now rewrite Er, Es, Ea, Ex.
             ++ apply (IH (length rules) 0) in H; [|lia]. destruct H as [f Hf]. exists (S f). cbn. now rewrite Er, Es, Ea, Ex.
          -- intros H. apply (IH k (S idx)) in H; [|lia]. destruct H as [f Hf]. exists (S f). cbn. now rewrite Er, Es, Ea.
          -- intros [= <-]. exists 1. cbn. now rewrite Er, Es, Ea.
        * intros H. destruct (IHk (S idx) n seen x ltac:(lia) H) as [f Hf]. exists (S f). cbn. now rewrite Er, Es.
      + rewrite skipn_all2 by now apply nth_error_None. cbn. intros [= <-]. exists 1. cbn. now rewrite Er.
  Qed.
  Lemma rules_same m s r1 r2 n x : act m s r1 = act m s r2 ->
    (exists fuel, apply_rules kind_sort key fuel m s r1 n = Some x) -> exists fuel, apply_rules kind_sort key fuel m s r2 n = Some x.
  Proof.
    intros He [fuel H]. unfold apply_rules in *. apply loop_ploop in H. cbn [skipn] in H. rewrite He in H.
    eapply (ploop_loop m s r2 fuel (length r2) 0); [lia|exact H].
  Qed.

  Lemma list_more fuel fuel' m rules s cs y : fuel <= fuel' -> transform_list kind_sort key fuel m rules s cs = Some y ->
    transform_list kind_sort key fuel' m rules s cs = Some y.
  Proof.
    intros Hle. revert y. induction cs as [|c cs IHc]; intros y; cbn [transform_list]; [auto|].
    destruct (transform fuel m rules s c) as [r|] eqn:E; [|discriminate].
    rewrite (transform_more kind_sort key c fuel fuel' m rules s r Hle E). destruct r; [|auto].
    destruct (transform_list kind_sort key fuel m rules s cs) as [r|]; [|discriminate]. now rewrite (IHc r eq_refl).
  Qed.
  Lemma transform_same m r1 r2 n : forall s x, (forall t, position n t -> act m (s ++ t) r1 = act m (s ++ t) r2) ->
    (exists fuel, transform fuel m r1 s n = Some x) -> exists fuel, transform fuel m r2 s n = Some x.
  Proof.
    induction n as [par y|par k cs IH] using node_ind2; intros s x Hp.
    - intros H. eapply (rules_same m s r1 r2); [|exact H]. specialize (Hp [] (pos_here _)). now rewrite app_nil_r in Hp.
    - intros [fuel H]. rewrite transform_node in H. set (s' := inner s (Node par k cs)) in *.
      assert (Hc : forall c, In c cs -> forall t, position c t -> act m (s' ++ t) r1 = act m (s' ++ t) r2).
      { intros c Hin t Ht. pose proof (Hp _ (pos_in par k cs c t Hin Ht)) as Hx. unfold s', inner.
        destruct (defines (Node par k cs)); [|exact Hx]. rewrite <- app_assoc. exact Hx. }
      assert (Hl : forall y, transform_list kind_sort key fuel m r1 s' cs = Some y -> exists f, transform_list kind_sort key f m r2 s' cs = Some y).
      { clear H Hp. clearbody s'. induction IH as [|c cs Hc0 _ IHl]; intros y; cbn [transform_list]; [intros [= <-]; exists 0; reflexivity|].
        destruct (transform fuel m r1 s' c) as [r|] eqn:E; [|discriminate].
        destruct (Hc0 s' r (Hc c (or_introl eq_refl)) (ex_intro _ fuel E)) as [f1 Hf1].
        destruct r as [d|e]; [|intros [= <-]; exists f1; now rewrite Hf1].
        destruct (transform_list kind_sort key fuel m r1 s' cs) as [r|] eqn:E2; [|discriminate].
        destruct (IHl (fun c' Hc' => Hc c' (or_intror Hc')) r eq_refl) as [f2 Hf2]. intros Hy. exists (f1 + f2).
        rewrite (transform_more kind_sort key c f1 (f1 + f2) m r2 s' _ ltac:(lia) Hf1).
        rewrite (list_more f2 (f1 + f2) m r2 s' cs _ ltac:(lia) Hf2). exact Hy. }
      destruct (transform_list kind_sort key fuel m r1 s' cs) as [y|]; [|discriminate]. destruct (Hl y eq_refl) as [f1 Hf1].
      destruct y as [cs'|e].
      + destruct (rules_same m s r1 r2 (Node par k cs') x) as [f2 Hf2]; [specialize (Hp [] (pos_here _)); now rewrite app_nil_r in Hp|eauto|].
        exists (f1 + f2). rewrite transform_node. fold s'. rewrite (list_more f1 (f1 + f2) m r2 s' cs _ ltac:(lia) Hf1).
        eapply apply_rules_more; [|exact Hf2]. lia.
      + exists f1. rewrite transform_node. fold s'. now rewrite Hf1.
  Qed.
  Lemma yields_same m s r1 r2 n : (forall t, position n t -> act m (s ++ t) r1 = act m (s ++ t) r2) ->
    forall x, yields kind_sort key m s r1 n x <-> yields kind_sort key m s r2 n x.
  Proof.
    intros H x. unfold yields. split; apply transform_same; intros t Ht; rewrite !act_applicable; [|symmetry]; auto.
  Qed.
  Lemma yields_unfiltered m s rules n x : yields kind_sort key m s rules n x <-> exists fuel, transform fuel m rules s n = Some x.
  Proof. unfold yields. split; apply transform_same; intros t Ht; rewrite act_applicable; reflexivity. Qed.
  Lemma yields_det m s rules n x y : yields kind_sort key m s rules n x -> yields kind_sort key m s rules n y -> x = y.
  Proof.
    intros [f1 H1] [f2 H2]. apply (transform_more kind_sort key n f1 (f1 + f2)) in H1; [|lia].
    apply (transform_more kind_sort key n f2 (f1 + f2)) in H2; [|lia]. congruence.
  Qed.

  Lemma inside m s l1 r l2 o n x : on r = Some o -> within o m s ->
    (yields kind_sort key m s (l1 ++ r :: l2) n x <-> yields kind_sort key m s (l1 ++ everywhere r :: l2) n x).
  Proof.
    intros Ho Hw. apply yields_same. intros t _. rewrite !act_app. f_equal. unfold act. cbn [filter everywhere on scope_matches].
    rewrite Ho. assert (E : scope_matches m (s ++ t) (Some o) = true) by (apply scope_matches_iff; now apply within_deeper).
    rewrite E. reflexivity.
  Qed.
  Lemma outside m s l1 r l2 o n x : on r = Some o -> (forall t, position n t -> ~ within o m (s ++ t)) ->
    (yields kind_sort key m s (l1 ++ r :: l2) n x <-> yields kind_sort key m s (l1 ++ l2) n x).
  Proof.
    intros Ho Hw. apply yields_same. intros t Ht. rewrite !act_app. f_equal. unfold act. cbn [filter].
    rewrite Ho. assert (E : scope_matches m (s ++ t) (Some o) = false).
    { apply not_true_is_false. rewrite scope_matches_iff. now apply Hw. }
    now rewrite E.
  Qed.
End Scope.
