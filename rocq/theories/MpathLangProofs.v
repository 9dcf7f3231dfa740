(** The languages of selectors: simplification, nullability, matches and continuations. *)
From Coq Require Import String Ascii.
From Verif Require Import Prelude ModulesModel ModulesSpec MpathModel MpathSpec.
Local Open Scope nat_scope.
Local Open Scope list_scope.

Fixpoint size_node (n : node) : nat :=
  match n with NFrag _ _ => 1 | NMulti alts => S (list_sum (map (fun a => list_sum (map size_node a)) alts)) end.
Definition size (s : sel) : nat := list_sum (map size_node s).
Lemma size_app a b : size (a ++ b) = size a + size b.
Proof. unfold size. now rewrite map_app, list_sum_app. Qed.
Lemma list_sum_in l x : In x l -> x <= list_sum l.
Proof. induction l; [easy|]. change (list_sum (a :: l)) with (a + list_sum l). intros [<-|H]; [lia|]. specialize (IHl H). lia. Qed.
Lemma size_cons n s : size (n :: s) = size_node n + size s.
Proof. reflexivity. Qed.
Lemma size_alt alts alt nx : In alt alts -> size (alt ++ nx) < size (NMulti alts :: nx).
Proof.
  intros H. rewrite size_app, size_cons.
  change (size_node (NMulti alts)) with (S (list_sum (map size alts))).
  pose proof (list_sum_in (map size alts) (size alt) (in_map size _ _ H)). lia.
Qed.
Lemma size_node_pos n : 1 <= size_node n.
Proof. destruct n; cbn; lia. Qed.
Lemma size_alt' alts alt nx : In alt alts -> size alt < size (NMulti alts :: nx).
Proof. intros H. pose proof (size_alt alts alt nx H). rewrite size_app in *. lia. Qed.

(** ** Fragments *)
Fixpoint frag_ind' (P : frag -> Prop) (HW : forall b, P (Wild b)) (HN : forall s, P (Name s)) (HR : forall s, P (Regex s))
  (HC : forall c, P (Cls c)) (HP : forall p, P (Pred p))
  (HJ : forall fs, Forall P fs -> P (Joint fs)) (HD : forall fs, Forall P fs -> P (Disjoint fs))
  (HI : forall f, P f -> P (Inv f)) (f : frag) : P f :=
  let rec := frag_ind' P HW HN HR HC HP HJ HD HI in
  let all := fix all (fs : list frag) : Forall P fs :=
    match fs with [] => Forall_nil P | g :: l => Forall_cons g (rec g) (all l) end in
  match f with
  | Wild b => HW b | Name s => HN s | Regex s => HR s | Cls c => HC c | Pred p => HP p
  | Joint fs => HJ fs (all fs) | Disjoint fs => HD fs (all fs) | Inv g => HI g (rec g)
  end.

Section P.
  Variable re_fullmatch : string -> string -> bool.
  Variable is_instance : nat -> nat -> bool.
  Variable predicate : nat -> string -> nat -> bool.
  Notation fmatch := (fmatch re_fullmatch is_instance predicate).
  Notation accepts := (accepts re_fullmatch is_instance predicate).
  Notation matched := (matched re_fullmatch is_instance predicate).
  Notation matches_conts := (matches_conts re_fullmatch is_instance predicate).

  Lemma fmatch_accepts f n m : fmatch f n m = true <-> accepts f (n, m).
  Proof.
    induction f using frag_ind'; cbn [MpathModel.fmatch MpathSpec.accepts fst snd].
    - easy.
    - apply String.eqb_eq.
    - easy.
    - easy.
    - easy.
    - induction H; cbn; [easy|]. rewrite andb_true_iff. tauto.
    - induction H; cbn; [split; easy|]. rewrite orb_true_iff. tauto.
    - rewrite negb_true_iff, <- IHf. destruct (fmatch f n m); split; congruence.
  Qed.

  Lemma advance_sane f : sane f -> must_advance f = false -> f = Wild true \/ f = Inv (Wild true).
  Proof.
    intros S H. assert (D : f = Wild true \/ inverts_star f = true).
    { clear S. induction f using frag_ind'; cbn in H; try discriminate.
      - destruct b; [now left|discriminate].
      - right. destruct (IHf H) as [->|E]; [reflexivity|]. cbn. destruct f; cbn in *; try discriminate; try exact E. }
    destruct D as [D|D]; [now left|]. right. now apply S.
  Qed.
  Lemma is_mw_iff f : is_mw f = true <-> f = Wild true.
  Proof. destruct f; cbn; try (split; congruence). destruct match_multiple; split; congruence. Qed.

  (** ** Matching *)
  Lemma matched_split q p : matched q p -> forall q1 q2, q = q1 ++ q2 ->
    exists p1 p2, p = p1 ++ p2 /\ matched q1 p1 /\ matched q2 p2.
  Proof.
    induction 1; intros q1 q2 E.
    - symmetry in E. apply app_eq_nil in E. destruct E as [-> ->]. exists [], []. repeat split; constructor.
    - destruct q1 as [|n q1]; cbn in E.
      + subst q2. exists [], (x :: p). repeat split; [constructor|]. now constructor.
      + injection E as <- ->. destruct (IHmatched _ _ eq_refl) as (p1 & p2 & -> & H2 & H3).
        exists (x :: p1), p2. repeat split; [|assumption]. now constructor.
    - destruct q1 as [|n q1]; cbn in E.
      + subst q2. exists [], p. repeat split; [constructor|]. now constructor.
      + injection E as <- ->. destruct (IHmatched _ _ eq_refl) as (p1 & p2 & -> & H2 & H3).
        exists p1, p2. repeat split; [|assumption]. now constructor.
    - destruct q1 as [|n q1]; cbn in E.
      + subst q2. exists [], (x :: p). repeat split; [constructor|]. now apply matched_more.
      + injection E as <- ->. destruct (IHmatched (NFrag i (Wild true) :: q1) q2 eq_refl) as (p1 & p2 & -> & H2 & H3).
        exists (x :: p1), p2. repeat split; [|assumption]. now apply matched_more.
    - destruct q1 as [|n q1]; cbn in E.
      + subst q2. exists [], p. repeat split; [constructor|]. now apply matched_alt with alt.
      + injection E as <- ->. destruct (IHmatched (alt ++ q1) q2) as (p1 & p2 & -> & H2 & H3).
        { now rewrite app_assoc. }
        exists p1, p2. repeat split; [|assumption]. now apply matched_alt with alt.
  Qed.
  Lemma matched_join q1 p1 : matched q1 p1 -> forall q2 p2, matched q2 p2 -> matched (q1 ++ q2) (p1 ++ p2).
  Proof.
    induction 1; intros q2 p2 H2; cbn.
    - assumption.
    - constructor; auto.
    - constructor; auto.
    - apply matched_more. now apply IHmatched.
    - apply matched_alt with alt; [assumption|]. rewrite app_assoc. auto.
  Qed.
  Lemma matched_app q1 q2 p : matched (q1 ++ q2) p <-> exists p1 p2, p = p1 ++ p2 /\ matched q1 p1 /\ matched q2 p2.
  Proof.
    split.
    - intros H. now apply matched_split with (1 := H).
    - intros (p1 & p2 & -> & H1 & H2). now apply matched_join.
  Qed.
  Lemma matched_star i s p : matched (NFrag i (Wild true) :: s) p <-> exists p1 p2, p = p1 ++ p2 /\ matched s p2.
  Proof.
    split.
    - intros H. remember (NFrag i (Wild true) :: s) as q eqn:E. induction H; inversion E; subst.
      + congruence.
      + now exists [], p.
      + destruct (IHmatched eq_refl) as (p1 & p2 & -> & H2). now exists (x :: p1), p2.
    - intros (p1 & p2 & -> & H). induction p1; cbn; [now constructor|]. now apply matched_more.
  Qed.
  Lemma matched_star_step i s x p : matched (NFrag i (Wild true) :: s) (x :: p) <->
    matched s (x :: p) \/ matched (NFrag i (Wild true) :: s) p.
  Proof.
    split.
    - intros H. inversion H; subst; [congruence|now left|now right].
    - intros [H|H]; [now constructor|now apply matched_more].
  Qed.
  Lemma matched_multi alts nx p : matched (NMulti alts :: nx) p <-> exists alt, In alt alts /\ matched (alt ++ nx) p.
  Proof.
    split.
    - intros H. inversion H; subst. eauto.
    - intros (alt & H1 & H2). now apply matched_alt with alt.
  Qed.
  Lemma matched_frag i f nx p : f <> Wild true -> (matched (NFrag i f :: nx) p <-> exists x p', p = x :: p' /\ accepts f x /\ matched nx p').
  Proof.
    intros NE. split.
    - intros H. inversion H; subst; try congruence. eauto 6.
    - intros (x & p' & -> & H1 & H2). now constructor.
  Qed.
  Lemma matched_nil p : matched [] p <-> p = [].
  Proof. split; [intros H; now inversion H|intros ->; constructor]. Qed.

  (** ** Nullability *)
  Lemma substantial_not_empty s : substantial s -> ~ matched s [].
  Proof.
    induction 1; intros M.
    - rewrite matched_frag in M by assumption. destruct M as (x & p' & E & _). discriminate.
    - apply IHsubstantial. destruct n.
      + destruct (is_mw f) eqn:F.
        * apply is_mw_iff in F. subst f. apply matched_star in M. destruct M as (p1 & p2 & E & M).
          symmetry in E. apply app_eq_nil in E. destruct E as [-> ->]. assumption.
        * assert (f <> Wild true) by (rewrite <- is_mw_iff; congruence). rewrite matched_frag in M by assumption.
          destruct M as (x & p' & E & _). discriminate.
      + apply matched_multi in M. destruct M as (alt & _ & M). apply matched_app in M. destruct M as (p1 & p2 & E & _ & M).
        symmetry in E. apply app_eq_nil in E. destruct E as [-> ->]. assumption.
    - apply matched_multi in M. destruct M as (alt & Ha & M). apply matched_app in M. destruct M as (p1 & p2 & E & M & _).
      symmetry in E. apply app_eq_nil in E. destruct E as [-> ->]. now apply (H1 alt).
  Qed.
  Lemma frags_substantial k : forall s, size s < k -> groups_ok s -> substantial s -> forallb is_mw (fragments s) = false.
  Proof.
    induction k; [lia|]. intros s Hk G S. destruct s as [|[i f|alts] nx]; [inversion S|..].
    - change (fragments (NFrag i f :: nx)) with (f :: fragments nx). cbn [forallb].
      destruct (is_mw f) eqn:F; [|reflexivity]. cbn. apply IHk.
      + rewrite size_cons in Hk. pose proof (size_node_pos (NFrag i f)). lia.
      + now inversion G.
      + inversion S; subst; [|assumption]. apply is_mw_iff in F. congruence.
    - assert (GI : alts <> [] /\ (forall a, In a alts -> substantial a /\ groups_ok a)) by (inversion G; auto).
      destruct GI as [NE H2]. destruct alts as [|a l]; [congruence|].
      change (fragments (NMulti (a :: l) :: nx)) with (fragments a ++ flat_map fragments l). rewrite forallb_app.
      rewrite IHk; [reflexivity|..].
      + pose proof (size_alt' (a :: l) a nx (or_introl eq_refl)). lia.
      + apply H2. now left.
      + apply H2. now left.
  Qed.
  Lemma multi_substantial alts nx : groups_ok (NMulti alts :: nx) -> substantial (NMulti alts :: nx).
  Proof. intros G. inversion G; subst. apply sub_multi; [assumption|]. intros a Ha. now apply H2. Qed.
  Lemma wildcard_nullable s : groups_ok s -> (is_multi_wildcard s = true <-> matched s []).
  Proof.
    induction s as [|[i f|alts] nx IH]; intros G.
    - split; [constructor|reflexivity].
    - unfold is_multi_wildcard. change (fragments (NFrag i f :: nx)) with (f :: fragments nx). cbn [forallb].
      rewrite andb_true_iff, is_mw_iff. inversion G; subst. specialize (IH H0). unfold is_multi_wildcard in IH. rewrite IH. split.
      + intros [-> M]. now constructor.
      + intros M. inversion M; subst. auto.
    - pose proof (multi_substantial _ _ G) as S. split.
      + intros M. unfold is_multi_wildcard in M. rewrite (frags_substantial _ _ (Nat.lt_succ_diag_r _) G S) in M. discriminate.
      + intros M. now apply substantial_not_empty in M.
  Qed.

  (** ** Removing the "**" at the front *)
  Lemma groups_ok_app a b : groups_ok a -> groups_ok b -> groups_ok (a ++ b).
  Proof. induction 1; intros Hb; cbn; [assumption|..]; constructor; auto. Qed.
  Lemma all_frags_app P a b : all_frags P a -> all_frags P b -> all_frags P (a ++ b).
  Proof. induction 1; intros Hb; cbn; [assumption|..]; constructor; auto. Qed.
  Lemma substantial_app a b : substantial a -> substantial (a ++ b).
  Proof. induction 1; cbn; [now apply sub_frag|now apply sub_later|now apply sub_multi]. Qed.

  Lemma remove_frag i f nx : remove_root (NFrag i f :: nx) = if is_mw f then remove_root nx else Some (NFrag i f :: nx).
  Proof. unfold remove_root. cbn. now destruct (is_mw f). Qed.
  Definition stripped (alts : list sel) : list sel :=
    flat_map (fun alt => match remove_root alt with Some a => [a] | None => [] end) alts.
  Lemma remove_multi alts nx : remove_root (NMulti alts :: nx) = Some (NMulti (stripped alts) :: nx).
  Proof. reflexivity. Qed.
  Lemma remove_none s : remove_root s = None -> forall n, In n s -> exists i, n = NFrag i (Wild true).
  Proof.
    induction s as [|[i f|alts] nx IH]; [easy|..].
    - rewrite remove_frag. destruct (is_mw f) eqn:F; [|discriminate]. intros H n [<-|Hn]; [|auto].
      apply is_mw_iff in F. subst f. eauto.
    - rewrite remove_multi. discriminate.
  Qed.
  Lemma remove_substantial s : substantial s -> exists r, remove_root s = Some r.
  Proof.
    intros H. destruct (remove_root s) eqn:E; [eauto|]. exfalso.
    assert (M : matched s []).
    { pose proof (remove_none s E) as A. clear -A. induction s; [constructor|].
      destruct (A a (or_introl eq_refl)) as [i ->]. constructor. apply IHs. intros; apply A; now right. }
    now apply substantial_not_empty in M.
  Qed.
  Lemma stripped_spec alts : (forall alt, In alt alts -> substantial alt) ->
    Forall2 (fun a a' => remove_root a = Some a') alts (stripped alts).
  Proof.
    induction alts as [|a l IH]; intros H; [constructor|].
    destruct (remove_substantial a (H a (or_introl eq_refl))) as [r E].
    unfold stripped. cbn [flat_map]. rewrite E. constructor; [assumption|]. apply IH. intros; apply H; now right.
  Qed.
  Lemma stripped_in alts a' : In a' (stripped alts) <-> exists a, In a alts /\ remove_root a = Some a'.
  Proof.
    unfold stripped. rewrite in_flat_map. split.
    - intros (a & Ha & H). exists a. split; [assumption|]. destruct (remove_root a); [|easy]. destruct H as [<-|[]]. reflexivity.
    - intros (a & Ha & H). exists a. split; [assumption|]. rewrite H. now left.
  Qed.

  Lemma remove_lang k : forall s r, size s < k -> groups_ok s -> remove_root s = Some r ->
    groups_ok r /\ substantial r /\ has_root r = false /\
    (forall i p, matched (NFrag i (Wild true) :: s) p <-> matched (NFrag i (Wild true) :: r) p) /\
    (has_root s = true -> forall i p, matched s p <-> matched (NFrag i (Wild true) :: r) p) /\
    (forall P, all_frags P s -> all_frags P r).
  Proof.
    induction k; [lia|]. intros s r Hk G E. destruct s as [|[i f|alts] nx]; [discriminate|..].
    - rewrite remove_frag in E. destruct (is_mw f) eqn:F.
      + apply is_mw_iff in F. subst f.
        destruct (IHk nx r) as (G' & S & R & L & _ & A); [|now inversion G|assumption|].
        { rewrite size_cons in Hk. cbn in Hk. lia. }
        assert (L2 : forall j p, matched (NFrag i (Wild true) :: nx) p <-> matched (NFrag j (Wild true) :: r) p).
        { intros j p. rewrite (L i p), !matched_star. reflexivity. }
        repeat split; auto.
        * intros M. apply matched_star in M. destruct M as (p1 & p2 & -> & M). apply (L2 i0) in M.
          apply matched_star in M. destruct M as (p3 & p4 & -> & M). apply matched_star. exists (p1 ++ p3), p4.
          now rewrite app_assoc.
        * intros M. apply (L2 i0) in M. now constructor.
        * intros M. now apply (L2 i0).
        * intros M. now apply (L2 i0).
        * intros P HP. apply A. now inversion HP.
      + assert (r = NFrag i f :: nx) by congruence. subst r. assert (f <> Wild true) by (rewrite <- is_mw_iff; congruence).
        repeat split; auto.
        * now apply sub_frag.
        * cbn in *. congruence.
        * cbn in *. congruence.
    - rewrite remove_multi in E. assert (r = NMulti (stripped alts) :: nx) by congruence. subst r. clear E.
      assert (GI : alts <> [] /\ (forall a, In a alts -> substantial a /\ groups_ok a) /\ groups_ok nx) by (inversion G; auto).
      destruct GI as (NE & GA & GN).
      assert (IA : forall a a', In a alts -> remove_root a = Some a' ->
                groups_ok a' /\ substantial a' /\ has_root a' = false /\
                (forall i p, matched (NFrag i (Wild true) :: a) p <-> matched (NFrag i (Wild true) :: a') p) /\
                (has_root a = true -> forall i p, matched a p <-> matched (NFrag i (Wild true) :: a') p) /\
                (forall P, all_frags P a -> all_frags P a')).
      { intros a a' Ha Er. apply IHk; [|now apply GA|assumption]. pose proof (size_alt' alts a nx Ha). lia. }
      assert (NE' : stripped alts <> []).
      { destruct alts as [|a l]; [congruence|]. destruct (remove_substantial a) as [r E]; [apply GA; now left|].
        unfold stripped. cbn [flat_map]. rewrite E. discriminate. }
      assert (SA : forall a', In a' (stripped alts) -> substantial a' /\ groups_ok a').
      { intros a' Ha'. apply stripped_in in Ha'. destruct Ha' as (a & Ha & Er). destruct (IA a a' Ha Er) as (? & ? & _). auto. }
      split; [now constructor|]. split; [apply sub_multi; [assumption|]; intros a' Ha'; now apply SA|].
      split; [|split; [|split]].
      + cbn. destruct (stripped alts) as [|a' l'] eqn:ES; [congruence|]. cbn.
        assert (In a' (stripped alts)) as Ha' by (rewrite ES; now left). apply stripped_in in Ha'. destruct Ha' as (a & Ha & Er).
        destruct (IA a a' Ha Er) as (_ & _ & R & _). unfold has_root in R. now rewrite R.
      + intros i p. rewrite !matched_star. split; intros (p1 & p2 & -> & M).
        * apply matched_multi in M. destruct M as (a & Ha & M). apply matched_app in M. destruct M as (p3 & p4 & -> & M1 & M2).
          destruct (remove_substantial a) as [a' Er]; [now apply GA|]. destruct (IA a a' Ha Er) as (_ & _ & _ & L & _ & _).
          assert (M3 : matched (NFrag i (Wild true) :: a) (p1 ++ p3)) by (apply matched_star; eauto).
          apply L in M3. apply matched_star in M3. destruct M3 as (p5 & p6 & E & M3). exists p5, (p6 ++ p4). split.
          { rewrite !app_assoc. congruence. }
          apply matched_multi. exists a'. split; [apply stripped_in; eauto|]. now apply matched_join.
        * apply matched_multi in M. destruct M as (a' & Ha' & M). apply stripped_in in Ha'. destruct Ha' as (a & Ha & Er).
          apply matched_app in M. destruct M as (p3 & p4 & -> & M1 & M2). destruct (IA a a' Ha Er) as (_ & _ & _ & L & _ & _).
          assert (M3 : matched (NFrag i (Wild true) :: a') (p1 ++ p3)) by (apply matched_star; eauto).
          apply L in M3. apply matched_star in M3. destruct M3 as (p5 & p6 & E & M3). exists p5, (p6 ++ p4). split.
          { rewrite !app_assoc. congruence. }
          apply matched_multi. exists a. split; [assumption|]. now apply matched_join.
      + intros R i p. cbn in R. rewrite forallb_forall in R. rewrite matched_star. split.
        * intros M. apply matched_multi in M. destruct M as (a & Ha & M). apply matched_app in M. destruct M as (p3 & p4 & -> & M1 & M2).
          destruct (remove_substantial a) as [a' Er]; [now apply GA|]. destruct (IA a a' Ha Er) as (_ & _ & _ & _ & L & _).
          apply (L (R a Ha) i) in M1. apply matched_star in M1. destruct M1 as (p5 & p6 & -> & M1). exists p5, (p6 ++ p4).
          split; [now rewrite app_assoc|]. apply matched_multi. exists a'. split; [apply stripped_in; eauto|]. now apply matched_join.
        * intros (p1 & p2 & -> & M). apply matched_multi in M. destruct M as (a' & Ha' & M). apply stripped_in in Ha'.
          destruct Ha' as (a & Ha & Er). apply matched_app in M. destruct M as (p3 & p4 & -> & M1 & M2).
          destruct (IA a a' Ha Er) as (_ & _ & _ & _ & L & _). apply matched_multi. exists a. split; [assumption|].
          rewrite app_assoc. apply matched_join; [|assumption]. apply (L (R a Ha) i). apply matched_star. eauto.
      + intros P HP. inversion HP; subst. constructor; [|assumption]. intros a' Ha'. apply stripped_in in Ha'. destruct Ha' as (a & Ha & Er).
        destruct (IA a a' Ha Er) as (_ & _ & _ & _ & _ & A). auto.
  Qed.

  Definition WF (s : sel) : Prop := groups_ok s /\ all_frags sane s.
  Lemma simplify_lang c s s' c' : s <> [] -> WF s -> simplify c s = (s', c') ->
    s' <> [] /\ WF s' /\ (forall p, matched s' p <-> matched s p).
  Proof.
    intros NE [G A] E. unfold simplify in E. destruct (has_root s) eqn:R.
    - destruct (remove_root s) as [r|] eqn:Er; injection E as <- <-.
      + destruct (remove_lang _ _ _ (Nat.lt_succ_diag_r _) G Er) as (G' & S & R' & _ & L & A').
        split; [discriminate|]. split.
        * split; [now constructor|]. constructor; [discriminate|now apply A'].
        * intros p. symmetry. now apply L.
      + split; [discriminate|]. split; [split; repeat constructor; discriminate|].
        intros p. pose proof (remove_none s Er) as N. split; intros _.
        * destruct s as [|n s]; [congruence|]. destruct (N n (or_introl eq_refl)) as [i ->]. apply matched_star.
          exists p, []. rewrite app_nil_r. split; [reflexivity|]. assert (N' : forall n, In n s -> exists i, n = NFrag i (Wild true)) by (intros; apply N; now right).
          clear -N'. induction s; [constructor|]. destruct (N' a (or_introl eq_refl)) as [i ->]. constructor. apply IHs. intros; apply N'; now right.
        * apply matched_star. exists p, []. rewrite app_nil_r. split; [reflexivity|constructor].
    - injection E as <- <-. repeat split; auto.
  Qed.

  (** ** Weights *)
  Fixpoint w_node (n : node) : nat :=
    match n with NFrag _ _ => 1 | NMulti alts => list_max (map (fun a => list_sum (map w_node a)) alts) end.
  Definition w (s : sel) : nat := list_sum (map w_node s).
  Lemma w_app a b : w (a ++ b) = w a + w b.
  Proof. unfold w. now rewrite map_app, list_sum_app. Qed.
  Lemma w_cons n s : w (n :: s) = w_node n + w s.
  Proof. reflexivity. Qed.
  Lemma list_max_in l x : In x l -> x <= list_max l.
  Proof. induction l; [easy|]. change (list_max (a :: l)) with (Nat.max a (list_max l)). intros [<-|H]; [lia|]. specialize (IHl H). lia. Qed.
  Lemma list_max_le' l b : (forall x, In x l -> x <= b) -> list_max l <= b.
  Proof. intros H. apply list_max_le. now apply Forall_forall. Qed.
  Lemma w_multi alts : w_node (NMulti alts) = list_max (map w alts).
  Proof. reflexivity. Qed.
  Lemma w_alt alts alt nx : In alt alts -> w (alt ++ nx) <= w (NMulti alts :: nx).
  Proof.
    intros H. rewrite w_app, w_cons, w_multi. pose proof (list_max_in (map w alts) (w alt) (in_map w _ _ H)). lia.
  Qed.
  Lemma w_remove k : forall s r, size s < k -> groups_ok s -> remove_root s = Some r ->
    w r <= w s /\ (has_root s = true -> w r + 1 <= w s).
  Proof.
    induction k; [lia|]. intros s r Hk G E. destruct s as [|[i f|alts] nx]; [discriminate|..].
    - rewrite remove_frag in E. destruct (is_mw f) eqn:F.
      + destruct (IHk nx r) as (L & _); [|now inversion G|assumption|].
        { rewrite size_cons in Hk. cbn in Hk. lia. }
        rewrite w_cons. cbn [w_node]. lia.
      + assert (r = NFrag i f :: nx) by congruence. subst r. split; [lia|]. cbn. congruence.
    - rewrite remove_multi in E. assert (r = NMulti (stripped alts) :: nx) by congruence. subst r. clear E.
      assert (GI : alts <> [] /\ (forall a, In a alts -> substantial a /\ groups_ok a) /\ groups_ok nx) by (inversion G; auto).
      destruct GI as (NE & GA & GN).
      assert (IA : forall a a', In a alts -> remove_root a = Some a' -> w a' <= w a /\ (has_root a = true -> w a' + 1 <= w a)).
      { intros a a' Ha Er. apply IHk; [|now apply GA|assumption]. pose proof (size_alt' alts a nx Ha). lia. }
      rewrite !w_cons, !w_multi. split.
      + enough (list_max (map w (stripped alts)) <= list_max (map w alts)) by lia. apply list_max_le'.
        intros x Hx. apply in_map_iff in Hx. destruct Hx as (a' & <- & Ha'). apply stripped_in in Ha'. destruct Ha' as (a & Ha & Er).
        destruct (IA a a' Ha Er) as [L _]. pose proof (list_max_in (map w alts) (w a) (in_map w _ _ Ha)). lia.
      + intros R. cbn in R. rewrite forallb_forall in R.
        enough (list_max (map w (stripped alts)) + 1 <= list_max (map w alts)) by lia.
        assert (B : forall a', In a' (stripped alts) -> w a' <= list_max (map w alts) - 1 /\ 1 <= list_max (map w alts)).
        { intros a' Ha'. apply stripped_in in Ha'. destruct Ha' as (a & Ha & Er).
          destruct (IA a a' Ha Er) as [_ L]. specialize (L (R a Ha)).
          pose proof (list_max_in (map w alts) (w a) (in_map w _ _ Ha)). lia. }
        assert (NE' : exists a', In a' (stripped alts)).
        { destruct alts as [|a l]; [congruence|]. destruct (remove_substantial a) as [a' Ea]; [apply GA; now left|].
          exists a'. apply stripped_in. exists a. split; [now left|assumption]. }
        destruct NE' as [a0 Ha0]. destruct (B a0 Ha0) as [_ B1].
        assert (list_max (map w (stripped alts)) <= list_max (map w alts) - 1); [|lia].
        apply list_max_le'. intros x Hx. apply in_map_iff in Hx. destruct Hx as (a' & <- & Ha'). now apply B.
  Qed.
  Lemma w_simplify c s s' c' : s <> [] -> groups_ok s -> simplify c s = (s', c') -> w s' <= w s.
  Proof.
    intros NE G E. unfold simplify in E. destruct (has_root s) eqn:R.
    - destruct (remove_root s) as [r|] eqn:Er; injection E as <- <-.
      + destruct (w_remove _ _ _ (Nat.lt_succ_diag_r _) G Er) as [_ L]. specialize (L R). rewrite w_cons. cbn [w_node]. lia.
      + pose proof (remove_none s Er) as N. destruct s as [|n s]; [congruence|].
        destruct (N n (or_introl eq_refl)) as [i ->]. rewrite !w_cons. cbn. lia.
    - injection E as <- <-. lia.
  Qed.

  (** ** Matches and continuations *)
  Section MC.
    Variables (name : string) (m : nat).
    Inductive runs (next : sel) : nat -> list sel -> list (nat * frag) -> list cont -> nat -> Prop :=
    | runs_nil c : runs next c [] [] [] c
    | runs_empty c alts ms ks c' : runs next c alts ms ks c' -> runs next c ([] :: alts) ms ks c'
    | runs_cons c a tl alts ms1 ks1 c1 ms2 ks2 c2 :
        matches_conts name m c a (tl ++ next) = (ms1, ks1, c1) -> runs next c1 alts ms2 ks2 c2 ->
        runs next c ((a :: tl) :: alts) (ms1 ++ ms2) (ks1 ++ ks2) c2.
    Lemma multi_runs alts next c ms ks c' :
      matches_conts name m c (NMulti alts) next = (ms, ks, c') -> runs next c alts ms ks c'.
    Proof.
      cbn [MpathModel.matches_conts].
      assert (G : forall alts ms0 ks0 c ms ks c',
        fold_left (fun acc alt => let '(ms, ks, c0) := acc in
          match alt with [] => (ms, ks, c0) | a :: tl => let '(ms', ks', c'') := matches_conts name m c0 a (tl ++ next) in (ms ++ ms', ks ++ ks', c'') end)
          alts (ms0, ks0, c) = (ms, ks, c') -> exists ms1 ks1, ms = ms0 ++ ms1 /\ ks = ks0 ++ ks1 /\ runs next c alts ms1 ks1 c').
      { clear. induction alts as [|alt l IH]; intros ms0 ks0 c ms ks c'; cbn [fold_left].
        - intros E. injection E as <- <- <-. exists [], []. rewrite !app_nil_r. repeat split; constructor.
        - destruct alt as [|a tl].
          + intros E. apply IH in E. destruct E as (ms1 & ks1 & -> & -> & R). exists ms1, ks1. repeat split. now constructor.
          + destruct (matches_conts name m c a (tl ++ next)) as [[ms' ks'] c''] eqn:E1. intros E. apply IH in E.
            destruct E as (ms1 & ks1 & -> & -> & R). exists (ms' ++ ms1), (ks' ++ ks1). rewrite !app_assoc. repeat split.
            now apply runs_cons with c''. }
      intros E. apply G in E. destruct E as (ms1 & ks1 & -> & -> & R). exact R.
    Qed.

    Definition mc_ok (s : sel) (ms : list (nat * frag)) (ks : list cont) : Prop :=
      (ms <> [] -> matched s [(name, m)]) /\
      (forall k, In k ks -> k_sel k <> [] /\ WF (k_sel k) /\ w (k_sel k) <= w s) /\
      (forall k p, In k ks -> k_consume k = true -> matched (k_sel k) p -> matched s ((name, m) :: p)) /\
      (forall k p, In k ks -> k_consume k = false -> matched (k_sel k) p -> matched s p) /\
      (forall k, In k ks -> k_consume k = false -> w (k_sel k) < w s) /\
      (forall p, matched s ((name, m) :: p) ->
         (p = [] /\ ms <> []) \/ (p <> [] /\ exists k, In k ks /\ k_consume k = true /\ matched (k_sel k) p) \/
         (exists k, In k ks /\ k_consume k = false /\ matched (k_sel k) ((name, m) :: p))).

    Lemma frag_mc i f next c ms ks c' : WF (NFrag i f :: next) ->
      matches_conts name m c (NFrag i f) next = (ms, ks, c') -> mc_ok (NFrag i f :: next) ms ks.
    Proof.
      intros [G A] E. assert (SF : sane f) by (now inversion A). assert (GN : groups_ok next) by (now inversion G).
      assert (AN : all_frags sane next) by (now inversion A).
      cbn [MpathModel.matches_conts] in E.
      destruct (fmatch f name m) eqn:F; cbn [negb] in E.
      2:{ injection E as <- <- <-. assert (NA : ~ accepts f (name, m)) by (rewrite <- fmatch_accepts; congruence).
          assert (f <> Wild true) by (intros ->; cbn in F; discriminate).
          repeat split; try easy. intros p M. rewrite matched_frag in M by assumption.
          destruct M as (x & p' & Ex & Hx & _). injection Ex as <- <-. contradiction. }
      apply fmatch_accepts in F.
      destruct (must_advance f) eqn:MA.
      - assert (NW : f <> Wild true) by (intros ->; discriminate).
        destruct next as [|n0 nx0] eqn:EN.
        + injection E as <- <- <-. repeat split; try easy.
          * intros _. constructor; [assumption|assumption|constructor].
          * intros p M. left. rewrite matched_frag in M by assumption. destruct M as (x & p' & Ex & _ & M).
            injection Ex as _ ->. apply matched_nil in M. subst. split; [reflexivity|discriminate].
        + rewrite <- EN in *. assert (NE : next <> []) by (rewrite EN; discriminate).
          assert (E' : (let (s, c'0) := simplify c next in
                 ((if is_multi_wildcard next then [(i, f)] else []), [mkC s (i, f) true], c'0)) = (ms, ks, c')).
          { rewrite EN in *. cbn in E |- *. destruct (simplify c (n0 :: nx0)). exact E. }
          clear E. destruct (simplify c next) as [s c1] eqn:ES. injection E' as <- <- <-.
          destruct (simplify_lang _ _ _ _ NE (conj GN AN) ES) as (NEs & Ws & Ls).
          pose proof (w_simplify _ _ _ _ NE GN ES) as Wt.
          repeat split.
          * intros H. destruct (is_multi_wildcard next) eqn:EW; [|easy]. apply wildcard_nullable in EW; [|assumption].
            now constructor.
          * destruct H as [<-|[]]; exact NEs.
          * destruct H as [<-|[]]; apply Ws.
          * destruct H as [<-|[]]; apply Ws.
          * destruct H as [<-|[]]. cbn [k_sel]. rewrite w_cons. cbn [w_node]. lia.
          * intros k p [<-|[]] _ M. cbn [k_sel] in M. apply Ls in M. now constructor.
          * intros k p [<-|[]]; discriminate.
          * intros k [<-|[]]; discriminate.
          * intros p M. rewrite matched_frag in M by assumption. destruct M as (x & p' & Ex & _ & M).
            injection Ex as _ ->. destruct p' as [|y p'].
            -- left. split; [reflexivity|]. rewrite (proj2 (wildcard_nullable next GN) M). discriminate.
            -- right; left. split; [discriminate|]. exists (mkC s (i, f) true). split; [now left|]. split; [reflexivity|]. now apply Ls.
      - destruct (advance_sane f SF MA) as [->| ->]; [|cbn in F; tauto].
        destruct next as [|n0 nx0] eqn:EN.
        + injection E as <- <- <-. repeat split; try easy.
          * intros _. apply matched_star. exists [(name, m)], []. split; [reflexivity|constructor].
          * destruct H as [<-|[]]. discriminate.
          * destruct H as [<-|[]]. assumption.
          * destruct H as [<-|[]]. assumption.
          * destruct H as [<-|[]]. cbn [k_sel]. lia.
          * intros k p [<-|[]] _ M. now apply matched_more.
          * intros k p [<-|[]]; discriminate.
          * intros k [<-|[]]; discriminate.
          * intros p M. apply matched_star_step in M. destruct M as [M|M]; [apply matched_nil in M; discriminate|].
            destruct p as [|y p]; [left; split; [reflexivity|discriminate]|]. right; left. split; [discriminate|].
            eexists. split; [now left|]. split; [reflexivity|]. exact M.
        + rewrite <- EN in *. assert (NE : next <> []) by (rewrite EN; discriminate).
          assert (E' : (let (s, c1) := simplify c next in let (s', c2) := simplify c1 next in
                 ((if is_multi_wildcard next then [(i, Wild true)] else []),
                  [mkC (NFrag i (Wild true) :: next) (i, Wild true) true; mkC s (i, Wild true) false; mkC s' (i, Wild true) true], c2)) = (ms, ks, c')).
          { rewrite EN in *. cbn in E |- *. destruct (simplify c (n0 :: nx0)) as [s c1]. cbn in E |- *. destruct (simplify c1 (n0 :: nx0)). exact E. }
          clear E. destruct (simplify c next) as [s c1] eqn:ES. destruct (simplify c1 next) as [s' c2] eqn:ES'. injection E' as <- <- <-.
          destruct (simplify_lang _ _ _ _ NE (conj GN AN) ES) as (NEs & Ws & Ls).
          destruct (simplify_lang _ _ _ _ NE (conj GN AN) ES') as (NEs' & Ws' & Ls').
          pose proof (w_simplify _ _ _ _ NE GN ES) as Wt. pose proof (w_simplify _ _ _ _ NE GN ES') as Wt'.
          repeat split.
          * intros H. destruct (is_multi_wildcard next) eqn:EW; [|easy]. apply wildcard_nullable in EW; [|assumption].
            apply matched_star. now exists [(name, m)], [].
          * destruct H as [<-|[<-|[<-|[]]]]; [discriminate|exact NEs|exact NEs'].
          * destruct H as [<-|[<-|[<-|[]]]]; [assumption|apply Ws|apply Ws'].
          * destruct H as [<-|[<-|[<-|[]]]]; [assumption|apply Ws|apply Ws'].
          * destruct H as [<-|[<-|[<-|[]]]]; cbn [k_sel]; rewrite ?w_cons; cbn [w_node]; lia.
          * intros k p [<-|[<-|[<-|[]]]]; cbn [k_sel k_consume]; intros Hc M; [now apply matched_more|discriminate|].
            apply Ls' in M. apply matched_more. now constructor.
          * intros k p [<-|[<-|[<-|[]]]]; cbn [k_sel k_consume]; intros Hc M; [discriminate| |discriminate].
            apply Ls in M. now constructor.
          * intros k [<-|[<-|[<-|[]]]]; cbn [k_sel k_consume]; intros Hc; [discriminate| |discriminate].
            rewrite w_cons. cbn [w_node]. lia.
          * intros p M. apply matched_star_step in M. destruct M as [M|M].
            -- right; right. exists (mkC s (i, Wild true) false). split; [right; now left|]. split; [reflexivity|]. now apply Ls.
            -- destruct p as [|y p].
               ++ left. split; [reflexivity|]. assert (M0 : matched next []).
                  { apply matched_star in M. destruct M as (p1 & p2 & Ep & M). symmetry in Ep. apply app_eq_nil in Ep.
                    destruct Ep as [-> ->]. assumption. }
                  apply wildcard_nullable in M0; [|assumption]. rewrite M0. discriminate.
               ++ right; left. split; [discriminate|]. eexists. split; [now left|]. split; [reflexivity|]. exact M.
    Qed.

    Lemma mc_sound k : forall n next c ms ks c', size (n :: next) < k -> WF (n :: next) ->
      matches_conts name m c n next = (ms, ks, c') -> mc_ok (n :: next) ms ks.
    Proof.
      induction k; [lia|]. intros n next c ms ks c' Hk W E. destruct n as [i f|alts].
      - now apply frag_mc in E.
      - apply multi_runs in E. destruct W as [G A].
        assert (GI : (forall a, In a alts -> substantial a /\ groups_ok a) /\ groups_ok next) by (inversion G; auto).
        assert (AI : (forall a, In a alts -> all_frags sane a) /\ all_frags sane next) by (inversion A; auto).
        destruct GI as [GA GN]. destruct AI as [AA AN].
        assert (IH : forall alts0 c ms ks c', runs next c alts0 ms ks c' -> (forall a, In a alts0 -> In a alts) ->
          (ms <> [] -> exists alt, In alt alts0 /\ matched (alt ++ next) [(name, m)]) /\
          (forall k, In k ks -> k_sel k <> [] /\ WF (k_sel k) /\ w (k_sel k) <= w (NMulti alts :: next)) /\
          (forall k p, In k ks -> k_consume k = true -> matched (k_sel k) p -> exists alt, In alt alts0 /\ matched (alt ++ next) ((name, m) :: p)) /\
          (forall k p, In k ks -> k_consume k = false -> matched (k_sel k) p -> exists alt, In alt alts0 /\ matched (alt ++ next) p) /\
          (forall k, In k ks -> k_consume k = false -> w (k_sel k) < w (NMulti alts :: next)) /\
          (forall p alt, In alt alts0 -> matched (alt ++ next) ((name, m) :: p) ->
             (p = [] /\ ms <> []) \/ (p <> [] /\ exists k, In k ks /\ k_consume k = true /\ matched (k_sel k) p) \/
             (exists k, In k ks /\ k_consume k = false /\ matched (k_sel k) ((name, m) :: p)))).
        { clear E ms ks c c'. intros alts0 c ms ks c' R. induction R; intros Sub.
          - repeat split; easy.
          - exfalso. destruct (GA [] (Sub [] (or_introl eq_refl))) as [S _]. inversion S.
          - assert (Ha : In (a :: tl) alts) by (apply Sub; now left).
            assert (M1 : mc_ok (a :: tl ++ next) ms1 ks1).
            { apply IHk with c c1; [| |assumption].
              - pose proof (size_alt alts (a :: tl) next Ha). cbn [app] in H0. lia.
              - split; [apply (groups_ok_app (a :: tl) next); [now apply GA|assumption]|].
                apply (all_frags_app sane (a :: tl) next); [now apply AA|assumption]. }
            pose proof (w_alt alts (a :: tl) next Ha) as Wa. cbn [app] in Wa.
            destruct M1 as (P1 & P2 & P3 & P4 & P5 & P6).
            destruct IHR as (Q1 & Q2 & Q3 & Q4 & Q5 & Q6); [intros; apply Sub; now right|].
            repeat split.
            + intros NE. destruct ms1 as [|x ms1].
              * destruct Q1 as (alt & H1 & H2); [exact NE|]. exists alt. split; [now right|assumption].
              * exists (a :: tl). split; [now left|]. apply P1. discriminate.
            + apply in_app_iff in H0. destruct H0 as [H0|H0]; [now apply P2|now apply Q2].
            + apply in_app_iff in H0. destruct H0 as [H0|H0]; [now apply P2|now apply Q2].
            + apply in_app_iff in H0. destruct H0 as [H0|H0]; [now apply P2|now apply Q2].
            + apply in_app_iff in H0. destruct H0 as [H0|H0]; [destruct (P2 _ H0) as (_ & _ & L); lia|now apply Q2].
            + intros k0 p H0 Hc M. apply in_app_iff in H0. destruct H0 as [H0|H0].
              * exists (a :: tl). split; [now left|]. now apply (P3 k0).
              * destruct (Q3 _ _ H0 Hc M) as (alt & H1 & H2). exists alt. split; [now right|assumption].
            + intros k0 p H0 Hc M. apply in_app_iff in H0. destruct H0 as [H0|H0].
              * exists (a :: tl). split; [now left|]. now apply (P4 k0).
              * destruct (Q4 _ _ H0 Hc M) as (alt & H1 & H2). exists alt. split; [now right|assumption].
            + intros k0 H0 Hc. apply in_app_iff in H0. destruct H0 as [H0|H0]; [specialize (P5 _ H0 Hc); lia|now apply Q5].
            + intros p alt [<-|H0] M.
              * destruct (P6 p M) as [[-> NE]|[[NE (k0 & K1 & K2 & K3)]|(k0 & K1 & K2 & K3)]].
                -- left. split; [reflexivity|]. intros E0. apply app_eq_nil in E0. tauto.
                -- right; left. split; [assumption|]. exists k0. split; [apply in_app_iff; now left|]. auto.
                -- right; right. exists k0. split; [apply in_app_iff; now left|]. auto.
              * destruct (Q6 p alt H0 M) as [[-> NE]|[[NE (k0 & K1 & K2 & K3)]|(k0 & K1 & K2 & K3)]].
                -- left. split; [reflexivity|]. intros E0. apply app_eq_nil in E0. tauto.
                -- right; left. split; [assumption|]. exists k0. split; [apply in_app_iff; now right|]. auto.
                -- right; right. exists k0. split; [apply in_app_iff; now right|]. auto. }
        destruct (IH _ _ _ _ _ E (fun a H => H)) as (P1 & P2 & P3 & P4 & P5 & P6).
        split; [|split; [|split; [|split; [|split]]]].
        + intros NE. destruct (P1 NE) as (alt & H1 & H2). now apply matched_alt with alt.
        + assumption.
        + intros k0 p H Hc M. destruct (P3 _ _ H Hc M) as (alt & H1 & H2). now apply matched_alt with alt.
        + intros k0 p H Hc M. destruct (P4 _ _ H Hc M) as (alt & H1 & H2). now apply matched_alt with alt.
        + assumption.
        + intros p M. apply matched_multi in M. destruct M as (alt & Ha & M). now apply (P6 p alt).
    Qed.
  End MC.

  (** ** Picking alternatives *)
  Lemma matched_picks q p : matched q p <-> exists q', picks q q' /\ matched q' p.
  Proof.
    split.
    - induction 1.
      + exists []. split; constructor.
      + destruct IHmatched as (q' & P & M). exists (NFrag i f :: q'). split; now constructor.
      + destruct IHmatched as (q' & P & M). exists (NFrag i (Wild true) :: q'). split; now constructor.
      + destruct IHmatched as (q' & P & M). exists q'. split; [assumption|]. inversion P; subst. now apply matched_more.
      + destruct IHmatched as (q' & P & M). exists q'. split; [|assumption]. now apply picks_multi with alt.
    - intros (q' & P & M). revert p M. induction P; intros p M.
      + assumption.
      + destruct (is_mw f) eqn:F.
        * apply is_mw_iff in F. subst f. apply matched_star in M. destruct M as (p1 & p2 & -> & M). apply matched_star. eauto.
        * assert (f <> Wild true) by (rewrite <- is_mw_iff; congruence). rewrite matched_frag in M by assumption.
          destruct M as (x & p' & -> & H1 & H2). apply matched_frag; [assumption|]. eauto 6.
      + apply matched_alt with alt; auto.
  Qed.
End P.
