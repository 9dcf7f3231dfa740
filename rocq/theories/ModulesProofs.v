From Coq Require Import String Ascii.
From Coq Require FinFun.
From Verif Require Import Prelude ModulesModel ModulesSpec.
Local Open Scope nat_scope.
Local Open Scope list_scope.

Lemma existsb_in id l : existsb (Nat.eqb id) l = true <-> In id l.
Proof.
  rewrite existsb_exists. split; [intros (x & H & E); apply Nat.eqb_eq in E; now subst|].
  intros H. exists id. split; [assumption|apply Nat.eqb_refl].
Qed.
Lemma existsb_notin id l : existsb (Nat.eqb id) l = false <-> ~ In id l.
Proof. rewrite <- existsb_in. destruct (existsb (Nat.eqb id) l); split; congruence. Qed.

Lemma NoDup_app {A} (l l' : list A) : NoDup l -> NoDup l' -> (forall x, In x l -> ~ In x l') -> NoDup (l ++ l').
Proof.
  induction l as [|x l IH]; intros H1 H2 H3; [assumption|]. simpl. apply NoDup_cons_iff in H1. destruct H1 as [Hx H1]. constructor.
  - intros Hin. apply in_app_or in Hin. destruct Hin as [Hin|Hin]; [contradiction|]. apply (H3 x (or_introl eq_refl) Hin).
  - apply IH; auto. intros y Hy. apply H3. now right.
Qed.

Definition unvisited (h : heap) (memo : list nat) : nat :=
  length (filter (fun i => negb (existsb (Nat.eqb i) memo)) (seq 0 (length h))).
Lemma filter_length_le {A} (f g : A -> bool) l : (forall x, In x l -> f x = true -> g x = true) ->
  length (filter f l) <= length (filter g l).
Proof.
  induction l as [|x l IH]; intros H; simpl; [lia|]. specialize (IH (fun y Hy => H y (or_intror Hy))).
  destruct (f x) eqn:E; [rewrite (H x (or_introl eq_refl) E); simpl; lia|]. destruct (g x); simpl; lia.
Qed.
Lemma filter_length_lt {A} (f g : A -> bool) l x : (forall x, In x l -> f x = true -> g x = true) ->
  In x l -> f x = false -> g x = true -> length (filter f l) < length (filter g l).
Proof.
  induction l as [|y l IH]; intros H Hin Hf Hg; [easy|]. pose proof (filter_length_le f g l (fun z Hz => H z (or_intror Hz))) as L.
  simpl. destruct Hin as [->|Hin].
  - rewrite Hf, Hg. simpl. lia.
  - specialize (IH (fun z Hz => H z (or_intror Hz)) Hin Hf Hg).
    destruct (f y) eqn:E; [rewrite (H y (or_introl eq_refl) E); simpl; lia|]. destruct (g y); simpl; lia.
Qed.
Lemma unvisited_mono h a b : incl a b -> unvisited h b <= unvisited h a.
Proof.
  intros H. apply filter_length_le. intros x _ Hx. apply negb_true_iff in Hx. apply negb_true_iff.
  apply existsb_notin in Hx. apply existsb_notin. auto.
Qed.
Lemma unvisited_cons h a id : id < length h -> ~ In id a -> unvisited h (id :: a) < unvisited h a.
Proof.
  intros Hid Hn. apply (filter_length_lt _ _ _ id).
  - intros x _ Hx. apply negb_true_iff in Hx. apply existsb_notin in Hx. apply negb_true_iff, existsb_notin. simpl in Hx. tauto.
  - apply in_seq. lia.
  - apply negb_false_iff, existsb_in. now left.
  - apply negb_true_iff, existsb_notin. assumption.
Qed.
Lemma unvisited_nil h : unvisited h [] = length h.
Proof.
  unfold unvisited. simpl. transitivity (length (seq 0 (length h))); [|apply seq_length]. f_equal.
  induction (seq 0 (length h)); simpl; [reflexivity|now f_equal].
Qed.

Lemma leads_app h a p b q z : leads h a p b -> leads h b q z -> leads h a (p ++ q) z.
Proof. induction 1; intros H2; simpl; [assumption|]. econstructor; eauto. Qed.
Lemma leads_end h a p z : leads h a p z -> exists m, nth_error h z = Some m.
Proof. induction 1; eauto. Qed.
Lemma leads_start h a p z : leads h a p z -> exists m, nth_error h a = Some m.
Proof. inversion 1; eauto. Qed.

Definition is_child (h : heap) (x y : nat) : Prop := exists m n, nth_error h x = Some m /\ In (n, Some y) (mkids m).

(** What one call of [named_modules] with a memo guarantees. *)
Definition DfsPost (h : heap) (memo : list nat) (path : list string) (id : nat) (memo' : list nat) (out : list (list string * nat)) : Prop :=
  incl memo memo' /\ In id memo' /\
  (forall x, In x memo' <-> In x memo \/ In x (map snd out)) /\
  NoDup (map snd out) /\ (forall x, In x (map snd out) -> ~ In x memo) /\
  (forall p x, In (p, x) out -> exists p', p = path ++ p' /\ leads h id p' x) /\
  (forall x y, In x memo' -> ~ In x memo -> is_child h x y -> In y memo').

Lemma dfs_spec h : heap_ok h -> forall fuel memo path id, id < length h -> unvisited h memo < fuel ->
  exists memo' out, named_modules fuel h true memo path id = Ok (memo', out) /\ DfsPost h memo path id memo' out.
Proof.
  intros Hok. induction fuel as [|f IH]; intros memo path id Hid Hf; [lia|]. cbn [named_modules].
  destruct (existsb (Nat.eqb id) memo) eqn:Em.
  - apply existsb_in in Em. exists memo, []. split; [reflexivity|]. split; [apply incl_refl|]. split; [assumption|].
    split; [simpl; tauto|]. split; [constructor|]. split; [easy|]. split; [easy|]. intros x y H1 H2. contradiction.
  - apply existsb_notin in Em. destruct (nth_error h id) as [m|] eqn:Eh; [|apply nth_error_None in Eh; lia].
    destruct (Hok id m Eh) as [_ Hkids].
    (* loop invariant over the remaining children *)
    assert (L : forall kids done mm acc, mkids m = done ++ kids -> unvisited h mm < f ->
      incl (id :: memo) mm -> (forall x, In x mm <-> In x memo \/ In x (map snd acc)) -> NoDup (map snd acc) ->
      (forall x, In x (map snd acc) -> ~ In x memo) ->
      (forall p x, In (p, x) acc -> exists p', p = path ++ p' /\ leads h id p' x) ->
      (forall n c, In (n, Some c) done -> In c mm) ->
      (forall x y, In x mm -> ~ In x memo -> x <> id -> is_child h x y -> In y mm) ->
      exists memo' out, fold_left (fun r k =>
        rbind r (fun '(mm, acc) => match snd k with
        | None => Ok (mm, acc)
        | Some c => rbind (named_modules f h true mm (path ++ [fst k]) c) (fun '(mm', l) => Ok (mm', acc ++ l))
        end)) kids (Ok (mm, acc)) = Ok (memo', out) /\ DfsPost h memo path id memo' out).
    { induction kids as [|[n [c|]] kids IHk]; intros done mm acc Hd Hu H1 H2 H3 H4 H5 H6 H7; cbn [fold_left rbind snd fst].
      - rewrite app_nil_r in Hd. subst done. exists mm, acc. split; [reflexivity|].
        split; [intros x Hx; apply H1; now right|]. split; [apply H1; now left|]. split; [assumption|]. split; [assumption|].
        split; [assumption|]. split; [assumption|]. intros x y Hx Hn (m' & n & E & Hin).
        destruct (Nat.eq_dec x id) as [->|Hne]; [|apply (H7 x y Hx Hn Hne); exists m', n; auto].
        rewrite Eh in E. injection E as <-. eauto.
      - destruct (IH mm (path ++ [n]) c) as (mm' & l & E & P1 & P2 & P3 & P4 & P5 & P6 & P7).
        { apply (Hkids n). rewrite Hd. apply in_or_app. right. now left. }
        { assumption. }
        rewrite E. cbn [rbind]. apply (IHk (done ++ [(n, Some c)])).
        + now rewrite <- app_assoc.
        + eapply Nat.le_lt_trans; [apply unvisited_mono; exact P1|assumption].
        + intros x Hx. apply P1. now apply H1.
        + intros x. rewrite P3, H2, map_app, in_app_iff. tauto.
        + rewrite map_app. apply NoDup_app; [assumption|assumption|]. intros x Hx Hx2. apply (P5 x Hx2). apply H2. now right.
        + intros x. rewrite map_app, in_app_iff. intros [Hx|Hx]; [auto|]. intros Hm. apply (P5 x Hx). apply H2. now left.
        + intros p x Hin. apply in_app_or in Hin. destruct Hin as [Hin|Hin]; [auto|].
          destruct (P6 p x Hin) as (p' & -> & Hl). exists (n :: p'). split; [now rewrite <- app_assoc|].
          eapply leads_step; [exact Eh| |exact Hl]. rewrite Hd. apply in_or_app. right. now left.
        + intros n' c' Hin. apply in_app_or in Hin. destruct Hin as [Hin|[Hin|[]]]; [apply P1; eauto|]. injection Hin as <- <-. assumption.
        + intros x y Hx Hn Hne Hc. destruct (in_dec Nat.eq_dec x mm) as [Hm|Hm]; [apply P1; eauto|]. eapply P7; eauto.
      - apply (IHk (done ++ [(n, None)])); auto.
        + now rewrite <- app_assoc.
        + intros n' c' Hin. apply in_app_or in Hin. destruct Hin as [Hin|[Hin|[]]]; [eauto|discriminate]. }
    apply (L (mkids m) [] (id :: memo) [(path, id)]).
    + reflexivity.
    + pose proof (unvisited_cons h memo id Hid Em). lia.
    + apply incl_refl.
    + intros x. simpl. tauto.
    + simpl. constructor; [easy|constructor].
    + intros x [<-|[]]. assumption.
    + intros p x [H|[]]. injection H as <- <-. exists []. split; [now rewrite app_nil_r|]. econstructor. exact Eh.
    + easy.
    + intros x y [<-|Hx] Hn Hne; [congruence|contradiction].
Qed.

Lemma modules_listing h root : heap_ok h -> root < length h ->
  exists memo l, named_modules (S (length h)) h true [] [] root = Ok (memo, l) /\ NoDup (map snd l) /\
    (forall p x, In (p, x) l -> leads h root p x) /\
    (forall p x, leads h root p x -> In x (map snd l)).
Proof.
  intros Hok Hr. destruct (dfs_spec h Hok (S (length h)) [] [] root Hr) as (memo & l & E & P1 & P2 & P3 & P4 & P5 & P6 & P7).
  { rewrite unvisited_nil. lia. }
  exists memo, l. split; [assumption|]. split; [assumption|]. split.
  - intros p x H. destruct (P6 p x H) as (p' & -> & Hl). exact Hl.
  - intros p x H. assert (In x memo).
    { clear P3 P4 P5 P6 E Hr. revert P2. induction H as [|id m n c p z E Hin Hl IH]; intros P2; [assumption|].
      apply IH. eapply P7; [exact P2|easy|]. exists m, n. auto. }
    apply P3 in H0. destruct H0 as [[]|]; assumption.
Qed.

(** Without de-duplication: every path once, on acyclic graphs. *)
Lemma all_paths h rank : heap_ok h -> ranked h rank -> forall fuel path id, id < length h -> rank id < fuel ->
  exists l, named_modules fuel h false [] path id = Ok ([], l) /\ NoDup (map fst l) /\
    forall p x, In (p, x) l <-> exists p', p = path ++ p' /\ leads h id p' x.
Proof.
  intros Hok Hrk. induction fuel as [|f IH]; intros path id Hid Hf; [lia|]. cbn [named_modules existsb].
  destruct (nth_error h id) as [m|] eqn:Eh; [|apply nth_error_None in Eh; lia].
  destruct (Hok id m Eh) as [Hnd Hkids].
  assert (L : forall kids done acc, mkids m = done ++ kids -> NoDup (map fst acc) ->
      (forall p x, In (p, x) acc <-> (p = path /\ x = id) \/ exists n c p', In (n, Some c) done /\ p = path ++ n :: p' /\ leads h c p' x) ->
      exists out, fold_left (fun r k =>
        rbind r (fun '(mm, acc) => match snd k with
        | None => Ok (mm, acc)
        | Some c => rbind (named_modules f h false mm (path ++ [fst k]) c) (fun '(mm', l) => Ok (mm', acc ++ l))
        end)) kids (Ok ([], acc)) = Ok ([], out) /\ NoDup (map fst out) /\
        forall p x, In (p, x) out <-> exists p', p = path ++ p' /\ leads h id p' x).
  { induction kids as [|[n [c|]] kids IHk]; intros done acc Hd N A; cbn [fold_left rbind snd fst].
    - rewrite app_nil_r in Hd. subst done. exists acc. split; [reflexivity|]. split; [assumption|]. intros p x. rewrite A. split.
      + intros [[-> ->]|(n & c & p' & Hin & -> & Hl)].
        * exists []. split; [now rewrite app_nil_r|econstructor; eauto].
        * exists (n :: p'). split; [reflexivity|econstructor; eauto].
      + intros (p' & -> & Hl). inversion Hl as [? m' E|? m' n c p2 ? E Hin Hl']; subst.
        * left. split; [apply app_nil_r|reflexivity].
        * right. rewrite Eh in E. injection E as <-. exists n, c, p2. auto.
    - destruct (IH (path ++ [n]) c) as (l & E & N2 & H2).
      { apply (Hkids n). rewrite Hd. apply in_or_app. right. now left. }
      { assert (rank c < rank id) by (eapply Hrk; [exact Eh|rewrite Hd; apply in_or_app; right; left; reflexivity]). lia. }
      rewrite E. cbn [rbind]. apply (IHk (done ++ [(n, Some c)])).
      + now rewrite <- app_assoc.
      + rewrite map_app. apply NoDup_app; [assumption|assumption|]. intros p Hp Hp2.
        apply in_map_iff in Hp. destruct Hp as ([p1 x1] & Ep & Hp). simpl in Ep. subst p1.
        apply in_map_iff in Hp2. destruct Hp2 as ([p1 x2] & Ep & Hp2). simpl in Ep. subst p1.
        apply H2 in Hp2. destruct Hp2 as (p2 & -> & _). apply A in Hp. rewrite <- app_assoc in Hp. simpl in Hp.
        destruct Hp as [[Hp _]|(n' & c' & p' & Hin & Hp & _)].
        * rewrite <- (app_nil_r path) in Hp at 2. apply app_inv_head in Hp. discriminate.
        * apply app_inv_head in Hp. injection Hp as <- _. rewrite Hd, map_app in Hnd. simpl in Hnd.
          apply NoDup_remove_2 in Hnd. apply Hnd. apply in_or_app. left. apply (in_map fst) in Hin. exact Hin.
      + intros p x. rewrite in_app_iff, A, H2. split.
        * intros [[H|(n' & c' & p' & Hin & -> & Hl)]|(p' & -> & Hl)]; [now left|right; exists n', c', p'|right; exists n, c, p'].
          -- split; [apply in_or_app; now left|auto].
          -- split; [apply in_or_app; right; now left|]. split; [now rewrite <- app_assoc|assumption].
        * intros [H|(n' & c' & p' & Hin & -> & Hl)]; [left; now left|]. apply in_app_or in Hin. destruct Hin as [Hin|[Hin|[]]].
          -- left. right. exists n', c', p'. auto.
          -- injection Hin as <- <-. right. exists p'. split; [now rewrite <- app_assoc|assumption].
    - apply (IHk (done ++ [(n, None)])); [now rewrite <- app_assoc|assumption|]. intros p x. rewrite A. split.
      + intros [H|(n' & c' & p' & Hin & H)]; [now left|right; exists n', c', p'; split; [apply in_or_app; now left|assumption]].
      + intros [H|(n' & c' & p' & Hin & H)]; [now left|]. apply in_app_or in Hin. destruct Hin as [Hin|[Hin|[]]]; [|discriminate].
        right. exists n', c', p'. auto. }
  apply (L (mkids m) []).
  - reflexivity.
  - simpl. constructor; [easy|constructor].
  - intros p x. simpl. split.
    + intros [H|[]]. injection H as <- <-. now left.
    + intros [[-> ->]|(? & ? & ? & [] & _)]. now left.
Qed.

Section Quantizers.
  Variables (is_quantizer is_stub : nat -> bool).
  Notation nq := (named_quantizers is_quantizer is_stub).
  Notation want := (wanted is_quantizer is_stub).

  Lemma quantizers_once h root prefix skip : heap_ok h -> root < length h ->
    exists l, nq (S (length h)) h root prefix true true skip = Ok l /\ NoDup (map snd l) /\
      (forall p q, In (p, q) l -> exists p', p = prefix ++ p' /\ leads h root p' q /\ want h skip q = true) /\
      (forall p' q, leads h root p' q -> want h skip q = true -> exists p, In (p, q) l).
  Proof.
    intros Hok Hr. destruct (modules_listing h root Hok Hr) as (memo & l & E & N & P1 & P2).
    unfold named_quantizers. rewrite E. cbn [rmap rbind snd]. eexists. split; [reflexivity|].
    assert (E2 : map snd (map (fun pm : list string * nat => (prefix ++ fst pm, snd pm)) (filter (fun pm => want h skip (snd pm)) l))
                 = filter (want h skip) (map snd l)).
    { rewrite map_map. clear. induction l as [|[p x] l IH]; simpl; [reflexivity|]. destruct (want h skip x); simpl; [now f_equal|assumption]. }
    split; [rewrite E2; now apply NoDup_filter|]. split.
    - intros p q Hin. apply in_map_iff in Hin. destruct Hin as ([p' x] & Hpx & Hin). injection Hpx as <- <-.
      apply filter_In in Hin. destruct Hin as [Hin Hw]. exists p'. auto.
    - intros p' q Hl Hw. pose proof (P2 _ _ Hl) as Hin.
      assert (In q (filter (want h skip) (map snd l))) as H by (apply filter_In; auto). rewrite <- E2 in H.
      apply in_map_iff in H. destruct H as ([p x] & Ex & H). simpl in Ex. subst x. eauto.
  Qed.

  Lemma quantizers_all_paths h rank root prefix skip fuel : heap_ok h -> ranked h rank -> root < length h -> rank root < fuel ->
    exists l, nq fuel h root prefix true false skip = Ok l /\ NoDup (map fst l) /\
      forall p q, In (p, q) l <-> exists p', p = prefix ++ p' /\ leads h root p' q /\ want h skip q = true.
  Proof.
    intros Hok Hrk Hr Hf. destruct (all_paths h rank Hok Hrk fuel [] root Hr Hf) as (l & E & N & H).
    unfold named_quantizers. rewrite E. cbn [rmap rbind snd]. eexists. split; [reflexivity|]. split.
    - rewrite map_map. cbn [fst]. rewrite <- (map_map fst (fun p => prefix ++ p)).
      apply FinFun.Injective_map_NoDup; [intros a b Hab; now apply app_inv_head in Hab|].
      clear - N. induction l as [|[p x] l IH]; simpl; [constructor|]. inversion N as [|? ? Hn N']; subst. destruct (want h skip x); simpl; auto.
      constructor; auto. intros Hin. apply Hn. apply in_map_iff in Hin. destruct Hin as (y & Ey & Hin). apply filter_In in Hin. rewrite <- Ey. now apply in_map.
    - intros p q. rewrite in_map_iff. split.
      + intros ([p' x] & Hpx & Hin). injection Hpx as <- <-. apply filter_In in Hin. destruct Hin as [Hin Hw].
        apply H in Hin. destruct Hin as (p2 & -> & Hl). exists p2. auto.
      + intros (p' & -> & Hl & Hw). exists (p', q). split; [reflexivity|]. apply filter_In. split; [|assumption]. apply H. exists p'. auto.
  Qed.
End Quantizers.

(** named_children *)
Lemma dedup_names_spec kids : forall seen,
  NoDup (map snd (dedup_names seen kids)) /\
  (forall x, In x (map snd (dedup_names seen kids)) <-> ~ In x seen /\ exists n, In (n, Some x) kids) /\
  (forall n x, In (n, x) (dedup_names seen kids) -> In (n, Some x) kids).
Proof.
  induction kids as [|[n [c|]] kids IH]; intros seen; simpl.
  - split; [constructor|]. split; [|easy]. intros x; split; [easy|]. intros (_ & n & []).
  - destruct (existsb (Nat.eqb c) seen) eqn:E.
    + apply existsb_in in E. destruct (IH seen) as (I1 & I2 & I3). split; [assumption|]. split.
      * intros x. rewrite I2. split; intros [H1 (n' & H2)]; (split; [assumption|]).
        -- exists n'. now right.
        -- destruct H2 as [H2|H2]; [injection H2 as <- <-; contradiction|eauto].
      * intros n' x Hx. right. eauto.
    + apply existsb_notin in E. destruct (IH (c :: seen)) as (I1 & I2 & I3). split; [|split].
      * simpl. constructor; [|assumption]. intros H. apply I2 in H. destruct H as [H _]. apply H. now left.
      * intros x. simpl. rewrite I2. split.
        -- intros [<-|[H1 (n' & H2)]]; [split; [assumption|exists n; now left]|]. split; [simpl in H1; tauto|exists n'; now right].
        -- intros [H1 (n' & [H2|H2])]; [injection H2 as <- <-; now left|]. destruct (Nat.eq_dec c x) as [->|Hne]; [now left|].
           right. split; [simpl; tauto|eauto].
      * intros n' x [H|H]; [injection H as <- <-; now left|right; eauto].
  - destruct (IH seen) as (I1 & I2 & I3). split; [assumption|]. split.
    + intros x. rewrite I2. split; intros [H1 (n' & H2)]; (split; [assumption|]); [exists n'; now right|].
      destruct H2 as [H2|H2]; [discriminate|eauto].
    + intros n' x H. right. eauto.
Qed.
Lemma named_children_spec m :
  NoDup (map snd (named_children m)) /\
  (forall x, In x (map snd (named_children m)) <-> exists n, In (n, Some x) (mkids m)) /\
  (forall n x, In (n, x) (named_children m) -> In (n, Some x) (mkids m)).
Proof.
  destruct (dedup_names_spec (mkids m) []) as (H1 & H2 & H3). split; [assumption|]. split; [|assumption].
  intros x. rewrite H2. simpl. tauto.
Qed.

Lemma quantizers_children is_quantizer is_stub h root m prefix skip rd fuel : nth_error h root = Some m ->
  exists l, named_quantizers is_quantizer is_stub fuel h root prefix false rd skip = Ok l /\ NoDup (map snd l) /\
    (forall p q, In (p, q) l -> exists n, p = prefix ++ [n] /\ In (n, Some q) (mkids m) /\ wanted is_quantizer is_stub h skip q = true) /\
    (forall n q, In (n, Some q) (mkids m) -> wanted is_quantizer is_stub h skip q = true -> In q (map snd l)).
Proof.
  intros E. unfold named_quantizers. rewrite E. cbn [rbind]. eexists. split; [reflexivity|].
  destruct (named_children_spec m) as (N & C1 & C2). set (want := wanted is_quantizer is_stub h skip).
  assert (E2 : map snd (map (fun pm : list string * nat => (prefix ++ fst pm, snd pm)) (filter (fun pm => want (snd pm)) (map (fun k : string * nat => ([fst k], snd k)) (named_children m))))
               = filter want (map snd (named_children m))).
  { generalize (named_children m). intros l. induction l as [|[n c] l IH]; [reflexivity|]. cbn [map filter fst snd]. destruct (want c); cbn [map snd]; now rewrite IH. }
  split; [rewrite E2; now apply NoDup_filter|]. split.
  - intros p q H. apply in_map_iff in H. destruct H as ([p' c] & Ep & H). injection Ep as <- <-. apply filter_In in H. destruct H as [H W].
    apply in_map_iff in H. destruct H as ([n c'] & En & H). cbn [fst snd] in *. injection En as <- <-. exists n. auto.
  - intros n q H W. rewrite E2. apply filter_In. split; [|assumption]. apply C1. eauto.
Qed.

(** the same in terms of [listed] *)
Lemma wanted_listed isq iss h skip q : q < length h -> (wanted isq iss h skip q = true <-> listed isq iss h skip q).
Proof.
  intros Hq. unfold wanted, listed, cls_of. destruct (nth_error h q) as [m|] eqn:E; [|apply nth_error_None in E; lia].
  rewrite andb_true_iff, negb_true_iff, andb_false_iff. split.
  - intros [H1 H2]. exists m. split; [reflexivity|]. split; [assumption|]. intros ->. destruct H2; congruence.
  - intros (m' & E' & H1 & H2). injection E' as <-. split; [assumption|]. destruct skip; auto.
Qed.
Lemma leads_bound h a p z : leads h a p z -> z < length h.
Proof. intros H. apply leads_end in H. destruct H as (m & E). apply nth_error_Some. congruence. Qed.
Lemma quantizers_once' isq iss h root prefix skip : heap_ok h -> root < length h ->
  exists l, named_quantizers isq iss (S (length h)) h root prefix true true skip = Ok l /\ NoDup (map snd l) /\
    (forall p q, In (p, q) l -> exists p', p = prefix ++ p' /\ leads h root p' q /\ listed isq iss h skip q) /\
    (forall p' q, leads h root p' q -> listed isq iss h skip q -> exists p, In (p, q) l).
Proof.
  intros Hok Hr. destruct (quantizers_once isq iss h root prefix skip Hok Hr) as (l & E & N & H1 & H2). exists l. split; [assumption|]. split; [assumption|]. split.
  - intros p q Hin. destruct (H1 p q Hin) as (p' & -> & Hl & Hw). exists p'. split; [reflexivity|]. split; [assumption|]. apply wanted_listed; [eapply leads_bound; eauto|assumption].
  - intros p' q Hl Hw. apply (H2 p' q Hl). apply wanted_listed; [eapply leads_bound; eauto|assumption].
Qed.
Lemma quantizers_all_paths' isq iss h rank root prefix skip fuel : heap_ok h -> ranked h rank -> root < length h -> rank root < fuel ->
  exists l, named_quantizers isq iss fuel h root prefix true false skip = Ok l /\ NoDup (map fst l) /\
    forall p q, In (p, q) l <-> exists p', p = prefix ++ p' /\ leads h root p' q /\ listed isq iss h skip q.
Proof.
  intros Hok Hrk Hr Hf. destruct (quantizers_all_paths isq iss h rank root prefix skip fuel Hok Hrk Hr Hf) as (l & E & N & H). exists l. split; [assumption|]. split; [assumption|].
  intros p q. rewrite H. split; intros (p' & E' & Hl & Hw); exists p'; (split; [assumption|split; [assumption|]]); (apply wanted_listed; [eapply leads_bound; eauto|assumption]).
Qed.
Lemma quantizers_children' isq iss h root m prefix skip rd fuel : heap_ok h -> nth_error h root = Some m ->
  exists l, named_quantizers isq iss fuel h root prefix false rd skip = Ok l /\ NoDup (map snd l) /\
    (forall p q, In (p, q) l -> exists n, p = prefix ++ [n] /\ In (n, Some q) (mkids m) /\ listed isq iss h skip q) /\
    (forall n q, In (n, Some q) (mkids m) -> listed isq iss h skip q -> In q (map snd l)).
Proof.
  intros Hok Em. destruct (Hok root m Em) as [_ K]. destruct (quantizers_children isq iss h root m prefix skip rd fuel Em) as (l & E & N & H1 & H2). exists l. split; [assumption|]. split; [assumption|]. split.
  - intros p q Hin. destruct (H1 p q Hin) as (n & -> & Hl & Hw). exists n. split; [reflexivity|]. split; [assumption|]. apply wanted_listed; [eapply K; eauto|assumption].
  - intros n q Hl Hw. apply (H2 n q Hl). apply wanted_listed; [eapply K; eauto|assumption].
Qed.
Lemma class_ok_iff isq isqm bm mm sk c : class_ok isq isqm bm mm sk c = true <-> supported isq isqm bm mm sk c.
Proof.
  unfold class_ok, supported. destruct (mm c); [split; [left; discriminate|reflexivity]|].
  rewrite !orb_true_iff, andb_true_iff, Nat.eqb_eq. split; [|intros [H|H]; [congruence|tauto]]. tauto.
Qed.
