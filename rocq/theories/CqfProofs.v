(** Quantization functions made from two functions. *)
From Coq Require Import String Lia.
From Verif Require Import Prelude CqfModel CqfSpec.
Local Open Scope nat_scope.
Local Open Scope list_scope.

Lemma has_iff x l : has x l = true <-> In x l.
Proof.
  unfold has. rewrite existsb_exists. split.
  - intros (y & Hy & He). apply String.eqb_eq in He. now subst.
  - intros H. exists x. split; [assumption|apply String.eqb_refl].
Qed.
Lemma get_none x l : get x l = None <-> ~ In x (map fst l).
Proof.
  induction l as [|[y v] l IH]; cbn [get map fst In]; [tauto|]. destruct (String.eqb_spec x y) as [->|N].
  - split; [discriminate|]. intros H. destruct H. now left.
  - rewrite IH. split; [intros H [E|E]; [congruence|tauto]|tauto].
Qed.
Lemma get_only names x kw : In x names -> get x (only names kw) = get x kw.
Proof.
  intros Hx. unfold only. induction kw as [|[y v] kw IH]; [reflexivity|]. cbn [filter fst get]. destruct (existsb (String.eqb y) names) eqn:E.
  - cbn [get]. now rewrite IH.
  - destruct (String.eqb_spec x y) as [->|]; [|exact IH]. exfalso. apply (has_iff y names) in Hx. unfold has in Hx. congruence.
Qed.
Lemma only_names names kw : forallb (fun e => has (fst e) names) (only names kw) = true.
Proof. apply forallb_forall. intros e H. apply filter_In in H. tauto. Qed.

Lemma rmapM_ok_iff {A B} (f : A -> result B) l r : rmapM f l = Ok r <-> Forall2 (fun a b => f a = Ok b) l r.
Proof.
  revert r. induction l as [|a l IH]; intros r; cbn [rmapM].
  - split; [intros [= <-]; constructor|inversion 1; reflexivity].
  - destruct (f a) as [b|] eqn:E; cbn [rbind].
    + destruct (rmapM f l) as [bs|] eqn:El; cbn [rbind].
      * split; [intros [= <-]; constructor; [assumption|now apply IH]|]. inversion 1 as [|? ? ? ? Hb Hl]; subst.
        apply IH in Hl. congruence.
      * split; [discriminate|]. inversion 1 as [|? ? ? ? Hb Hl]; subst. apply IH in Hl. discriminate.
    + split; [discriminate|]. inversion 1; congruence.
Qed.
Lemma rmapM_ext {A B} (f g : A -> result B) l : (forall a, In a l -> f a = g a) -> rmapM f l = rmapM g l.
Proof.
  induction l as [|a l IH]; intros H; [reflexivity|]. cbn [rmapM]. rewrite (H a (or_introl eq_refl)), IH; [reflexivity|].
  intros b Hb. apply H. now right.
Qed.
Lemma rmapM_bad {A B} (f : A -> result B) e l : (forall a x, In a l -> f a = Err x -> x = e) ->
  (exists a, In a l /\ f a = Err e) -> rmapM f l = Err e.
Proof.
  intros He (a & Ha & Hf). induction l as [|b l IH]; [destruct Ha|]. cbn [rmapM]. destruct (f b) as [v|x] eqn:E; cbn [rbind].
  - destruct Ha as [->|Ha]; [congruence|]. rewrite IH; auto. intros c x Hc. apply He. now right.
  - f_equal. apply (He b x); [now left|assumption].
Qed.

Section Create.
  Variable peq : nat -> nat -> bool.
  Variable mutable_ : nat -> bool.
  Variable any : nat.
  Notation create := (create peq mutable_ any).

  Definition fld (p : param) : field := (p_name p, (annotation any p, p_default p)).
  Lemma fld_names ps : map f_name (map fld ps) = map p_name ps.
  Proof. rewrite map_map. reflexivity. Qed.
  Lemma parameter_iff p f : parameter any p = Ok f <-> by_keyword p /\ f = fld p.
  Proof.
    unfold parameter, by_keyword, fld, annotation. destruct (p_kind p); split; try discriminate; try (intros [[H|H] _]; discriminate);
      try (intros [= <-]; split; [tauto|reflexivity]); intros [_ ->]; reflexivity.
  Qed.
  Lemma parameters_iff sig l : parameters_from any sig = Ok l <-> sig <> [] /\ Forall by_keyword (others sig) /\ l = map fld (others sig).
  Proof.
    destruct sig as [|p0 ps]; cbn [parameters_from others tl]; [split; [discriminate|intros [H _]; congruence]|].
    rewrite rmapM_ok_iff. split.
    - intros F. split; [discriminate|]. induction F as [|p f ps fs H _ [IH1 IH2]]; [split; [constructor|reflexivity]|].
      apply parameter_iff in H. destruct H as [H ->]. split; [now constructor|]. cbn. now rewrite IH2.
    - intros (_ & F & ->). induction F as [|p ps H _ IH]; constructor; [|exact IH]. now apply parameter_iff.
  Qed.
  Lemma find_fld x ps : find x (map fld ps) =
    option_map (fun p => (annotation any p, p_default p)) (List.find (fun p => String.eqb x (p_name p)) ps).
  Proof. induction ps as [|p ps IH]; cbn; [reflexivity|]. destruct (String.eqb x (p_name p)); [reflexivity|exact IH]. Qed.
  Lemma find_name x ps p : List.find (fun p => String.eqb x (p_name p)) ps = Some p -> In p ps /\ p_name p = x.
  Proof. clear. intros H. apply find_some in H. destruct H as [H E]. apply String.eqb_eq in E. auto. Qed.
  Lemma find_in ps p : NoDup (map p_name ps) -> In p ps -> List.find (fun p' => String.eqb (p_name p) (p_name p')) ps = Some p.
  Proof. clear.
    induction ps as [|p' ps IH]; cbn [map In List.find]; intros N; [intros []|]. inversion N as [|? ? N1 N2]; subst. intros [->|H].
    - now rewrite String.eqb_refl.
    - destruct (String.eqb_spec (p_name p) (p_name p')) as [E|]; [|now apply IH]. destruct N1. rewrite <- E. now apply in_map.
  Qed.
  Lemma find_absent x ps : List.find (fun p => String.eqb x (p_name p)) ps = None <-> ~ In x (map p_name ps).
  Proof. clear.
    induction ps as [|p ps IH]; cbn [List.find map In]; [tauto|]. destruct (String.eqb_spec x (p_name p)) as [->|N].
    - split; [discriminate|]. intros H. destruct H. now left.
    - rewrite IH. split; [intros H [E|E]; [congruence|tauto]|tauto].
  Qed.

  Lemma merge_fld q d : merge (map fld (others q)) (map fld (others d)) = map fld (together q d).
  Proof.
    unfold merge, together. rewrite map_app. f_equal.
    - rewrite !map_map. apply map_ext. intros p. rewrite find_fld. change (f_name (fld p)) with (p_name p).
      destruct (List.find _ _) as [p'|] eqn:E; [|reflexivity]. apply find_name in E. destruct E as [_ E]. cbn. unfold fld. now rewrite E.
    - rewrite fld_names. unfold other_names, has. induction (others d) as [|p ps IH]; [reflexivity|]. cbn [map filter].
      change (f_name (fld p)) with (p_name p). destruct (negb _); cbn [map]; now rewrite IH.
  Qed.
  Lemma together_in q d p : In p (together q d) -> In p (others q) \/ In p (others d).
  Proof. clear.
    unfold together. rewrite in_app_iff. intros [H|H].
    - apply in_map_iff in H. destruct H as (p0 & <- & H). destruct (List.find _ _) as [p'|] eqn:E; [|now left].
      apply find_name in E. tauto.
    - apply filter_In in H. tauto.
  Qed.
  Lemma together_has q d p : In p (others q) \/ In p (others d) -> exists p', In p' (together q d) /\ p_name p' = p_name p.
  Proof. clear.
    unfold together. assert (Hq : forall p, In p (others q) -> exists p', In p' (together q d) /\ p_name p' = p_name p).
    { intros p0 H. eexists. split; [apply in_or_app; left; apply in_map; exact H|]. cbn.
      destruct (List.find _ _) as [p'|] eqn:E; [|reflexivity]. apply find_name in E. tauto. }
    intros [H|H]; [now apply Hq|].
    destruct (existsb (String.eqb (p_name p)) (other_names q)) eqn:E.
    - apply (has_iff (p_name p) (other_names q)) in E. apply in_map_iff in E. destruct E as (p0 & E & H0).
      destruct (Hq p0 H0) as (p' & H1 & H2). exists p'. split; [exact H1|congruence].
    - exists p. split; [|reflexivity]. apply in_or_app. right. apply filter_In. split; [assumption|]. now rewrite E.
  Qed.
  Lemma together_names q d x : In x (map p_name (together q d)) <-> In x (other_names q) \/ In x (other_names d).
  Proof. clear.
    unfold other_names. rewrite !in_map_iff. split.
    - intros (p & <- & H). apply together_in in H. destruct H; [left|right]; eauto.
    - intros [(p & <- & H)|(p & <- & H)]; destruct (together_has q d p) as (p' & H1 & H2); eauto.
  Qed.
  Lemma others_nodup sig : valid sig -> NoDup (other_names sig).
  Proof. clear. unfold valid, other_names, others. destruct sig; [auto|]. cbn. inversion 1; assumption. Qed.
  Lemma nodup_filter {A} (f : A -> string) g l : NoDup (map f l) -> NoDup (map f (filter g l)).
  Proof. clear.
    induction l as [|a l IH]; cbn; [auto|]. inversion 1 as [|? ? N1 N2]; subst. destruct (g a); [|auto]. cbn. constructor; [|auto].
    intros H1. apply N1. apply in_map_iff in H1. destruct H1 as (b & E & H1). apply filter_In in H1. rewrite <- E. apply in_map. tauto.
  Qed.
  Lemma nodup_app {A} (a b : list A) : NoDup a -> NoDup b -> (forall x, In x a -> ~ In x b) -> NoDup (a ++ b).
  Proof. clear.
    induction a as [|x a IH]; cbn; intros Ha Hb H; [assumption|]. inversion Ha as [|? ? N1 N2]; subst. constructor.
    - rewrite in_app_iff. intros [H1|H1]; [auto|]. apply (H x); auto.
    - apply IH; auto.
  Qed.
  Lemma together_nodup q d : valid q -> valid d -> NoDup (map p_name (together q d)).
  Proof. clear.
    intros Hq Hd. apply others_nodup in Hq, Hd. unfold together. rewrite map_app, map_map.
    rewrite (map_ext_in (fun p => p_name _) p_name).
    - apply nodup_app; [exact Hq|now apply nodup_filter|]. intros x Hx Hx'. apply in_map_iff in Hx'. destruct Hx' as (p & <- & Hp).
      apply filter_In in Hp. destruct Hp as [_ Hp]. apply (has_iff (p_name p)) in Hx. unfold has, other_names in *. rewrite Hx in Hp. discriminate.
    - intros p _. destruct (List.find _ _) as [p'|] eqn:E; [|reflexivity]. apply find_name in E. tauto.
  Qed.

  Lemma agree_iff q d : NoDup (map p_name q) ->
    (agree peq (map fld q) (map fld d) = Ok tt <->
     forall p p', In p q -> In p' d -> p_name p = p_name p' -> annotation any p = annotation any p' /\ same_default peq p p').
  Proof.
    intros N. induction d as [|p' d IH]; cbn [map].
    - cbn [agree]. split; [intros _ p p' _ []|reflexivity].
    - change (fld p') with (p_name p', (annotation any p', p_default p')). cbn [agree]. rewrite find_fld. destruct (List.find _ q) as [p|] eqn:E; cbn [option_map].
      + apply find_name in E. destruct E as [Hp E]. destruct (Nat.eqb_spec (annotation any p) (annotation any p')) as [Ea|Ea]; cbn [negb].
        * assert (Hs : default_eqb peq (p_default p) (p_default p') = true <-> same_default peq p p').
          { unfold default_eqb, same_default. destruct (p_default p), (p_default p'); try tauto; split; try discriminate; tauto. }
          destruct (default_eqb peq (p_default p) (p_default p')) eqn:Ed; cbn [negb].
          -- rewrite IH. split; [|intros H; intros p1 p2 H1 H2; apply H; [assumption|now right]].
             intros H p1 p2 H1 [<-|H2] En; [|now apply H]. assert (p1 = p) as ->; [|split; [assumption|now apply Hs]].
             pose proof (find_in q p1 N H1) as F1. pose proof (find_in q p N Hp) as F2. rewrite En, <- E in F1. congruence.
          -- split; [discriminate|]. intros H. destruct (H p p' Hp (or_introl eq_refl) E) as [_ H2]. apply Hs in H2. discriminate.
        * split; [discriminate|]. intros H. destruct (H p p' Hp (or_introl eq_refl) E). congruence.
      + rewrite IH. split; [|intros H; intros p1 p2 H1 H2; apply H; [assumption|now right]].
        intros H p1 p2 H1 [<-|H2] En; [|now apply H]. apply find_absent in E. destruct E. rewrite <- En. now apply in_map.
  Qed.
  Lemma agree_result q d : agree peq q d = Ok tt \/ agree peq q d = Err TypeError \/ agree peq q d = Err ValueError.
  Proof.
    induction d as [|[x [a df]] d IH]; cbn [agree]; [now left|]. destruct (find x q) as [[a' df']|]; [|exact IH].
    destruct (negb (a' =? a)); [tauto|]. destruct (negb _); tauto.
  Qed.
  Lemma ordered_true l : ordered true (map fld l) = true <-> forall p, In p l -> p_default p <> None.
  Proof.
    induction l as [|p l IH]; cbn [map ordered]; [split; [intros _ p []|reflexivity]|]. change (f_default (fld p)) with (p_default p).
    destruct (p_default p) eqn:E.
    - rewrite IH. split; [intros H p' [<-|Hp]; [congruence|auto]|intros H p' Hp; apply H; now right].
    - cbn. split; [discriminate|]. intros H. destruct (H p (or_introl eq_refl)). exact E.
  Qed.
  Lemma ordered_iff l : ordered false (map fld l) = true <-> required_first l.
  Proof.
    induction l as [|p l IH]; cbn [map ordered]; [split; [|reflexivity]|change (f_default (fld p)) with (p_default p)].
    - intros _ [|? ?] ? ? ? ? H; discriminate.
    - destruct (p_default p) eqn:E.
      + rewrite ordered_true. split.
        * intros H l1 a l2 b l3 Hl _. apply H. destruct l1 as [|x l1]; cbn in Hl; injection Hl as _ ->.
          -- apply in_or_app. right. now left.
          -- apply in_or_app. right. right. apply in_or_app. right. now left.
        * intros H b Hb. apply in_split in Hb. destruct Hb as (l2 & l3 & ->). apply (H [] p l2 b l3); [reflexivity|congruence].
      + cbn [negb andb]. rewrite IH. split.
        * intros H l1 a l2 b l3 Hl Ha. destruct l1 as [|x l1]; cbn in Hl; injection Hl as E1 E2; [congruence|]. now apply (H l1 a l2 b l3).
        * intros H l1 a l2 b l3 Hl. apply (H (p :: l1) a l2 b l3). cbn. now rewrite Hl.
  Qed.

  (** When the functions are accepted *)
  Lemma create_iff q d m : valid q -> valid d ->
    (create q d = Ok m <->
     (q <> [] /\ d <> []) /\ (Forall by_keyword (others q) /\ Forall by_keyword (others d)) /\
     (forall p p', In p (others q) -> In p' (others d) -> p_name p = p_name p' -> annotation any p = annotation any p' /\ same_default peq p p') /\
     (forall p v, In p (together q d) -> p_default p = Some v -> mutable_ v = false) /\ required_first (together q d) /\
     m = mkMade (map fld (together q d)) (other_names q) (other_names d)).
  Proof.
    intros Hq Hd. pose proof (others_nodup q Hq) as Nq. unfold CqfModel.create. split.
    - destruct (parameters_from any q) as [fq|] eqn:Eq; [|discriminate]. cbn [rbind].
      destruct (parameters_from any d) as [fd|] eqn:Ed; [|discriminate]. cbn [rbind].
      apply parameters_iff in Eq, Ed. destruct Eq as (Q1 & Q2 & ->), Ed as (D1 & D2 & ->).
      destruct (agree_result (map fld (others q)) (map fld (others d))) as [Ea|[Ea|Ea]]; rewrite Ea; try discriminate. cbn [rbind].
      pose proof (proj1 (agree_iff (others q) (others d) Nq) Ea) as Ea'. clear Ea. rename Ea' into Ea. rewrite merge_fld. unfold make_dataclass.
      destruct (existsb _ _) eqn:Em; [discriminate|]. destruct (ordered _ _) eqn:Eo; [|discriminate]. cbn [rbind]. intros [= <-].
      rewrite !fld_names. repeat split; auto; try (apply Ea; assumption).
      + intros p v Hp Hv. destruct (mutable_ v) eqn:Ev; [|reflexivity]. rewrite <- Em. symmetry. apply existsb_exists.
        exists (fld p). split; [now apply in_map|]. cbn. unfold f_default. cbn. now rewrite Hv.
      + now apply ordered_iff.
    - intros ((Q1 & D1) & (Q2 & D2) & Ha & Hm & Ho & ->).
      assert (E1 : parameters_from any q = Ok (map fld (others q))) by (apply parameters_iff; auto).
      assert (E2 : parameters_from any d = Ok (map fld (others d))) by (apply parameters_iff; auto).
      rewrite E1, E2. cbn [rbind]. rewrite (proj2 (agree_iff (others q) (others d) Nq) Ha). cbn [rbind]. rewrite merge_fld. unfold make_dataclass.
      apply ordered_iff in Ho. rewrite Ho. assert (Em : existsb (fun f => match f_default f with Some v => mutable_ v | None => false end) (map fld (together q d)) = false).
      { apply not_true_is_false. intros H. apply existsb_exists in H. destruct H as (f & Hf & Hv). apply in_map_iff in Hf.
        destruct Hf as (p & <- & Hp). unfold f_default in Hv. cbn in Hv. destruct (p_default p) as [v|] eqn:E; [|discriminate].
        rewrite (Hm p v Hp E) in Hv. discriminate. }
      rewrite Em. cbn [rbind]. now rewrite !fld_names.
  Qed.

  Lemma bind_result kw x df : (exists v, bind kw x df = Ok v) \/ (bind kw x df = Err TypeError /\ ~ In x (map fst kw) /\ df = None).
  Proof. clear.
    unfold bind. destruct (get x kw) eqn:E; [eauto|]. destruct df; [eauto|]. right. split; [reflexivity|]. split; [now apply get_none|reflexivity].
  Qed.
  Lemma construct_complete q d kw : valid q -> valid d -> complete_of (together q d) kw ->
    exists ps, construct (map fld (together q d)) kw = Ok ps /\ map fst ps = map p_name (together q d) /\
      forall p, In p (together q d) -> bind kw (p_name p) (p_default p) =
        match get (p_name p) ps with Some v => Ok v | None => Err AttributeError end.
  Proof.
    intros Hq Hd [Hk Hr]. pose proof (together_nodup q d Hq Hd) as N. unfold construct. rewrite fld_names.
    assert (E : forallb (fun e => has (fst e) (map p_name (together q d))) kw = true).
    { apply forallb_forall. intros e He. apply has_iff, Hk. now apply in_map. }
    rewrite E. clear E Hk. revert N Hr. generalize (together q d). intros T. induction T as [|p T IH]; intros N Hr.
    - exists []. repeat split. intros p [].
    - cbn [map] in N. inversion N as [|? ? N1 N2]; subst. destruct IH as (ps & H1 & H2 & H3); [exact N2|intros p' Hp'; apply Hr; now right|].
      cbn [map rmapM]. change (f_name (fld p)) with (p_name p). change (f_default (fld p)) with (p_default p).
      destruct (bind_result kw (p_name p) (p_default p)) as [(v & Hv)|(_ & Hn & Hdf)].
      2: { destruct Hn. apply Hr; [now left|assumption]. }
      rewrite Hv. cbn [rbind]. rewrite H1. cbn [rbind]. eexists. split; [reflexivity|]. split; [cbn; now rewrite H2|].
      intros p' [<-|Hp']; cbn [get].
      + now rewrite String.eqb_refl.
      + destruct (String.eqb_spec (p_name p') (p_name p)) as [Eq|]; [|now apply H3]. destruct N1. rewrite <- Eq. now apply in_map.
  Qed.
  Lemma construct_incomplete q d kw : ~ complete_of (together q d) kw -> construct (map fld (together q d)) kw = Err TypeError.
  Proof.
    intros H. unfold construct. rewrite fld_names. destruct (forallb _ kw) eqn:E; [|reflexivity].
    assert (Hk : forall x, In x (map fst kw) -> In x (map p_name (together q d))).
    { intros x Hx. apply in_map_iff in Hx. destruct Hx as (e & <- & He). rewrite forallb_forall in E. apply has_iff. now apply E. }
    destruct (rmapM _ _) as [ps|e] eqn:Er.
    - exfalso. apply H. split; [exact Hk|]. intros p Hp Hdf. apply rmapM_ok_iff in Er.
      clear - Er Hp Hdf. revert Er. generalize ps. induction (together q d) as [|p' T IH]; [destruct Hp|]. intros l Er. cbn [map] in Er.
      inversion Er as [|? ? ? ? Ha Hl]; subst. destruct Hp as [->|Hp]; [|eapply IH; eauto].
      change (f_name (fld p)) with (p_name p) in Ha. change (f_default (fld p)) with (p_default p) in Ha.
      destruct (bind_result kw (p_name p) (p_default p)) as [(v & Hv)|(Hv & _)].
      + unfold bind in Hv. destruct (get (p_name p) kw) eqn:Eg.
        * destruct (in_dec string_dec (p_name p) (map fst kw)) as [Hi|Hi]; [exact Hi|]. apply get_none in Hi. congruence.
        * rewrite Hdf in Hv. discriminate.
      + rewrite Hv in Ha. discriminate.
    - f_equal. clear - Er. revert Er. induction (together q d) as [|p T IH]; [discriminate|]. cbn [map rmapM].
      destruct (bind_result kw (p_name p) (p_default p)) as [(v & Hv)|(Hv & _)];
        change (f_name (fld p)) with (p_name p); change (f_default (fld p)) with (p_default p); rewrite Hv; cbn [rbind].
      + destruct (rmapM _ (map fld T)); cbn [rbind]; [discriminate|]. intros [= ->]. now apply IH.
      + congruence.
  Qed.

  (** Calling with the stored parameters is calling with the keywords. *)
  Lemma call_stored sig body data kw ps (T : list param) method : sig <> [] ->
    valid sig -> (forall p, In p (others sig) -> exists p', In p' T /\ p_name p' = p_name p /\ p_default p' = p_default p) ->
    map fst ps = map p_name T -> ~ In method (map p_name T) ->
    (forall p, In p T -> bind kw (p_name p) (p_default p) = match get (p_name p) ps with Some v => Ok v | None => Err AttributeError end) ->
    rbind (params_of method (other_names sig) ps) (call sig body data) = call sig body data (only (other_names sig) kw).
  Proof. clear.
    intros Hne Hv HT Hf Hm Hb. unfold params_of. destruct (has method (map fst ps)) eqn:E.
    { apply has_iff in E. rewrite Hf in E. contradiction. }
    destruct sig as [|p0 l]; [congruence|]. cbn [others tl] in *. unfold other_names. cbn [others tl].
    assert (Hg : forall p, In p l -> exists v, get (p_name p) ps = Some v /\ bind kw (p_name p) (p_default p) = Ok v).
    { intros p Hp. destruct (HT p Hp) as (p' & H1 & H2 & H3). specialize (Hb p' H1). rewrite H2, H3 in Hb.
      destruct (get (p_name p) ps) as [v|] eqn:Eg; [eauto|]. apply get_none in Eg. destruct Eg. rewrite Hf, <- H2. now apply in_map. }
    assert (Hr : exists kw', rmapM (fun x => match get x ps with Some v => Ok (x, v) | None => Err AttributeError end) (map p_name l) = Ok kw' /\
                map fst kw' = map p_name l /\ forall p, In p l -> get (p_name p) kw' = get (p_name p) ps).
    { clear - Hg. induction l as [|p l IH]; [exists []; repeat split; intros p []|].
      destruct IH as (kw' & H1 & H2 & H3); [intros p' Hp'; apply Hg; now right|]. destruct (Hg p (or_introl eq_refl)) as (v & Hv & _).
      exists ((p_name p, v) :: kw'). cbn [map rmapM]. rewrite Hv. cbn [rbind]. rewrite H1. cbn [rbind fst]. split; [reflexivity|]. split; [now rewrite H2|].
      intros p' [<-|Hp']; cbn [get].
      - now rewrite String.eqb_refl.
      - destruct (String.eqb_spec (p_name p') (p_name p)) as [Eq|]; [rewrite Eq; congruence|now apply H3]. }
    destruct Hr as (kw' & H1 & H2 & H3). rewrite H1. cbn [rbind call].
    assert (Ek : forallb (fun e => has (fst e) (map p_name l)) kw' = true).
    { apply forallb_forall. intros e He. apply has_iff. rewrite <- H2. now apply in_map. }
    rewrite Ek, only_names.
    assert (Ev : rmapM (fun p => bind kw' (p_name p) (p_default p)) l = rmapM (fun p => bind (only (map p_name l) kw) (p_name p) (p_default p)) l).
    { apply rmapM_ext. intros p Hp. destruct (Hg p Hp) as (v & Hv1 & Hv2). unfold bind at 1. rewrite H3, Hv1 by assumption.
      unfold bind. rewrite get_only by now apply in_map. unfold bind in Hv2. exact (eq_sym Hv2). }
    rewrite Ev. reflexivity.
  Qed.
End Create.

Section Called.
  Variable peq : nat -> nat -> bool.
  Variable mutable_ : nat -> bool.
  Variable any : nat.
  Variables q d : signature.
  Hypothesis Hq : valid q.
  Hypothesis Hd : valid d.
  Hypothesis Hdef : forall p p', In p (others q) -> In p' (others d) -> p_name p = p_name p' -> p_default p = p_default p'.

  Lemma kept_q p : In p (others q) -> exists p', In p' (together q d) /\ p_name p' = p_name p /\ p_default p' = p_default p.
  Proof.
    intros H. unfold together.
    exists (match List.find (fun p' => String.eqb (p_name p) (p_name p')) (others d) with Some p' => p' | None => p end). split.
    - apply in_or_app. left. apply in_map_iff. exists p. split; [reflexivity|assumption].
    - destruct (List.find _ _) as [p'|] eqn:E; [|auto]. apply find_name in E. destruct E as [E1 E2]. split; [assumption|].
      symmetry. apply Hdef; auto.
  Qed.
  Lemma kept_d p : In p (others d) -> exists p', In p' (together q d) /\ p_name p' = p_name p /\ p_default p' = p_default p.
  Proof.
    intros H. destruct (existsb (String.eqb (p_name p)) (other_names q)) eqn:E.
    - apply (has_iff (p_name p) (other_names q)) in E. apply in_map_iff in E. destruct E as (p0 & E & H0).
      exists p. split; [|auto]. apply in_or_app. left. apply in_map_iff. exists p0. split; [|assumption].
      rewrite E, find_in; auto. now apply others_nodup.
    - exists p. split; [|auto]. apply in_or_app. right. apply filter_In. split; [assumption|]. now rewrite E.
  Qed.
  Lemma complete_iff kw : complete q d kw <-> complete_of (together q d) kw.
  Proof.
    unfold complete, complete_of. split; intros [H1 H2]; split.
    - intros x Hx. apply together_names. specialize (H1 x Hx). rewrite map_app, in_app_iff in H1. exact H1.
    - intros p Hp. apply H2. apply in_or_app. now apply together_in.
    - intros x Hx. specialize (H1 x Hx). apply together_names in H1. rewrite map_app, in_app_iff. exact H1.
    - intros p Hp Hn. apply in_app_or in Hp. assert (Hk : exists p', In p' (together q d) /\ p_name p' = p_name p /\ p_default p' = p_default p)
        by (destruct Hp; [now apply kept_q|now apply kept_d]).
      destruct Hk as (p' & K1 & K2 & K3). rewrite <- K2. apply H2; [assumption|congruence].
  Qed.

  Lemma called m : create peq mutable_ any q d = Ok m -> (forall x, In x (other_names q) \/ In x (other_names d) -> ~ reserved x) ->
    forall kw, (complete q d kw -> exists ps, (forall body data, quantize_func m q body data kw =
          (let? raw := call q body data (only (other_names q) kw) in Ok (raw, ps))) /\
        (forall body raw, dequantize_with m d body raw ps = call d body raw (only (other_names d) kw))) /\
      (~ complete q d kw -> forall body data, quantize_func m q body data kw = Err TypeError).
  Proof.
    intros Hc Hr kw. apply create_iff in Hc; auto. destruct Hc as ((Q1 & D1) & _ & _ & _ & _ & ->).
    assert (Hres : forall x, In x (map p_name (together q d)) -> ~ reserved x) by (intros x Hx; apply Hr; now apply together_names).
    rewrite complete_iff. split.
    - intros Hk. destruct (construct_complete any q d kw Hq Hd Hk) as (ps & P1 & P2 & P3). exists ps.
      assert (Edata : has "data" (map fst kw) = false).
      { apply not_true_is_false. intros H. apply has_iff in H. destruct Hk as [Hk _]. apply Hk in H. apply (Hres _ H). now left. }
      split.
      + intros body data. unfold quantize_func. rewrite Edata. cbn [m_fields]. rewrite P1. cbn [rbind]. unfold quantize_with. cbn [m_quantize].
        change (let? kw0 := params_of "quantize_params" (other_names q) ps in call q body data kw0)
          with (rbind (params_of "quantize_params" (other_names q) ps) (call q body data)).
        rewrite (call_stored q body data kw ps (together q d)); auto using kept_q. intros H. apply (Hres _ H). right. now left.
      + intros body raw. unfold dequantize_with. cbn [m_dequantize].
        change (let? kw0 := params_of "dequantize_params" (other_names d) ps in call d body raw kw0)
          with (rbind (params_of "dequantize_params" (other_names d) ps) (call d body raw)).
        rewrite (call_stored d body raw kw ps (together q d)); auto using kept_d. intros H. apply (Hres _ H). right. now right.
    - intros Hk body data. unfold quantize_func. destruct (has _ _); [reflexivity|]. cbn [m_fields].
      now rewrite (construct_incomplete any q d kw Hk).
  Qed.
End Called.

(** ** Contexts *)
Lemma get_map (f : nat -> nat) x ps : get x (map (fun e => (fst e, f (snd e))) ps) = option_map f (get x ps).
Proof. induction ps as [|[y v] ps IH]; cbn; [reflexivity|]. destruct (String.eqb x y); [reflexivity|exact IH]. Qed.
Lemma get_changed x ps changes : get x (map (fun e => (fst e, match get (fst e) changes with Some v => v | None => snd e end)) ps) =
  match get x ps with None => None | Some v => Some (match get x changes with Some w => w | None => v end) end.
Proof.
  induction ps as [|[y v] ps IH]; cbn [map get fst snd]; [reflexivity|]. destruct (String.eqb_spec x y) as [->|]; [reflexivity|exact IH].
Qed.
Lemma with_changes_ok c fn changes c' : with_changes c fn changes = Ok c' <->
  (forall x, In x (map fst changes) -> In x (map fst (c_params c))) /\
  c' = mkC (match fn with Some f => f | None => c_fn c end)
           (map (fun e => (fst e, match get (fst e) changes with Some v => v | None => snd e end)) (c_params c)).
Proof.
  unfold with_changes, replace_params. destruct (forallb _ changes) eqn:E; cbn [rbind].
  - split; [intros [= <-]|intros [_ ->]; reflexivity]. split; [|reflexivity]. intros x Hx. apply in_map_iff in Hx. destruct Hx as (e & <- & He).
    rewrite forallb_forall in E. apply has_iff. now apply E.
  - split; [discriminate|]. intros [H _]. exfalso. apply not_true_iff_false in E. apply E. apply forallb_forall. intros e He.
    apply has_iff, H. now apply in_map.
Qed.
Lemma contiguous_spec is_tensor contiguous c :
  let c' := tensor_parameters is_tensor contiguous c in
  (contiguous_parameters is_tensor contiguous c = None <-> forall x v, get x (c_params c) = Some v -> is_tensor v = true -> contiguous v = v) /\
  (contiguous_parameters is_tensor contiguous c = None \/ contiguous_parameters is_tensor contiguous c = Some c').
Proof.
  intros c'. unfold contiguous_parameters. fold c'. destruct (existsb _ _) eqn:E; [|split; [|now left]].
  - split; [|now right]. split; [discriminate|]. intros H. exfalso. apply existsb_exists in E. destruct E as (e & He & E).
    unfold c' in E. cbn [tensor_parameters apply_params c_params] in E. rewrite get_map in E.
    destruct (get (fst e) (c_params c)) as [v|] eqn:Eg.
    + cbn [option_map] in E. unfold maybe_tensor in E. destruct (is_tensor v) eqn:Et.
      * rewrite (H _ _ Eg Et), Nat.eqb_refl in E. discriminate.
      * rewrite Nat.eqb_refl in E. discriminate.
    + apply get_none in Eg. destruct Eg. now apply in_map.
  - split; [|reflexivity]. intros _ x v Hg Ht. destruct (Nat.eq_dec (contiguous v) v) as [|N]; [assumption|exfalso].
    apply not_true_iff_false in E. apply E. apply existsb_exists.
    assert (Hin : In x (map fst (c_params c))) by (destruct (in_dec string_dec x (map fst (c_params c))) as [Hi|Hi]; [exact Hi|apply get_none in Hi; congruence]).
    apply in_map_iff in Hin. destruct Hin as (e & <- & He). exists e. split; [assumption|].
    unfold c'. cbn [tensor_parameters apply_params c_params]. rewrite get_map, Hg. cbn [option_map]. unfold maybe_tensor. rewrite Ht.
    apply negb_true_iff, Nat.eqb_neq. auto.
Qed.
