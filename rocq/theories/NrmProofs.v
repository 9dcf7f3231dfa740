(** Proofs about the splitting of assignments. *)
From Coq Require Import List Arith Bool Lia.
From Verif Require Import Prelude NrmModel NrmSpec.
Import ListNotations.

Scheme expr_mut := Induction for expr Sort Prop
  with elems_mut := Induction for elems Sort Prop.
Combined Scheme expr_elems_ind from expr_mut, elems_mut.

Lemma to_of_list l : to_list (of_list l) = l.
Proof. induction l as [|[s e] l IH]; cbn; congruence. Qed.

Lemma unstarred_values l : unstarred_elems l -> (forall x, In x (values l) -> unstarred x) /\ (forall p, In p (to_list l) -> fst p = false).
Proof.
  induction l as [|s e r IH].
  - split; intros ? [].
  - intros (-> & He & Hr). destruct (IH Hr) as [H1 H2]. split.
    + intros x [<-|I]; [exact He|apply H1; exact I].
    + intros p [<-|I]; [reflexivity|apply H2; exact I].
Qed.

Lemma unstarred_outer e : unstarred e -> outer_stars e.
Proof. destruct e as [a|k l]; cbn; [auto|]. intros H. apply unstarred_values. exact H. Qed.

Lemma unstarred_one e : unstarred e -> one_star e.
Proof.
  destruct e as [a|k l]; cbn; [auto|]. intros H. apply unstarred_values in H. destruct H as [_ H].
  replace (filter fst (to_list l)) with (@nil (bool * expr)); [cbn; lia|]. symmetry.
  induction (to_list l) as [|p q IH]; [reflexivity|]. cbn. rewrite (H p (or_introl eq_refl)). apply IH.
  intros x I. apply H. right. exact I.
Qed.

Lemma no_star l : has_star l = false <-> forall p, In p (to_list l) -> fst p = false.
Proof.
  unfold has_star. split.
  - intros H p I. destruct (fst p) eqn:E; [|reflexivity].
    assert (existsb fst (to_list l) = true) as T by (apply existsb_exists; exists p; auto). congruence.
  - intros H. destruct (existsb fst (to_list l)) eqn:E; [|reflexivity]. apply existsb_exists in E.
    destruct E as (p & I & E). rewrite (H p I) in E. discriminate.
Qed.

Lemma unpack_atoms :
  (forall e, unstarred e -> flat_map atoms (unpack e) = atoms e)
  /\ (forall l, unstarred_elems l -> flat_map atoms (unpack_elems l) = atoms_elems l).
Proof.
  apply expr_elems_ind.
  - reflexivity.
  - intros k l IH H. apply IH. exact H.
  - reflexivity.
  - intros s e IHe r IHr (-> & He & Hr). cbn. rewrite flat_map_app, IHe, IHr by assumption. reflexivity.
Qed.

Lemma unpack_starred_atoms l : (forall x, In x (values l) -> unstarred x) ->
  flat_map atoms (unpack_starred l) = atoms_elems l.
Proof.
  unfold unpack_starred. induction l as [|s e r IH]; intros H; [reflexivity|].
  change (values (ECons s e r)) with (e :: values r) in *. cbn [flat_map atoms_elems]. rewrite flat_map_app, IH.
  - rewrite (proj1 unpack_atoms); [reflexivity|]. apply H. left. reflexivity.
  - intros x I. apply H. right. exact I.
Qed.

Lemma values_atoms l : flat_map atoms (values l) = atoms_elems l.
Proof.
  induction l as [|s e r IH]; [reflexivity|]. change (values (ECons s e r)) with (e :: values r).
  cbn [flat_map atoms_elems]. rewrite IH. reflexivity.
Qed.

(** ** No variable is lost *)

Lemma one_part ts v : flat_map part_atoms [mkPart ts v] = flat_map atoms ts.
Proof. cbn. rewrite app_nil_r. reflexivity. Qed.

Lemma split_atoms :
  (forall t v, outer_stars t -> flat_map part_atoms (split t v) = atoms t)
  /\ (forall ts, (forall x, In x (values ts) -> unstarred x) ->
       (forall vs, size ts = length vs -> flat_map part_atoms (pair ts vs) = atoms_elems ts)
       /\ (forall vs, has_star ts = true -> size ts - 1 <= length vs ->
             flat_map part_atoms (pair_star ts vs) = atoms_elems ts)).
Proof.
  apply expr_elems_ind.
  - intros a v _. reflexivity.
  - intros k ts IH v H. cbn in H. destruct (IH H) as [Hp Hs]. destruct v as [a|k' vs].
    + change (flat_map part_atoms [mkPart (unpack_starred ts) (Atom a)] = atoms_elems ts).
      rewrite one_part. apply unpack_starred_atoms. exact H.
    + cbn [split atoms]. destruct (has_star ts) eqn:E.
      * destruct (size vs <? size ts - 1) eqn:L; [rewrite one_part; apply values_atoms|].
        apply Nat.ltb_ge in L. apply Hs; [reflexivity|exact L].
      * destruct (size ts =? size vs) eqn:L; [|rewrite one_part; apply values_atoms].
        apply Nat.eqb_eq in L. apply Hp. unfold values. rewrite map_length. exact L.
  - intros _. split; [reflexivity|]. intros vs E. discriminate.
  - intros s t IHt r IHr H.
    assert (unstarred t) as Ht by (apply H; left; reflexivity).
    assert (forall x, In x (values r) -> unstarred x) as Hr by (intros x I; apply H; right; exact I).
    destruct (IHr Hr) as [Hp Hs]. split.
    + intros [|v vs] L; [discriminate|]. cbn [pair atoms_elems]. rewrite flat_map_app, IHt by (apply unstarred_outer; exact Ht).
      rewrite Hp; [reflexivity|]. cbn in L. unfold size. lia.
    + intros vs E L. change (size (ECons s t r)) with (S (size r)) in L. destruct s; cbn [pair_star atoms_elems].
      * cbn [flat_map]. rewrite Hp.
        -- cbn. rewrite app_nil_r. reflexivity.
        -- rewrite map_length, skipn_length. lia.
      * cbn in E. assert (1 <= size r) as Lr.
        { unfold size. destruct r; [discriminate|]. cbn. lia. }
        destruct vs as [|v vs]; [cbn in L; lia|]. rewrite flat_map_app, IHt by (apply unstarred_outer; exact Ht).
        rewrite Hs; [reflexivity|exact E|]. cbn in L. lia.
Qed.

Lemma normalize_atoms ts v : (forall t, In t ts -> outer_stars t) ->
  flat_map part_atoms (normalize ts (Some v)) = flat_map atoms ts.
Proof.
  cbn. induction ts as [|t ts IH]; intros H; [reflexivity|]. cbn [flat_map]. rewrite flat_map_app, IH.
  - rewrite (proj1 split_atoms); [reflexivity|]. apply H. left. reflexivity.
  - intros x I. apply H. right. exact I.
Qed.

(** ** The parts have the right values *)

Section Values.
Variable w : world.
Variable g : nat -> option (val w).
Notation eval := (eval w g).
Notation eval_elems := (eval_elems w g).
Notation bind := (bind w).
Notation bind_elems := (bind_elems w).

Lemma bind_star t r l : bind_elems (ECons true t r) l =
  if length l <? size r then None
  else match bind t (display w KList (firstn (length l - size r) l)) with
       | Some b => option_map (app b) (bind_elems r (skipn (length l - size r) l))
       | None => None
       end.
Proof. reflexivity. Qed.

Lemma bind_plain t r l : bind_elems (ECons false t r) l =
  match l with
  | [] => None
  | v :: l' => match bind t v with
               | Some b => option_map (app b) (bind_elems r l')
               | None => None
               end
  end.
Proof. reflexivity. Qed.

Definition value_of (e : expr) (u : val w) : Prop := eval e = Some u.

Lemma eval_values l : forall us, unstarred_elems l -> eval_elems l = Some us -> Forall2 value_of (values l) us.
Proof.
  induction l as [|s e r IH]; intros us H E.
  - injection E as <-. constructor.
  - destruct H as (-> & He & Hr). change (values (ECons false e r)) with (e :: values r).
    cbn in E. fold eval in E. destruct (eval e) as [u|] eqn:Ee; [|discriminate].
    destruct (eval_elems r) as [us'|] eqn:Er; [|discriminate]. injection E as <-. constructor; [exact Ee|].
    apply IH; auto.
Qed.

Lemma eval_of_list (l : list (bool * expr)) : forall us,
  (forall p, In p l -> fst p = false) -> Forall2 value_of (map snd l) us -> eval_elems (of_list l) = Some us.
Proof.
  induction l as [|[s e] l IH]; intros us H F; inversion F as [|? u ? us' He Hl]; subst; [reflexivity|].
  pose proof (H _ (or_introl eq_refl)) as Hs. cbn in Hs. subst s. cbn. unfold value_of in He. fold eval. rewrite He.
  fold eval_elems. rewrite (IH us' (fun p I => H p (or_intror I)) Hl). reflexivity.
Qed.

Lemma forall2_firstn {A B} (R : A -> B -> Prop) n : forall l l', Forall2 R l l' -> Forall2 R (firstn n l) (firstn n l').
Proof. induction n; intros l l' H; cbn; [constructor|]. destruct H; constructor; auto. Qed.

Lemma forall2_skipn {A B} (R : A -> B -> Prop) n : forall l l', Forall2 R l l' -> Forall2 R (skipn n l) (skipn n l').
Proof. induction n; intros l l' H; cbn; [exact H|]. destruct H; [constructor|auto]. Qed.

Lemma bind_fst :
  (forall t v b, bind t v = Some b -> map fst b = atoms t)
  /\ (forall ts l b, bind_elems ts l = Some b -> map fst b = atoms_elems ts).
Proof.
  apply expr_elems_ind.
  - intros a v b [= <-]. reflexivity.
  - intros k ts IH v b E. cbn in E. destruct (items w v); [|discriminate]. apply (IH _ _ E).
  - intros [|] b E; [|discriminate]. injection E as <-. reflexivity.
  - intros s t IHt r IHr l b E. destruct s; [rewrite bind_star in E|rewrite bind_plain in E].
    + destruct (length l <? size r); [discriminate|]. destruct (bind t _) as [b1|] eqn:E1; [|discriminate].
      destruct (bind_elems r _) as [b2|] eqn:E2; [|discriminate]. injection E as <-.
      rewrite map_app. cbn. rewrite (IHt _ _ E1), (IHr _ _ E2). reflexivity.
    + destruct l as [|v l]; [discriminate|]. destruct (bind t _) as [b1|] eqn:E1; [|discriminate].
      destruct (bind_elems r _) as [b2|] eqn:E2; [|discriminate]. injection E as <-.
      rewrite map_app. cbn. rewrite (IHt _ _ E1), (IHr _ _ E2). reflexivity.
Qed.

Lemma bind_size ts : (forall p, In p (to_list ts) -> fst p = false) ->
  forall l b, bind_elems ts l = Some b -> length l = size ts.
Proof.
  induction ts as [|s t r IH]; intros H l b E.
  - destruct l; [reflexivity|discriminate].
  - pose proof (H _ (or_introl eq_refl)) as Hs. cbn in Hs. subst s. destruct l as [|v l]; [discriminate|].
    rewrite bind_plain in E. destruct (bind t v); [|discriminate].
    destruct (bind_elems r l) eqn:E2; [|discriminate]. unfold size. cbn.
    rewrite (IH (fun p I => H p (or_intror I)) _ _ E2). reflexivity.
Qed.

Lemma bind_star_size ts : length (filter fst (to_list ts)) <= 1 ->
  forall l b, bind_elems ts l = Some b -> size ts - 1 <= length l.
Proof.
  induction ts as [|s t r IH]; intros H l b E; [cbn; lia|].
  change (size (ECons s t r)) with (S (size r)). destruct s.
  - rewrite bind_star in E. destruct (length l <? size r) eqn:L; [discriminate|]. destruct (bind t _); [|discriminate]. apply Nat.ltb_ge in L. lia.
  - destruct l as [|v l]; [discriminate|]. rewrite bind_plain in E. destruct (bind t v); [|discriminate].
    destruct (bind_elems r l) eqn:E2; [|discriminate]. cbn in H. specialize (IH H _ _ E2).
    cbn. lia.
Qed.

Definition correct (ps : list part) (b : list (nat * val w)) : Prop :=
  exists segs, Forall2 (says w g) ps segs /\ concat segs = b.

Lemma correct_app p q a b : correct p a -> correct q b -> correct (p ++ q) (a ++ b).
Proof.
  intros (s & F & <-) (s' & F' & <-). exists (s ++ s'). split; [apply Forall2_app; assumption|].
  rewrite concat_app. reflexivity.
Qed.

Lemma correct_one p b : says w g p b -> correct [p] b.
Proof. intros H. exists [b]. split; [repeat constructor; exact H|]. cbn. apply app_nil_r. Qed.

Lemma split_values :
  (forall t v u b, outer_stars t -> one_star t -> no_single t -> unstarred v ->
     eval v = Some u -> bind t u = Some b -> correct (split t v) b)
  /\ (forall ts, (forall x, In x (values ts) -> unstarred x) -> no_single_elems ts ->
       (forall vs us b, (forall p, In p (to_list ts) -> fst p = false) -> (forall x, In x vs -> unstarred x) ->
          Forall2 value_of vs us -> bind_elems ts us = Some b -> correct (pair ts vs) b)
       /\ (forall vs us b, has_star ts = true -> length (filter fst (to_list ts)) <= 1 ->
          (forall p, In p vs -> fst p = false) -> (forall x, In x (map snd vs) -> unstarred x) ->
          Forall2 value_of (map snd vs) us -> bind_elems ts us = Some b -> correct (pair_star ts vs) b)).
Proof.
  apply expr_elems_ind.
  - intros a v u b _ _ _ _ E B. apply correct_one. exists u. split; [exact E|exact B].
  - intros k ts IH v u b HO H1 (HN & HN') HV E B. cbn in HO, H1. destruct (IH HO HN') as [Hp Hs].
    destruct v as [a|k' vs].
    + apply correct_one. exists u. split; [exact E|]. cbn [p_targets].
      pose proof (unpack_starred_atoms ts HO) as EA.
      pose proof (proj1 bind_fst _ _ _ B) as EB. cbn [atoms] in EB.
      destruct (unpack_starred ts) as [|t1 [|t2 tr]] eqn:EU; [rewrite EB; symmetry; exact EA| |rewrite EB; symmetry; exact EA].
      exfalso. apply HN. rewrite <- EA. cbn. rewrite app_nil_r.
      assert (In t1 (unpack_starred ts)) as I by (rewrite EU; left; reflexivity).
      unfold unpack_starred in I. apply in_flat_map in I. destruct I as (e & _ & I). 
      assert (forall e x, In x (unpack e) -> exists a, x = Atom a) as HA.
      { clear. intros e. apply (expr_mut (fun e => forall x, In x (unpack e) -> exists a, x = Atom a)
          (fun l => forall x, In x (unpack_elems l) -> exists a, x = Atom a)).
        - intros a x [<-|[]]. eauto.
        - intros k l IH x I. apply IH. exact I.
        - intros x [].
        - intros s e0 IHe r IHr x I. cbn in I. apply in_app_iff in I. destruct s; [destruct I as [[]|I]; auto|].
          destruct I; auto. }
      destruct (HA _ _ I) as (a1 & ->). reflexivity.
    + cbn in HV. cbn in E. fold eval_elems in E. destruct (eval_elems vs) as [us|] eqn:Ev; [|discriminate].
      injection E as <-.
      change (match items w (display w k' us) with Some l => bind_elems ts l | None => None end = Some b) in B.
      rewrite items_display in B.
      pose proof (eval_values _ _ HV Ev) as FV. destruct (unstarred_values _ HV) as [HV1 HV2].
      pose proof (Forall2_length _ _ _ FV) as LV. unfold values in LV. rewrite map_length in LV. fold (size vs) in LV.
      cbn [split]. destruct (has_star ts) eqn:ES.
      * pose proof (bind_star_size ts H1 _ _ B) as L.
        destruct (size vs <? size ts - 1) eqn:LT; [apply Nat.ltb_lt in LT; lia|].
        apply (Hs _ us); auto.
      * pose proof (proj1 (no_star ts) ES) as NS. pose proof (bind_size ts NS _ _ B) as L.
        destruct (size ts =? size vs) eqn:LT; [|apply Nat.eqb_neq in LT; lia].
        apply (Hp _ us); auto.
  - intros _ _. split.
    + intros vs us b _ _ F B. destruct us; [|discriminate]. injection B as <-. exists []. split; [constructor|reflexivity].
    + intros vs us b E. discriminate.
  - intros s t IHt r IHr H (HN & HN').
    assert (unstarred t) as Ht by (apply H; left; reflexivity).
    assert (forall x, In x (values r) -> unstarred x) as Hr by (intros x I; apply H; right; exact I).
    destruct (IHr Hr HN') as [Hp Hs]. split.
    + intros vs us b HF HV F B. pose proof (HF _ (or_introl eq_refl)) as Es. cbn in Es. subst s.
      destruct us as [|u us]; [discriminate|]. inversion F as [|v ? vs' ? Ev F']; subst.
      rewrite bind_plain in B. destruct (bind t u) as [b1|] eqn:B1; [|discriminate].
      destruct (bind_elems r us) as [b2|] eqn:B2; [|discriminate]. injection B as <-.
      cbn [pair]. apply correct_app.
      * eapply IHt; eauto using unstarred_outer, unstarred_one. apply HV. left. reflexivity.
      * apply (Hp _ us); auto; intros x I; [apply HF|apply HV]; right; exact I.
    + intros vs us b ES H1 HF HV F B. destruct s.
      * rewrite bind_star in B. destruct (length us <? size r) eqn:L; [discriminate|]. 
        destruct (bind t _) as [b1|] eqn:B1; [|discriminate]. fold bind_elems in B.
        destruct (bind_elems r _) as [b2|] eqn:B2; [|discriminate]. injection B as <-.
        pose proof (Forall2_length _ _ _ F) as LF. rewrite map_length in LF.
        cbn [pair_star]. rewrite LF. apply (correct_app [_]).
        -- apply correct_one. exists (display w KList (firstn (length us - size r) us)). split; [|exact B1].
           cbn. rewrite (eval_of_list _ (firstn (length us - size r) us)); [reflexivity| |].
           ++ intros p I. apply HF. rewrite <- (firstn_skipn (length us - size r) vs). apply in_or_app. left. exact I.
           ++ rewrite <- firstn_map. apply forall2_firstn. exact F.
        -- apply (Hp _ (skipn (length us - size r) us)); [| |rewrite <- skipn_map; apply forall2_skipn; exact F|exact B2].
           ++ apply no_star. unfold has_star. cbn in H1.
              destruct (existsb fst (to_list r)) eqn:EE; [|reflexivity]. apply existsb_exists in EE.
              destruct EE as (p & I & E). assert (In p (filter fst (to_list r))) as J by (apply filter_In; auto).
              destruct (filter fst (to_list r)); [destruct J|cbn in H1; lia].
           ++ intros x I. apply HV. rewrite <- skipn_map in I. rewrite <- (firstn_skipn (length us - size r) (map snd vs)).
              apply in_or_app. right. exact I.
      * destruct us as [|u us]; [discriminate|]. destruct vs as [|v vs]; [inversion F|].
        inversion F as [|? ? ? ? Ev F']; subst.
        rewrite bind_plain in B. destruct (bind t u) as [b1|] eqn:B1; [|discriminate].
        destruct (bind_elems r us) as [b2|] eqn:B2; [|discriminate]. injection B as <-.
        cbn [pair_star]. apply correct_app.
        -- eapply IHt; eauto using unstarred_outer, unstarred_one. apply HV. left. reflexivity.
        -- apply (Hs _ us); auto; intros x I; [apply HF|apply HV]; right; exact I.
Qed.

Lemma normalize_values ts v u : forall b,
  (forall t, In t ts -> outer_stars t /\ one_star t /\ no_single t) -> unstarred v ->
  eval v = Some u -> bind_all w ts u = Some b -> correct (normalize ts (Some v)) b.
Proof.
  cbn. induction ts as [|t ts IH]; intros b H HV E B.
  - injection B as <-. exists []. split; [constructor|reflexivity].
  - change (match bind t u with Some b => option_map (app b) (bind_all w ts u) | None => None end = Some b) in B.
    destruct (bind t u) as [b1|] eqn:B1; [|discriminate].
    destruct (bind_all w ts u) as [b2|] eqn:B2; [|discriminate]. injection B as <-.
    cbn [flat_map]. destruct (H t (or_introl eq_refl)) as (H1 & H2 & H3). apply correct_app.
    + eapply (proj1 split_values); eauto.
    + apply IH; auto. intros x I. apply H. right. exact I.
Qed.
End Values.
