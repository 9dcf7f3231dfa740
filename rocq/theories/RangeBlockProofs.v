From Verif Require Import Prelude OverrideModel OverrideProofs RangeModel RangeSpec.
Local Open Scope nat_scope.

Section Block.
  Context {O : Type} (supported : nat -> bool) (skip : bool) (mk : nat -> O).
  Notation prep := (prepare_all supported skip mk).

  (** Preparing adds, per quantizer, only entries with fresh ids, all of which are returned. *)
  Lemma prepare_spec qs : forall (w w1 : oworld O) hs, prep w qs = (w1, Ok hs) ->
    octr w1 = octr w + length hs /\
    forall q, exists l, omap w1 q = omap w q ++ l /\
      forall i o, In (i, o) l -> octr w <= i < octr w + length hs /\ In (mkHandle q i) hs.
  Proof.
    induction qs as [|q qs IH]; intros w w1 hs H; cbn [prepare_all] in H.
    - injection H as <- <-. simpl. split; [lia|]. intros q. exists []. rewrite app_nil_r. split; [reflexivity|easy].
    - destruct (supported q).
      + destruct (register_override w q (mk q)) as [w' h] eqn:ER. unfold register_override in ER.
        destruct (prep w' qs) as [w2 [hs'|?]] eqn:EP; cbn [rmap] in H; [|discriminate].
        injection H as <- <-. specialize (IH _ _ _ EP). injection ER as <- <-. cbn [octr] in IH.
        destruct IH as [I1 I2]. cbn [length]. split; [lia|]. intros q'. destruct (I2 q') as (l & E & Hl).
        cbn [omap] in E. unfold upd in E. destruct (q' =? q) eqn:Eq.
        * apply Nat.eqb_eq in Eq. subst q'. exists ((octr w, mk q) :: l). rewrite E, <- app_assoc. split; [reflexivity|].
          intros i o [Hi|Hi]; [injection Hi as <- <-; split; [lia|now left]|]. destruct (Hl _ _ Hi). split; [lia|now right].
        * exists l. split; [assumption|]. intros i o Hi. destruct (Hl _ _ Hi). split; [lia|now right].
      + destruct skip; [|discriminate]. apply IH. assumption.
  Qed.

End Block.

Section Simulation.
  Context {O : Type}.
  (** Simulation between the body run inside the block and outside it. *)
  Variables (c0 p : nat).
  Definition inner (i : nat) : bool := (c0 <=? i) && (i <? c0 + p).
  Definition shift (i : nat) : nat := if i <? c0 then i else i + p.
  Definition shifth (h : handle) : handle := mkHandle (hq h) (shift (hid h)).
  Definition Sim (hs : list handle) (a b : oworld O * list handle) : Prop :=
    octr (fst b) = octr (fst a) + p /\ c0 <= octr (fst a) /\
    snd b = map shifth (snd a) /\ (forall h, In h (snd a) -> c0 <= hid h) /\
    forall q, filter (fun it => negb (inner (fst it))) (omap (fst b) q) = map (fun it => (shift (fst it), snd it)) (omap (fst a) q) /\
      forall i o, In (i, o) (omap (fst b) q) -> inner i = true -> In (mkHandle q i) hs.

  Lemma inner_shift i : inner (shift i) = false.
  Proof.
    unfold inner, shift. destruct (i <? c0) eqn:E; [apply Nat.ltb_lt in E|apply Nat.ltb_ge in E]; apply andb_false_iff.
    - left. apply Nat.leb_gt. lia.
    - right. apply Nat.ltb_ge. lia.
  Qed.
  Lemma shift_inj i j : (shift i =? shift j) = (i =? j).
  Proof.
    unfold shift. destruct (i <? c0) eqn:E1, (j <? c0) eqn:E2;
      rewrite ?Nat.ltb_lt, ?Nat.ltb_ge in *; destruct (i =? j) eqn:E; rewrite ?Nat.eqb_eq, ?Nat.eqb_neq in *; lia.
  Qed.
  Lemma shift_ge i : c0 <= i -> shift i = i + p.
  Proof. unfold shift. intros H. destruct (i <? c0) eqn:E; [apply Nat.ltb_lt in E; lia|reflexivity]. Qed.
  Lemma shift_lt i : i < c0 -> shift i = i.
  Proof. unfold shift. intros H. apply Nat.ltb_lt in H. now rewrite H. Qed.

  Lemma sim_remove hs wa wb ha hb h : Sim hs (wa, ha) (wb, hb) ->
    Sim hs (snd (handle_remove wa h), ha) (snd (handle_remove wb (shifth h)), hb).
  Proof.
    intros (H1 & H2 & H3 & H4 & H5). unfold handle_remove, pop_id, shifth. cbn [hq hid fst snd].
    split; [exact H1|]. split; [exact H2|]. split; [exact H3|]. split; [exact H4|]. intros q. cbn [fst omap].
    specialize (H5 q). destruct H5 as [H5 H6]. cbn [fst] in *. unfold upd. destruct (q =? hq h) eqn:E.
    - apply Nat.eqb_eq in E. subst q. split.
      + rewrite filter_filter. rewrite (filter_ext_in' _ (fun x => negb (inner (fst x)) && negb (fst x =? shift (hid h)))) by (intros; apply andb_comm).
        rewrite <- filter_filter, H5, filter_map_comm. f_equal. apply filter_ext_in'. intros x Hx. cbn [fst]. now rewrite shift_inj.
      + intros i o Hi. apply filter_In in Hi. destruct Hi as [Hi _]. eauto.
    - split; assumption.
  Qed.

  Lemma sim_step hs a b op : (forall h, op = BRemOld h -> hid h < c0) -> Sim hs a b -> Sim hs (bstep a op) (bstep b op).
  Proof.
    intros Hop HS. destruct a as [wa ha], b as [wb hb]. destruct op as [q o|h|k]; cbn [bstep].
    - destruct HS as (H1 & H2 & H3 & H4 & H5). cbn [fst snd] in *. unfold register_override.
      split; [simpl; lia|]. split; [simpl; lia|]. cbn [fst snd]. split.
      { rewrite map_app, H3. cbn [map]. unfold shifth at 3. cbn [hq hid]. rewrite shift_ge by assumption. now rewrite H1. }
      split. { intros h Hh. apply in_app_or in Hh. destruct Hh as [Hh|[<-|[]]]; [auto|assumption]. }
      intros q'. cbn [omap]. unfold upd. destruct (H5 q') as [H6 H7]. destruct (q' =? q) eqn:E.
      + apply Nat.eqb_eq in E. subst q'. rewrite filter_app, map_app, H6. cbn [filter map fst snd].
        assert (Ei : inner (octr wb) = false) by (rewrite H1, <- shift_ge by assumption; apply inner_shift).
        rewrite Ei. cbn [negb]. rewrite shift_ge by assumption. rewrite H1. split; [reflexivity|].
        rewrite <- H1. intros i o' Hi Hin. apply in_app_or in Hi. destruct Hi as [Hi|[Hi|[]]]; [eauto|].
        injection Hi as <- <-. congruence.
      + split; assumption.
    - replace h with (shifth h) at 2; [now apply sim_remove|]. unfold shifth. rewrite shift_lt by auto. now destruct h.
    - destruct HS as (H1 & H2 & H3 & H4 & H5). cbn [fst snd] in *.
      rewrite H3. rewrite nth_error_map. destruct (nth_error ha k) as [h|]; cbn [option_map].
      + rewrite <- H3. apply sim_remove. split; [exact H1|]. split; [exact H2|]. split; [exact H3|]. split; assumption.
      + rewrite <- H3. split; [exact H1|]. split; [exact H2|]. split; [exact H3|]. split; assumption.
  Qed.

  Lemma sim_fold hs body : (forall h, In (BRemOld h) body -> hid h < c0) -> forall a b, Sim hs a b ->
    Sim hs (fold_left bstep body a) (fold_left bstep body b).
  Proof.
    induction body as [|op body IH]; intros Hb a b HS; simpl; [assumption|]. apply IH.
    - intros h Hh. apply Hb. now right.
    - apply sim_step; [|assumption]. intros h ->. apply Hb. now left.
  Qed.
End Simulation.

Lemma estimate_no_trace {O} supported skip mk (w : oworld O) qs body raises :
  ids_below w -> body_ok w body -> skip = true \/ (forall q, In q qs -> supported q = true) ->
  snd (estimate_ranges supported skip mk w qs body raises) = raises /\
  forall q, map snd (omap (fst (estimate_ranges supported skip mk w qs body raises)) q) = map snd (omap (run_body w body) q).
Proof.
  intros Hids Hbody Hsup. unfold estimate_ranges.
  assert (HP : exists w1 hs, prepare_all supported skip mk w qs = (w1, Ok hs)).
  { clear Hids Hbody. revert w. induction qs as [|q qs IH]; intros w; cbn [prepare_all]; [eauto|].
    assert (Hs' : skip = true \/ (forall q, In q qs -> supported q = true)) by (destruct Hsup as [|H]; [now left|right; intros; apply H; now right]).
    destruct (supported q) eqn:Es.
    - destruct (register_override w q (mk q)) as [w' h]. destruct (IH Hs' w') as (w1 & hs & E). rewrite E. cbn [rmap]. eauto.
    - destruct Hsup as [->|H]; [now apply IH|]. rewrite H in Es by now left. discriminate. }
  destruct HP as (w1 & hs & EP). rewrite EP. cbn [fst snd]. split; [reflexivity|]. intros q.
  destruct (prepare_spec supported skip mk qs w w1 hs EP) as [Hc Hm].
  assert (HS : Sim (octr w) (length hs) hs (fold_left bstep body (w, [])) (fold_left bstep body (w1, []))).
  { apply sim_fold; [exact Hbody|]. split; [simpl; lia|]. split; [simpl; lia|]. split; [reflexivity|]. split; [easy|].
    intros q'. cbn [fst]. destruct (Hm q') as (l & E & Hl). rewrite E, filter_app. split.
    - rewrite (filter_false _ l).
      + rewrite app_nil_r. rewrite filter_true.
        * rewrite (map_ext_in _ (fun x => x)); [now rewrite map_id|]. intros [i o] Hi. cbn [fst snd]. rewrite shift_lt; [reflexivity|]. eauto.
        * intros [i o] Hi. apply Hids in Hi. cbn [fst]. apply negb_true_iff. unfold inner. apply andb_false_iff. left. apply Nat.leb_gt. lia.
      + intros [i o] Hi. destruct (Hl _ _ Hi) as [Hr _]. cbn [fst]. apply negb_false_iff. unfold inner.
        apply andb_true_iff. split; [apply Nat.leb_le|apply Nat.ltb_lt]; lia.
    - intros i o Hi Hin. unfold inner in Hin. apply andb_true_iff in Hin. destruct Hin as [Hin _]. apply Nat.leb_le in Hin.
      apply in_app_or in Hi. destruct Hi as [Hi|Hi]; [apply Hids in Hi; lia|]. now destruct (Hl _ _ Hi). }
  destruct HS as (_ & _ & _ & _ & HS). destruct (HS q) as [H1 H2]. unfold run_body.
  rewrite fold_remove. set (wa := fst (fold_left bstep body (w, []))) in *. set (wb := fst (fold_left bstep body (w1, []))) in *.
  assert (E : filter (fun it => negb (existsb (fun h => (hq h =? q) && (hid h =? fst it)) hs)) (omap wb q)
            = filter (fun it => negb (inner (octr w) (length hs) (fst it))) (omap wb q)).
  { apply filter_ext_in'. intros [i o] Hi. cbn [fst]. f_equal. destruct (inner (octr w) (length hs) i) eqn:Ei.
    - apply existsb_exists. exists (mkHandle q i). split; [eauto|]. cbn [hq hid]. now rewrite !Nat.eqb_refl.
    - destruct (existsb (fun h : handle => (hq h =? q) && (hid h =? i)) hs) eqn:Ee; [|reflexivity]. exfalso.
      apply existsb_exists in Ee. destruct Ee as (h & Hh & Hc2). apply andb_true_iff in Hc2. destruct Hc2 as [_ Hc2]. apply Nat.eqb_eq in Hc2.
      assert (Hr : octr w <= hid h < octr w + length hs).
      { clear - EP Hh. revert w w1 hs EP Hh. induction qs as [|q' qs IH]; intros w w1 hs EP Hh; cbn [prepare_all] in EP.
        - injection EP as <- <-. easy.
        - destruct (supported q').
          + destruct (register_override w q' (mk q')) as [w' h'] eqn:ER. unfold register_override in ER.
            destruct (prepare_all supported skip mk w' qs) as [w2 [hs'|?]] eqn:EP'; cbn [rmap] in EP; [|discriminate].
            injection EP as <- <-. injection ER as <- <-. destruct Hh as [<-|Hh]; [simpl; lia|].
            specialize (IH _ _ _ EP' Hh). simpl in *. lia.
          + destruct skip; [|discriminate]. eapply IH; eauto. }
      unfold inner in Ei. apply andb_false_iff in Ei. destruct Ei as [Ei|Ei]; [apply Nat.leb_gt in Ei|apply Nat.ltb_ge in Ei]; lia. }
  rewrite E, H1, map_map. reflexivity.
Qed.

Lemma estimate_leak_witness :
  let w : oworld nat := mkOW 0 (fun _ => []) in
  let supported := fun q => q =? 0 in
  let w' := fst (estimate_ranges supported false (fun q => 100 + q) w [0; 1] [] false) in
  snd (estimate_ranges supported false (fun q => 100 + q) w [0; 1] [] false) = true /\
  map snd (omap w 0) = [] /\ map snd (omap w' 0) = [100].
Proof. repeat split. Qed.
