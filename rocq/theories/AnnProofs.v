(** Proofs about AnnModel. *)
From Coq Require Import String Lia.
From Verif Require Import Prelude OverrideModel AnnModel AnnSpec.
From Verif Require ModulesModel.
Local Open Scope nat_scope.
Local Open Scope list_scope.

(** ** Positions *)
Lemma results_app a b : results (a ++ b) = results a + results b.
Proof. induction a as [|e a IH]; cbn [results app]; [reflexivity|]. rewrite IH. lia. Qed.
Lemma next_app n a b : next n (a ++ b) = next n a + results b.
Proof. unfold next. rewrite results_app. lia. Qed.
Lemma next_snoc n a e : next n (a ++ [e]) = next n a + width e.
Proof. rewrite next_app. cbn [results]. lia. Qed.

Lemma split_unique (a b c d : list step) e f k k' :
  a ++ e :: b = c ++ f :: d -> results a + k = results c + k' -> k < width e -> k' < width f ->
  a = c /\ e = f /\ b = d /\ k = k'.
Proof.
  revert c. induction a as [|x a IH]; intros [|y c]; cbn [app results]; intros He Hk H1 H2.
  - injection He as -> ->. repeat split; lia.
  - injection He as He1 He2. subst. lia.
  - injection He as He1 He2. subst. lia.
  - injection He as -> He. destruct (IH c He ltac:(lia) H1 H2) as (-> & -> & -> & ->). auto.
Qed.

Lemma made_next n es v f args : made_by n es v f args -> S n <= v < next n es.
Proof.
  intros (pre & outs & post & k & -> & Hk & ->). rewrite next_app. cbn [results width]. unfold next. lia.
Qed.
Lemma quantized_next n es v q x : quantized_by n es v q x -> S n <= v < next n es.
Proof. intros (pre & post & -> & ->). rewrite next_app. cbn [results width]. unfold next. lia. Qed.
Lemma made_quantized n es v f args q x : made_by n es v f args -> quantized_by n es v q x -> False.
Proof.
  intros (pre & outs & post & k & He & Hk & Hv) (pre' & post' & He' & Hv').
  rewrite He in He'. unfold next in *.
  destruct (split_unique _ _ _ _ _ _ k 0 He' ltac:(lia)) as (_ & H & _); cbn [width]; [lia|lia|discriminate].
Qed.
Lemma made_unique n es v f args g args' : made_by n es v f args -> made_by n es v g args' -> f = g /\ args = args'.
Proof.
  intros (pre & outs & post & k & He & Hk & Hv) (pre' & outs' & post' & k' & He' & Hk' & Hv').
  rewrite He in He'. unfold next in *.
  destruct (split_unique _ _ _ _ _ _ k k' He' ltac:(lia)) as (_ & H & _); cbn [width]; [lia|lia|].
  injection H as -> -> _. auto.
Qed.
Lemma quantized_unique n es v q x q' x' : quantized_by n es v q x -> quantized_by n es v q' x' -> q = q' /\ x = x'.
Proof.
  intros (pre & post & He & Hv) (pre' & post' & He' & Hv').
  rewrite He in He'. unfold next in *.
  destruct (split_unique _ _ _ _ _ _ 0 0 He' ltac:(lia)) as (_ & H & _); cbn [width]; [lia|lia|].
  injection H as -> ->. auto.
Qed.
Lemma quantized_done n es pre post v q x :
  es = pre ++ post -> quantized_by n pre v q x -> quantized_by n es v q x.
Proof. intros -> (a & b & -> & ->). exists a, (b ++ post). rewrite <- app_assoc. auto. Qed.
Lemma made_done n es pre post v f args :
  es = pre ++ post -> made_by n pre v f args -> made_by n es v f args.
Proof. intros -> (a & o & b & k & -> & Hk & ->). exists a, o, (b ++ post), k. rewrite <- app_assoc. auto. Qed.
Lemma consumed_snoc done e v f :
  consumed_by (done ++ [e]) v f <-> consumed_by done v f \/ exists args outs, e = Apply f args outs /\ In v args.
Proof.
  split.
  - intros (pre & args & outs & post & He & Hv). destruct post as [|p post] using rev_ind.
    + apply app_inj_tail in He. destruct He as [-> ->]. right. eauto.
    + clear IHpost. rewrite app_comm_cons, app_assoc in He. apply app_inj_tail in He. destruct He as [-> _].
      left. exists pre, args, outs, post. auto.
  - intros [(pre & args & outs & post & -> & Hv)|(args & outs & -> & Hv)].
    + exists pre, args, outs, (post ++ [e]). rewrite <- app_assoc. auto.
    + exists done, args, outs, []. auto.
Qed.
Lemma quantized_snoc n done e v q x :
  quantized_by n (done ++ [e]) v q x <-> quantized_by n done v q x \/ (e = Quantize q x /\ v = next n done).
Proof.
  split.
  - intros (pre & post & He & Hv). destruct post as [|p post] using rev_ind.
    + apply app_inj_tail in He. destruct He as [-> ->]. right. auto.
    + clear IHpost. rewrite app_comm_cons, app_assoc in He. apply app_inj_tail in He. destruct He as [-> _].
      left. exists pre, post. auto.
  - intros [(pre & post & -> & ->)|[-> ->]].
    + exists pre, (post ++ [e]). rewrite <- app_assoc. auto.
    + exists done, []. auto.
Qed.

(** ** Objects *)
Lemma set_obj_length n x l : length (set_obj n x l) = length l.
Proof. revert n. induction l as [|y l IH]; intros [|n]; cbn; auto. Qed.
Lemma set_obj_same n x l : n < length l -> nth_error (set_obj n x l) n = Some x.
Proof. revert n. induction l as [|y l IH]; intros [|n] H; cbn in *; [lia|lia|reflexivity|apply IH; lia]. Qed.
Lemma set_obj_other n m x l : n <> m -> nth_error (set_obj n x l) m = nth_error l m.
Proof. revert n m. induction l as [|y l IH]; intros [|n] [|m] H; cbn; try reflexivity; [lia|apply IH; lia]. Qed.
Lemma tag_objs s q t : objs (tag s q t) = objs s.
Proof. reflexivity. Qed.
Lemma inputs_objs f args s : objs (fold_left (annotate_input f) args s) = objs s.
Proof.
  revert s. induction args as [|a args IH]; intros s; [reflexivity|]. cbn [fold_left]. rewrite IH.
  unfold annotate_input. destruct (nth_error (objs s) a) as [[|pf [q|]]|]; reflexivity.
Qed.
Lemma values_nth env vs os : values env vs = Ok os ->
  forall o, In o os <-> exists v, In v vs /\ nth_error env v = Some o.
Proof.
  revert os. induction vs as [|v vs IH]; cbn [values]; intros os H o.
  - injection H as <-. split; [intros []|intros (v & [] & _)].
  - destruct (nth_error env v) as [a|] eqn:Ha; [|discriminate].
    destruct (values env vs) as [l|] eqn:Hl; [|discriminate]. cbn [rbind] in H. injection H as <-.
    cbn [In]. rewrite (IH l eq_refl o). split.
    + intros [->|(u & Hu & Hn)]; eauto.
    + intros (u & [->|Hu] & Hn); [left; congruence|right; eauto].
Qed.
Lemma values_total env vs : (forall v, In v vs -> v < length env) -> exists os, values env vs = Ok os.
Proof.
  induction vs as [|v vs IH]; intros H; cbn [values]; [eauto|].
  destruct (nth_error env v) as [a|] eqn:Ha.
  - destruct (IH (fun u Hu => H u (or_intror Hu))) as [os ->]. cbn. eauto.
  - apply nth_error_None in Ha. specialize (H v (or_introl eq_refl)). lia.
Qed.
(** New results only *)
Lemma fresh_outputs one x :
  (forall s, one s None = Ok (new_obj s x)) ->
  forall outs s, Forall (fun o => o = None) outs ->
  outputs one s outs =
    Ok (seq (length (objs s)) (length outs), mkSt (objs s ++ repeat x (length outs)) (metas s) (strict s)).
Proof.
  intros H outs. induction outs as [|o outs IH]; intros s Hf; cbn [outputs].
  - cbn. rewrite app_nil_r. destruct s; reflexivity.
  - inversion Hf as [|? ? -> Hf']; subst. rewrite H. cbn [rbind new_obj fst snd].
    rewrite (IH _ Hf'). cbn [rbind objs metas strict length seq repeat]. rewrite app_length, <- app_assoc. cbn [length app].
    rewrite Nat.add_1_r. reflexivity.
Qed.

(** ** Tags *)
Lemma tag_metas s q t q' : metas (tag s q t) q' =
  if q' =? q then option_map (fun ts => ModulesModel.add_tag ts t) (metas s q) else metas s q'.
Proof.
  unfold tag. cbn [metas]. destruct (metas s q) as [ts|] eqn:E.
  - unfold upd. destruct (q' =? q); reflexivity.
  - destruct (q' =? q) eqn:H; [|reflexivity]. apply Nat.eqb_eq in H. subst. now rewrite E.
Qed.
Lemma tag_in s q t q' ts : metas s q' = Some ts -> exists ts', metas (tag s q t) q' = Some ts' /\
  forall u, In u ts' <-> In u ts \/ (q' = q /\ implied t u).
Proof.
  intros H. rewrite tag_metas. destruct (Nat.eqb_spec q' q) as [->|Hn].
  - rewrite H. cbn. eexists. split; [reflexivity|]. intros u. unfold ModulesModel.add_tag, implied.
    rewrite in_app_iff. intuition.
  - exists ts. split; [assumption|]. intros u. intuition.
Qed.
Lemma inputs_in f args s q ts : metas s q = Some ts ->
  exists ts', metas (fold_left (annotate_input f) args s) q = Some ts' /\
  forall u, In u ts' <-> In u ts \/
    (exists a pf, In a args /\ nth_error (objs s) a = Some (Trace pf (Some q))) /\ implied (before f) u.
Proof.
  revert s ts. induction args as [|a args IH]; intros s ts H; cbn [fold_left].
  - exists ts. split; [assumption|]. intros u. split; [auto|]. intros [?|((a & pf & [] & _) & _)]. assumption.
  - assert (Ha : exists ts1, metas (annotate_input f s a) q = Some ts1 /\
      forall u, In u ts1 <-> In u ts \/
        (exists pf, nth_error (objs s) a = Some (Trace pf (Some q))) /\ implied (before f) u).
    { unfold annotate_input. destruct (nth_error (objs s) a) as [[|pf [p|]]|] eqn:E.
      1, 3, 4: exists ts; split; [assumption|]; intros u; split; [auto|]; intros [?|((pf' & Hx) & _)]; [assumption|discriminate].
      destruct (tag_in s p (before f) q ts H) as (ts1 & H1 & H2). exists ts1. split; [assumption|].
      intros u. rewrite H2. split.
      - intros [?|[-> ?]]; [auto|right; eauto].
      - intros [?|((pf' & Hx) & ?)]; [auto|right]. injection Hx as -> ->. auto. }
    destruct Ha as (ts1 & H1 & H2). destruct (IH _ _ H1) as (ts' & H3 & H4). exists ts'. split; [assumption|].
    assert (Ho : objs (annotate_input f s a) = objs s)
      by (unfold annotate_input; destruct (nth_error (objs s) a) as [[|? [?|]]|]; reflexivity).
    intros u. rewrite H4, H2, Ho. cbn [In]. split.
    + intros [[?|((pf & ?) & ?)]|((b & pf & ? & ?) & ?)]; [auto|right|right]; split; eauto.
    + intros [?|((b & pf & [->|?] & ?) & ?)]; [auto|left; right|right]; split; eauto.
Qed.

(** ** The overrides in force *)
Lemma register_other w o qs q : ~ In q qs -> omap (fst (register_all w o qs)) q = omap w q.
Proof.
  revert w. induction qs as [|p qs IH]; intros w H; [reflexivity|]. cbn [register_all].
  destruct (register_override w p o) as [w1 h] eqn:E. specialize (IH w1).
  destruct (register_all w1 o qs) as [w2 hs]. cbn [fst] in *. rewrite IH by (intros Hc; apply H; now right).
  unfold register_override in E. injection E as <- _. cbn [omap]. unfold upd.
  destruct (Nat.eqb_spec q p) as [->|]; [|reflexivity]. destruct H. now left.
Qed.
Lemma register_one w o qs q : NoDup qs -> In q qs ->
  exists i, octr w <= i < octr (fst (register_all w o qs)) /\ omap (fst (register_all w o qs)) q = omap w q ++ [(i, o)].
Proof.
  revert w. induction qs as [|p qs IH]; intros w Hd Hin; [destruct Hin|].
  inversion Hd as [|? ? Hp Hd']; subst. cbn [register_all]. destruct Hin as [->|Hq].
  - destruct (register_override w q o) as [w1 h] eqn:E. pose proof (register_other w1 o qs q Hp) as Ho.
    assert (Hc : octr w1 <= octr (fst (register_all w1 o qs))).
    { clear. revert w1. induction qs as [|p qs IH]; intros w; [reflexivity|]. cbn [register_all].
      destruct (register_override w p o) as [w1 h] eqn:E. specialize (IH w1). destruct (register_all w1 o qs).
      cbn [fst] in *. unfold register_override in E. injection E as <- _. cbn [octr] in *. lia. }
    destruct (register_all w1 o qs) as [w2 hs]. cbn [fst] in *. rewrite Ho. unfold register_override in E. injection E as <- _.
    cbn [omap octr] in *. exists (octr w). split; [lia|]. unfold upd. now rewrite Nat.eqb_refl.
  - destruct (register_override w p o) as [w1 h] eqn:E. destruct (IH w1 Hd' Hq) as (i & Hi & Hm).
    destruct (register_all w1 o qs) as [w2 hs]. cbn [fst] in *. unfold register_override in E. injection E as <- _.
    cbn [omap octr] in *. exists i. split; [lia|]. rewrite Hm. unfold upd.
    destruct (Nat.eqb_spec q p) as [->|]; [contradiction|reflexivity].
Qed.

(** A stub with the annotating override only *)
Lemma call_stub is_stub own w q o s i :
  is_stub q = true -> omap w q = [(i, Annotate)] ->
  call_quantizer is_stub own w q o s =
    let s1 := match nth_error (objs s) o with Some (Trace (Some f) _) => tag s q (after f) | _ => s end in
    match nth_error (objs s) o with
    | Some (Trace pf _) => (Ok o, put_obj s1 o (Trace pf (Some q)))
    | _ => (Ok (length (objs s)), snd (new_obj s1 (Trace None (Some q))))
    end.
Proof.
  intros Hs Hm. unfold call_quantizer, forward, quantize. rewrite Hm, Hs.
  cbn [map sort_items insert_sorted fst snd rev app length ov_sem invoke run_beh annotate_override].
  destruct (nth_error (objs s) o) as [[|[f|] pq]|] eqn:E; cbn [fst]; rewrite ?tag_objs, E; reflexivity.
Qed.
