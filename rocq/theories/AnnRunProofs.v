(** The forward pass under annotation: what the tracing tensors know, and which tags it adds. *)
From Coq Require Import String Lia.
From Verif Require Import Prelude OverrideModel AnnModel AnnSpec AnnProofs.
From Verif Require ModulesModel.
Local Open Scope nat_scope.
Local Open Scope list_scope.

Section Stubs.
  Variable is_stub : nat -> bool.
  Variable own : nat -> nat -> st -> result nat * st.
  Variable w : oworld ov.
  Variable n : nat.
  Variable es : list step.
  Variable ms : nat -> option (list string).
  Hypothesis Hstub : forall q, calls es q -> is_stub q = true /\ exists i, omap w q = [(i, Annotate)].
  Hypothesis Hfresh : no_aliases es.
  Hypothesis Honce : quantized_once n es.
  Hypothesis Hscope : in_scope n es.
  Hypothesis Hraise : forall pre f args e post, es = pre ++ Apply f args (Err e) :: post -> post = [].

  Definition holds_quantized (done : list step) (v : nat) : Prop := exists q, In (Quantize q v) done.

  Record inv (done : list step) (env : list nat) (s : st) : Prop := {
    i_len : length env = next n done;
    i_bound : forall v o, nth_error env v = Some o -> o < length (objs s);
    i_plain : forall v o, nth_error env v = Some o -> ~ traced n es v -> nth_error (objs s) o = Some Plain;
    i_trace : forall v o, nth_error env v = Some o -> traced n es v -> exists pf pq, nth_error (objs s) o = Some (Trace pf pq);
    i_made : forall v o f args, nth_error env v = Some o -> made_by n es v f args -> traced n es v ->
      ~ holds_quantized done v -> nth_error (objs s) o = Some (Trace (Some f) None);
    i_input : forall o, nth_error env 0 = Some o -> ~ holds_quantized done 0 -> nth_error (objs s) o = Some (Trace None None);
    i_quant : forall v o q x, nth_error env v = Some o -> quantized_by n es v q x ->
      exists pf, nth_error (objs s) o = Some (Trace pf (Some q));
    i_uniq : forall v v' o, nth_error env v = Some o -> nth_error env v' = Some o -> traced n es v -> traced n es v' ->
      v = v' \/ (exists q, quantized_by n done v q v') \/ (exists q, quantized_by n done v' q v);
  }.
  Definition tags_ok (done : list step) (s : st) : Prop := forall q ts, ms q = Some ts ->
    exists ts', metas s q = Some ts' /\ forall t, In t ts' <-> In t ts
      \/ (exists f v x, quantized_by n es v q x /\ consumed_by done v f /\ implied (before f) t)
      \/ (exists f v x args, quantized_by n done v q x /\ made_by n es x f args /\ traced n es x /\ implied (after f) t).

  Lemma var_kinds v : v < next n es -> v < S n \/ (exists f args, made_by n es v f args) \/ (exists q x, quantized_by n es v q x).
  Proof using.
    clear. destruct (Nat.lt_ge_cases v (S n)) as [|Hge]; [auto|]. intros Hv. right.
    assert (H : forall pre post, es = pre ++ post -> next n pre <= v ->
      (exists f args, made_by n es v f args) \/ (exists q x, quantized_by n es v q x)).
    { intros pre post. revert pre. induction post as [|e post IH]; intros pre He Hp.
      - rewrite app_nil_r in He. subst. lia.
      - destruct (Nat.lt_ge_cases v (next n (pre ++ [e]))) as [Hlt|Hge'].
        + rewrite next_snoc in Hlt. destruct e as [f args [outs|x]|q x]; cbn [width] in Hlt; [| lia|].
          * left. exists f, args, pre, outs, post, (v - next n pre). repeat split; [assumption|lia|lia].
          * right. exists q, x, pre, post. split; [assumption|lia].
        + apply (IH (pre ++ [e])); [|assumption]. rewrite <- app_assoc. assumption. }
    apply (H [] es eq_refl). unfold next. cbn. lia.
  Qed.
  (** Whether a variable is traced can be decided. *)
  Lemma traced_dec v : v < next n es -> traced n es v \/ ~ traced n es v.
  Proof using Hscope.
    clear - Hscope.
    revert v. assert (H : forall k v, v < k -> v < next n es -> traced n es v \/ ~ traced n es v).
    { induction k as [|k IH]; intros v Hk Hv; [lia|].
      destruct (var_kinds v Hv) as [Hs|[(f & args & Hm)|(q & x & Hq)]].
      - destruct v as [|v]; [left; constructor|]. right. intros Ht. inversion Ht as [|? ? ? ? Hm|? ? ? Hq]; subst.
        + apply made_next in Hm. lia.
        + apply quantized_next in Hq. lia.
      - assert (Hargs : forall a, In a args -> a < v).
        { destruct Hm as (pre & outs & post & k' & He & Hk' & ->). intros a Ha.
          pose proof (Hscope _ _ _ He a Ha). lia. }
        assert (Hd : (exists a, In a args /\ traced n es a) \/ ~ exists a, In a args /\ traced n es a).
        { clear Hm. induction args as [|a args IHa]; [right; intros (a & [] & _)|].
          destruct (IHa (fun b Hb => Hargs b (or_intror Hb))) as [(b & Hb & Ht)|Hno]; [left; eauto using in_cons|].
          specialize (Hargs a (or_introl eq_refl)).
          destruct (IH a ltac:(lia) ltac:(lia)) as [Ht|Ht]; [left; exists a; auto using in_eq|].
          right. intros (b & [->|Hb] & Hb'); eauto. }
        destruct Hd as [(a & Ha & Ht)|Hno]; [left; eapply traced_made; eauto|].
        right. intros Ht. inversion Ht as [Hz|? ? ? a Hm' Ha Hta|? ? ? Hq]; subst.
        + apply made_next in Hm. lia.
        + destruct (made_unique _ _ _ _ _ _ _ Hm Hm') as [_ <-]. eauto.
        + eauto using made_quantized.
      - left. eapply traced_quantized; eauto. }
    intros v Hv. apply (H (S v)); auto.
  Qed.

  (** A value about to be used that is traced has not been quantized yet. *)
  Lemma not_yet done e post v : es = done ++ e :: post -> uses e v -> traced n es v -> ~ holds_quantized done v.
  Proof using Honce.
    clear - Honce.
    intros He Hu Ht (q & Hq). apply in_split in Hq. destruct Hq as (a & b & Hd). subst done.
    rewrite <- app_assoc in He. cbn in He. destruct (Honce _ _ _ _ He Ht) as [H _].
    apply (H e); [apply in_or_app; right; now left|assumption].
  Qed.
  (** What the tensor of such a value records about quantizers *)
  Lemma records done e post env s v o q : inv done env s -> es = done ++ e :: post -> uses e v -> nth_error env v = Some o ->
    (exists pf, nth_error (objs s) o = Some (Trace pf (Some q))) <-> exists x, quantized_by n es v q x.
  Proof using Honce Hscope.
    clear - Honce Hscope.
    intros I He Hu Hv. split.
    - intros (pf & Ho). assert (Hlt : v < next n es).
      { pose proof (Hscope _ _ _ He v Hu). rewrite He, next_app. lia. }
      destruct (traced_dec v Hlt) as [Ht|Ht]; [|rewrite (i_plain _ _ _ I v o Hv Ht) in Ho; discriminate].
      pose proof (not_yet done e post v He Hu Ht) as Hn.
      destruct (var_kinds v Hlt) as [Hs|[(f & args & Hm)|(q' & x & Hq)]].
      + inversion Ht as [Hz|? ? ? ? Hm|? ? ? Hq]; subst.
        * rewrite (i_input _ _ _ I o Hv Hn) in Ho. discriminate.
        * apply made_next in Hm. lia.
        * apply quantized_next in Hq. lia.
      + rewrite (i_made _ _ _ I v o f args Hv Hm Ht Hn) in Ho. discriminate.
      + destruct (i_quant _ _ _ I v o q' x Hv Hq) as [pf' Ho']. rewrite Ho in Ho'. injection Ho' as _ ->. eauto.
    - intros (x & Hq). exact (i_quant _ _ _ I v o q x Hv Hq).
  Qed.
  Lemma trace_iff done env s v o : inv done env s -> v < next n es -> nth_error env v = Some o ->
    is_trace s o = true <-> traced n es v.
  Proof using Hscope.
    clear - Hscope.
    intros I Hlt Hv. unfold is_trace. destruct (traced_dec v Hlt) as [Ht|Ht].
    - destruct (i_trace _ _ _ I v o Hv Ht) as (pf & pq & ->). tauto.
    - rewrite (i_plain _ _ _ I v o Hv Ht). split; [discriminate|tauto].
  Qed.

  (** Adding new results, all with the same new object *)
  Lemma holds_snoc_apply done f args outs v : holds_quantized (done ++ [Apply f args outs]) v <-> holds_quantized done v.
  Proof using.
    clear. unfold holds_quantized. split; intros (q & H); exists q.
    - apply in_app_iff in H. destruct H as [H|[H|[]]]; [assumption|discriminate].
    - apply in_or_app. now left.
  Qed.
  Lemma quantized_snoc_apply done f args outs v q x :
    quantized_by n (done ++ [Apply f args outs]) v q x <-> quantized_by n done v q x.
  Proof using. clear. rewrite quantized_snoc. split; [intros [H|[H _]]; [assumption|discriminate]|auto]. Qed.

  Lemma nth_app_old {A} (l l' : list A) k : k < length l -> nth_error (l ++ l') k = nth_error l k.
  Proof using. clear. intros. now rewrite nth_error_app1. Qed.
  Lemma nth_seq_ k a len : k < len -> nth_error (seq a len) k = Some (a + k).
  Proof using.
    clear. revert k a. induction len as [|len IH]; intros [|k] a H; cbn; try lia.
    - f_equal. lia.
    - rewrite IH by lia. f_equal. lia.
  Qed.
  Lemma nth_repeat_ {A} (x : A) k len : k < len -> nth_error (repeat x len) k = Some x.
  Proof using. clear. revert k. induction len as [|len IH]; intros [|k] H; cbn; try lia; [reflexivity|apply IH; lia]. Qed.

  Lemma inv_apply done post env s s1 f args outs :
    es = done ++ Apply f args (Ok outs) :: post -> inv done env s -> objs s1 = objs s ->
    forall x, (x = Trace (Some f) None /\ (exists a, In a args /\ traced n es a))
              \/ (x = Plain /\ ~ exists a, In a args /\ traced n es a) ->
    inv (done ++ [Apply f args (Ok outs)]) (env ++ seq (length (objs s)) (length outs))
        (mkSt (objs s1 ++ repeat x (length outs)) (metas s1) (strict s1)).
  Proof using.
    clear. intros He I Ho x Hx.
    assert (Hsplit : forall v o, nth_error (env ++ seq (length (objs s)) (length outs)) v = Some o ->
      (v < length env /\ nth_error env v = Some o /\ o < length (objs s)) \/
      (exists k, k < length outs /\ v = next n done + k /\ o = length (objs s) + k /\
        nth_error (objs s ++ repeat x (length outs)) o = Some x /\ made_by n es v f args)).
    { intros v o Hv. destruct (Nat.lt_ge_cases v (length env)) as [Hlt|Hge].
      - left. rewrite nth_error_app1 in Hv by assumption. repeat split; auto. eapply i_bound; eauto.
      - right. rewrite nth_error_app2 in Hv by assumption.
        assert (Hk : v - length env < length outs).
        { apply Nat.nle_gt. intros Hc. rewrite (proj2 (nth_error_None _ _)) in Hv; [discriminate|]. now rewrite seq_length. }
        rewrite nth_seq_ in Hv by assumption. injection Hv as <-.
        exists (v - length env). rewrite (i_len _ _ _ I) in *. repeat split; try lia.
        + rewrite nth_error_app2 by lia. apply nth_repeat_. lia.
        + exists done, outs, post, (v - next n done). repeat split; [assumption|lia|lia]. }
    assert (Hold : forall o, o < length (objs s) -> nth_error (objs s1 ++ repeat x (length outs)) o = nth_error (objs s) o)
      by (intros o Hlt; rewrite Ho; apply nth_error_app1; assumption).
    assert (Htr : forall v, made_by n es v f args -> traced n es v <-> exists a, In a args /\ traced n es a).
    { intros v Hm. split.
      - intros Ht. inversion Ht as [Hz|? ? ? a Hm' Ha Hta|? ? ? Hq]; subst.
        + apply made_next in Hm. lia.
        + destruct (made_unique _ _ _ _ _ _ _ Hm Hm') as [_ <-]. eauto.
        + destruct (made_quantized _ _ _ _ _ _ _ Hm Hq).
      - intros (a & Ha & Hta). eapply traced_made; eauto. }
    constructor; cbn [objs metas strict].
    - rewrite app_length, seq_length, next_snoc, (i_len _ _ _ I). reflexivity.
    - intros v o Hv. rewrite app_length, repeat_length, Ho. destruct (Hsplit v o Hv) as [(_ & _ & H)|(k & Hk & _ & -> & _)]; lia.
    - intros v o Hv Ht. destruct (Hsplit v o Hv) as [(_ & H & Hb)|(k & Hk & _ & _ & Hn & Hm)].
      + rewrite Hold by assumption. eapply i_plain; eauto.
      + rewrite Ho, Hn. f_equal. destruct Hx as [[-> Hx]|[-> _]]; [|reflexivity]. destruct Ht. now apply Htr.
    - intros v o Hv Ht. destruct (Hsplit v o Hv) as [(_ & H & Hb)|(k & Hk & _ & _ & Hn & Hm)].
      + rewrite Hold by assumption. eapply i_trace; eauto.
      + rewrite Ho, Hn. destruct Hx as [[-> _]|[_ Hx]]; [eauto|]. destruct Hx. now apply (Htr v).
    - intros v o g args' Hv Hmv Ht Hnq. rewrite holds_snoc_apply in Hnq.
      destruct (Hsplit v o Hv) as [(_ & H & Hb)|(k & Hk & _ & _ & Hn & Hm)].
      + rewrite Hold by assumption. eapply i_made; eauto.
      + rewrite Ho, Hn. destruct (made_unique _ _ _ _ _ _ _ Hm Hmv) as [<- <-].
        destruct Hx as [[-> _]|[_ Hx]]; [reflexivity|]. destruct Hx. now apply (Htr v).
    - intros o Hv Hnq. rewrite holds_snoc_apply in Hnq.
      destruct (Hsplit 0 o Hv) as [(_ & H & Hb)|(k & Hk & Hz & _)]; [|unfold next in Hz; lia].
      rewrite Hold by assumption. eapply i_input; eauto.
    - intros v o q y Hv Hq. destruct (Hsplit v o Hv) as [(_ & H & Hb)|(k & Hk & _ & _ & Hn & Hm)].
      + rewrite Hold by assumption. eapply i_quant; eauto.
      + destruct (made_quantized _ _ _ _ _ _ _ Hm Hq).
    - intros v v' o Hv Hv' Ht Ht'.
      destruct (Hsplit v o Hv) as [(_ & H & Hb)|(k & Hk & Hvk & Hok & _)];
      destruct (Hsplit v' o Hv') as [(_ & H' & Hb')|(k' & Hk' & Hvk' & Hok' & _)]; try lia.
      + destruct (i_uniq _ _ _ I v v' o H H' Ht Ht') as [->|[(q & Hq)|(q & Hq)]]; [auto|right; left|right; right]; exists q;
          now apply quantized_snoc_apply.
  Qed.

  Lemma inv_quantize_traced done post env s s1 q x o pf pq :
    es = done ++ Quantize q x :: post -> inv done env s -> objs s1 = objs s -> nth_error env x = Some o ->
    traced n es x -> nth_error (objs s) o = Some (Trace pf pq) ->
    inv (done ++ [Quantize q x]) (env ++ [o]) (put_obj s1 o (Trace pf (Some q))).
  Proof using Honce.
    clear - Honce.
    intros He I Ho Hx Htx Hobj.
    pose proof (i_bound _ _ _ I x o Hx) as Hb.
    destruct (Honce _ _ _ _ He Htx) as [_ Hnoq].
    assert (Hny : ~ holds_quantized done x) by (eapply not_yet; eauto; reflexivity).
    assert (Hnew : quantized_by n es (next n done) q x) by (exists done, post; auto).
    assert (Hsplit : forall v o', nth_error (env ++ [o]) v = Some o' ->
       (v < next n done /\ nth_error env v = Some o') \/ (v = next n done /\ o' = o)).
    { intros v o' Hv. destruct (Nat.lt_ge_cases v (length env)) as [Hlt|Hge].
      - left. rewrite nth_error_app1 in Hv by assumption. rewrite (i_len _ _ _ I) in Hlt. auto.
      - right. rewrite nth_error_app2 in Hv by assumption. rewrite (i_len _ _ _ I) in *.
        destruct (v - next n done) as [|k] eqn:Ek; [injection Hv as <-; split; [lia|reflexivity]|]. destruct k; discriminate Hv. }
    assert (Hsame : forall v, nth_error env v = Some o -> traced n es v -> v = x).
    { intros v Hv Htv. destruct (i_uniq _ _ _ I v x o Hv Hx Htv Htx) as [->|[(q' & Hq')|(q' & Hq')]]; [reflexivity| |].
      - destruct Hny. destruct Hq' as (a & b & -> & _). exists q'. apply in_or_app. right. now left.
      - exfalso. eapply Hnoq. eapply quantized_done; eauto. }
    assert (Hother : forall v o', nth_error env v = Some o' -> traced n es v -> v <> x -> o' <> o)
      by (intros v o' Hv Htv Hvx ->; apply Hvx; auto).
    assert (Hput : forall o', o' <> o -> nth_error (set_obj o (Trace pf (Some q)) (objs s1)) o' = nth_error (objs s) o')
      by (intros o' Hn; rewrite Ho; apply set_obj_other; auto).
    assert (Hput' : nth_error (set_obj o (Trace pf (Some q)) (objs s1)) o = Some (Trace pf (Some q)))
      by (rewrite Ho; apply set_obj_same; assumption).
    constructor; unfold put_obj; cbn [objs metas strict].
    - rewrite app_length, next_snoc, (i_len _ _ _ I). reflexivity.
    - intros v o' Hv. rewrite set_obj_length, Ho. destruct (Hsplit v o' Hv) as [[_ H]|[_ ->]]; [eapply i_bound; eauto|assumption].
    - intros v o' Hv Ht. destruct (Hsplit v o' Hv) as [[_ H]|[-> _]].
      + pose proof (i_plain _ _ _ I v o' H Ht) as Hp. rewrite Hput; [assumption|]. intros ->. congruence.
      + destruct Ht. eapply traced_quantized; eauto.
    - intros v o' Hv Ht. destruct (Nat.eq_dec o' o) as [->|Hn]; [rewrite Hput'; eauto|].
      rewrite Hput by assumption. destruct (Hsplit v o' Hv) as [[_ H]|[_ ->]]; [eapply i_trace; eauto|contradiction].
    - intros v o' f args Hv Hm Ht Hnq. destruct (Hsplit v o' Hv) as [[_ H]|[-> _]].
      + assert (Hvx : v <> x) by (intros ->; apply Hnq; exists q; apply in_or_app; right; now left).
        rewrite Hput by eauto. eapply i_made; eauto. intros (q' & Hq'). apply Hnq. exists q'. apply in_or_app. now left.
      + destruct (made_quantized _ _ _ _ _ _ _ Hm Hnew).
    - intros o' Hv Hnq. destruct (Hsplit 0 o' Hv) as [[_ H]|[Hz _]]; [|unfold next in Hz; lia].
      assert (Hvx : 0 <> x) by (intros <-; apply Hnq; exists q; apply in_or_app; right; now left).
      rewrite Hput by (eapply Hother; eauto; constructor). eapply i_input; eauto.
      intros (q' & Hq'). apply Hnq. exists q'. apply in_or_app. now left.
    - intros v o' q' x' Hv Hq'. destruct (Hsplit v o' Hv) as [[_ H]|[-> ->]].
      + assert (Hvx : v <> x) by (intros ->; eapply Hnoq; eauto).
        rewrite Hput by (eapply Hother; eauto; eapply traced_quantized; eauto). eapply i_quant; eauto.
      + destruct (quantized_unique _ _ _ _ _ _ _ Hq' Hnew) as [-> ->]. eauto.
    - intros v v' o' Hv Hv' Ht Ht'.
      destruct (Hsplit v o' Hv) as [[_ H]|[-> Ho1]]; destruct (Hsplit v' o' Hv') as [[_ H']|[-> Ho']].
      + destruct (i_uniq _ _ _ I v v' o' H H' Ht Ht') as [->|[(q' & Hq')|(q' & Hq')]]; [auto|right; left|right; right]; exists q';
          apply quantized_snoc; auto.
      + subst. right. right. exists q. apply quantized_snoc. right. split; [|reflexivity]. now rewrite (Hsame v H Ht).
      + subst. right. left. exists q. apply quantized_snoc. right. split; [|reflexivity]. now rewrite (Hsame v' H' Ht').
      + auto.
  Qed.

  Lemma inv_quantize_plain done post env s s1 q x o :
    es = done ++ Quantize q x :: post -> inv done env s -> objs s1 = objs s -> nth_error env x = Some o ->
    ~ traced n es x ->
    inv (done ++ [Quantize q x]) (env ++ [length (objs s)]) (snd (new_obj s1 (Trace None (Some q)))).
  Proof using.
    clear. intros He I Ho Hx Htx.
    assert (Hnew : quantized_by n es (next n done) q x) by (exists done, post; auto).
    assert (Hsplit : forall v o', nth_error (env ++ [length (objs s)]) v = Some o' ->
       (v < next n done /\ nth_error env v = Some o' /\ o' < length (objs s)) \/ (v = next n done /\ o' = length (objs s))).
    { intros v o' Hv. destruct (Nat.lt_ge_cases v (length env)) as [Hlt|Hge].
      - left. rewrite nth_error_app1 in Hv by assumption. rewrite (i_len _ _ _ I) in Hlt. repeat split; auto. eapply i_bound; eauto.
      - right. rewrite nth_error_app2 in Hv by assumption. rewrite (i_len _ _ _ I) in *.
        destruct (v - next n done) as [|k] eqn:Ek; [injection Hv as <-; split; [lia|reflexivity]|]. destruct k; discriminate Hv. }
    assert (Hold : forall o', o' < length (objs s) -> nth_error (objs s1 ++ [Trace None (Some q)]) o' = nth_error (objs s) o')
      by (intros o' Hlt; rewrite Ho; apply nth_error_app1; assumption).
    assert (Hlast : nth_error (objs s1 ++ [Trace None (Some q)]) (length (objs s)) = Some (Trace None (Some q)))
      by (rewrite Ho, nth_error_app2, Nat.sub_diag by lia; reflexivity).
    constructor; unfold new_obj; cbn [objs metas strict snd].
    - rewrite app_length, next_snoc, (i_len _ _ _ I). reflexivity.
    - intros v o' Hv. rewrite app_length, Ho. cbn [length]. destruct (Hsplit v o' Hv) as [(_ & _ & H)|[_ ->]]; lia.
    - intros v o' Hv Ht. destruct (Hsplit v o' Hv) as [(_ & H & Hb)|[-> _]].
      + rewrite Hold by assumption. eapply i_plain; eauto.
      + destruct Ht. eapply traced_quantized; eauto.
    - intros v o' Hv Ht. destruct (Hsplit v o' Hv) as [(_ & H & Hb)|[_ ->]]; [|eauto].
      rewrite Hold by assumption. eapply i_trace; eauto.
    - intros v o' f args Hv Hm Ht Hnq. destruct (Hsplit v o' Hv) as [(_ & H & Hb)|[-> _]].
      + rewrite Hold by assumption. eapply i_made; eauto. intros (q' & Hq'). apply Hnq. exists q'. apply in_or_app. now left.
      + destruct (made_quantized _ _ _ _ _ _ _ Hm Hnew).
    - intros o' Hv Hnq. destruct (Hsplit 0 o' Hv) as [(_ & H & Hb)|[Hz _]]; [|unfold next in Hz; lia].
      rewrite Hold by assumption. eapply i_input; eauto. intros (q' & Hq'). apply Hnq. exists q'. apply in_or_app. now left.
    - intros v o' q' x' Hv Hq'. destruct (Hsplit v o' Hv) as [(_ & H & Hb)|[-> ->]].
      + rewrite Hold by assumption. eapply i_quant; eauto.
      + destruct (quantized_unique _ _ _ _ _ _ _ Hq' Hnew) as [-> ->]. eauto.
    - intros v v' o' Hv Hv' Ht Ht'.
      destruct (Hsplit v o' Hv) as [(_ & H & Hb)|[-> Ho1]]; destruct (Hsplit v' o' Hv') as [(_ & H' & Hb')|[-> Ho']]; try lia.
      + destruct (i_uniq _ _ _ I v v' o' H H' Ht Ht') as [->|[(q' & Hq')|(q' & Hq')]]; [auto|right; left|right; right]; exists q';
          apply quantized_snoc; auto.
  Qed.

  Lemma tags_apply done post env s f args outs os : es = done ++ Apply f args outs :: post ->
    inv done env s -> values env args = Ok os -> tags_ok done s ->
    tags_ok (done ++ [Apply f args outs]) (if existsb (is_trace s) os then fold_left (annotate_input f) os s else s).
  Proof using Honce Hscope.
    clear - Honce Hscope ms.
    intros He I Hos Htags q ts Hq. destruct (Htags q ts Hq) as (ts0 & Hm0 & Ht0).
    assert (Hrec : forall a, In a args -> forall o, nth_error env a = Some o ->
      (exists pf, nth_error (objs s) o = Some (Trace pf (Some q))) <-> exists x, quantized_by n es a q x)
      by (intros a Ha o Hao; eapply records; eauto).
    assert (Hres : exists ts', metas (if existsb (is_trace s) os then fold_left (annotate_input f) os s else s) q = Some ts' /\
       forall u, In u ts' <-> In u ts0 \/ (exists a x, In a args /\ quantized_by n es a q x) /\ implied (before f) u).
    { destruct (existsb (is_trace s) os) eqn:Hex.
      - destruct (inputs_in f os s q ts0 Hm0) as (ts' & Hm' & Ht'). exists ts'. split; [assumption|]. intros u. rewrite Ht'. split.
        + intros [?|((o & pf & Ho & Hobj) & Hu)]; [auto|right]. apply (values_nth _ _ _ Hos) in Ho. destruct Ho as (a & Ha & Hao).
          destruct (proj1 (Hrec a Ha o Hao) (ex_intro _ pf Hobj)) as (x & Hx). split; [|assumption]. eauto.
        + intros [?|((a & x & Ha & Hx) & Hu)]; [auto|right]. split; [|assumption].
          assert (Hlt : a < length env).
          { rewrite (i_len _ _ _ I). apply (Hscope _ _ _ He a). exact Ha. }
          destruct (nth_error env a) as [o|] eqn:Hao; [|apply nth_error_None in Hao; lia].
          destruct (proj2 (Hrec a Ha o Hao) (ex_intro _ x Hx)) as (pf & Hobj).
          exists o, pf. split; [|assumption]. apply (values_nth _ _ _ Hos). eauto.
      - exists ts0. split; [assumption|]. intros u. split; [auto|]. intros [?|((a & x & Ha & Hx) & Hu)]; [assumption|].
        exfalso. assert (Hlt : a < length env).
        { rewrite (i_len _ _ _ I). apply (Hscope _ _ _ He a). exact Ha. }
        destruct (nth_error env a) as [o|] eqn:Hao; [|apply nth_error_None in Hao; lia].
        destruct (proj2 (Hrec a Ha o Hao) (ex_intro _ x Hx)) as (pf & Hobj).
        assert (Hin : In o os) by (apply (values_nth _ _ _ Hos); eauto).
        assert (Hf : existsb (is_trace s) os = true).
        { apply existsb_exists. exists o. split; [assumption|]. unfold is_trace. now rewrite Hobj. }
        congruence. }
    destruct Hres as (ts' & Hm' & Ht'). exists ts'. split; [assumption|]. intros t. rewrite Ht', Ht0. split.
    - intros [[?|[(g & v & x & H1 & H2 & H3)|(g & v & x & a' & H1 & H2)]]|((a & x & Ha & Hx) & Hu)].
      + auto.
      + right. left. exists g, v, x. rewrite consumed_snoc. auto.
      + right. right. exists g, v, x, a'. rewrite quantized_snoc_apply. auto.
      + right. left. exists f, a, x. rewrite consumed_snoc. repeat split; [assumption| |assumption]. right. eauto.
    - intros [?|[(g & v & x & H1 & H2 & H3)|(g & v & x & a' & H1 & H2)]].
      + auto.
      + rewrite consumed_snoc in H2. destruct H2 as [H2|(args' & outs' & Heq & Hin)].
        * left. right. left. exists g, v, x. auto.
        * injection Heq as <- <- <-. right. split; [eauto|assumption].
      + rewrite quantized_snoc_apply in H1. left. right. right. exists g, v, x, a'. auto.
  Qed.

  Lemma tags_quantize done post s s1 q0 x0 : es = done ++ Quantize q0 x0 :: post -> tags_ok done s ->
    (forall q ts, metas s q = Some ts -> exists ts', metas s1 q = Some ts' /\ forall u, In u ts' <-> In u ts \/
       (q = q0 /\ traced n es x0 /\ exists f args, made_by n es x0 f args /\ implied (after f) u)) ->
    tags_ok (done ++ [Quantize q0 x0]) s1.
  Proof using.
    clear. intros He Htags Hstep q ts Hq. destruct (Htags q ts Hq) as (ts0 & Hm0 & Ht0). destruct (Hstep q ts0 Hm0) as (ts' & Hm' & Ht').
    exists ts'. split; [assumption|]. intros t. rewrite Ht', Ht0.
    assert (Hc : forall v f, consumed_by (done ++ [Quantize q0 x0]) v f <-> consumed_by done v f).
    { intros v f. rewrite consumed_snoc. split; [intros [?|(args & outs & Hx & _)]; [assumption|discriminate]|auto]. }
    split.
    - intros [[?|[(g & v & x & H1 & H2 & H3)|(g & v & x & a' & H1 & H2)]]|(-> & Htr & f & args & Hm & Hu)].
      + auto.
      + right. left. exists g, v, x. rewrite Hc. auto.
      + right. right. exists g, v, x, a'. rewrite quantized_snoc. auto.
      + right. right. exists f, (next n done), x0, args. rewrite quantized_snoc. repeat split; auto.
    - intros [?|[(g & v & x & H1 & H2 & H3)|(g & v & x & a' & H1 & H2 & H3 & H4)]].
      + auto.
      + rewrite Hc in H2. left. right. left. exists g, v, x. auto.
      + rewrite quantized_snoc in H1. destruct H1 as [H1|[H1 _]].
        * left. right. right. exists g, v, x, a'. auto.
        * injection H1 as <- <-. right. repeat split; [assumption|]. exists g, a'. auto.
  Qed.

  Lemma run_inv post : forall done env s, es = done ++ post -> inv done env s -> tags_ok done s ->
    tags_ok es (snd (run is_stub own w env s post)).
  Proof using Hstub Hfresh Honce Hscope Hraise.
    induction post as [|e post IH]; intros done env s He I Ht.
    - rewrite app_nil_r in He. cbn. now rewrite He at 1.
    - assert (He' : es = (done ++ [e]) ++ post) by (rewrite <- app_assoc; exact He).
      cbn [run]. destruct e as [f args outs|q x]; cbn [do_step].
      + destruct (values_total env args) as [os Hos].
        { intros v Hv. rewrite (i_len _ _ _ I). apply (Hscope _ _ _ He v). exact Hv. }
        rewrite Hos. pose proof (tags_apply done post env s f args outs os He I Hos Ht) as Htags.
        assert (Hex : existsb (is_trace s) os = true <-> exists a, In a args /\ traced n es a).
        { rewrite existsb_exists. split.
          - intros (o & Ho & Htr). apply (values_nth _ _ _ Hos) in Ho. destruct Ho as (a & Ha & Hao). exists a. split; [assumption|].
            apply (trace_iff done env s a o I); auto. pose proof (Hscope _ _ _ He a Ha). rewrite He, next_app. lia.
          - intros (a & Ha & Hta). pose proof (Hscope _ _ _ He a Ha) as Hlt.
            destruct (nth_error env a) as [o|] eqn:Hao; [|apply nth_error_None in Hao; rewrite (i_len _ _ _ I) in Hao; lia].
            exists o. split; [apply (values_nth _ _ _ Hos); eauto|]. apply (trace_iff done env s a o I); auto. rewrite He, next_app. lia. }
        unfold apply. destruct (existsb (is_trace s) os) eqn:E.
        * destruct outs as [outs|x].
          -- assert (Hf : Forall (fun o => o = None) outs).
             { apply (Hfresh f args). rewrite He. apply in_or_app. right. now left. }
             rewrite (fresh_outputs _ (Trace (Some f) None)) by (auto; reflexivity).
             rewrite inputs_objs. refine (IH _ _ _ He' _ _); [|exact Htags].
             pose proof (inv_apply done post env s (fold_left (annotate_input f) os s) f args outs He I (inputs_objs _ _ _)
               (Trace (Some f) None) (or_introl (conj eq_refl (proj1 Hex eq_refl)))) as Hi.
             rewrite inputs_objs in Hi. exact Hi.
          -- cbn [snd]. rewrite (Hraise _ _ _ _ _ He) in He'. rewrite app_nil_r in He'. rewrite He' at 1. exact Htags.
        * destruct outs as [outs|x].
          -- assert (Hf : Forall (fun o => o = None) outs).
             { apply (Hfresh f args). rewrite He. apply in_or_app. right. now left. }
             rewrite (fresh_outputs _ Plain) by (auto; reflexivity).
             refine (IH _ _ _ He' _ _); [|exact Htags].
             apply (inv_apply done post env s s f args outs He I eq_refl). right. split; [reflexivity|].
             intros Hc. apply Hex in Hc. discriminate.
          -- cbn [snd]. rewrite (Hraise _ _ _ _ _ He) in He'. rewrite app_nil_r in He'. rewrite He' at 1. exact Htags.
      + pose proof (Hscope _ _ _ He x eq_refl) as Hlt.
        destruct (nth_error env x) as [o|] eqn:Ho; [|apply nth_error_None in Ho; rewrite (i_len _ _ _ I) in Ho; lia].
        destruct (Hstub q) as [Hs (i & Hi)]; [exists x; rewrite He; apply in_or_app; right; now left|].
        rewrite (call_stub is_stub own w q o s i Hs Hi). cbv zeta.
        assert (Hlt' : x < next n es) by (rewrite He, next_app; lia).
        destruct (traced_dec x Hlt') as [Htx|Htx].
        * pose proof (not_yet done _ post x He eq_refl Htx) as Hny.
          destruct (Honce _ _ _ _ He Htx) as [_ Hnoq].
          assert (Hpf : exists pf, nth_error (objs s) o = Some (Trace pf None) /\
             forall f, pf = Some f <-> exists args, made_by n es x f args).
          { destruct (var_kinds x Hlt') as [Hs0|[(f & args & Hm)|(q' & y & Hq)]].
            - inversion Htx as [Hz|? ? ? ? Hm|? ? ? Hq]; subst.
              + exists None. split; [eapply i_input; eauto|]. intros f. split; [discriminate|]. intros (args & Hm).
                apply made_next in Hm. lia.
              + apply made_next in Hm. lia.
              + apply quantized_next in Hq. lia.
            - exists (Some f). split; [eapply i_made; eauto|]. intros g. split.
              + intros [= <-]. eauto.
              + intros (args' & Hm'). destruct (made_unique _ _ _ _ _ _ _ Hm Hm') as [<- _]. reflexivity.
            - destruct (Hnoq q' y Hq). }
          destruct Hpf as (pf & Hobj & Hpf). rewrite Hobj.
          set (s1 := match pf with Some f => tag s q (after f) | None => s end).
          replace (match Some (Trace pf None) with Some (Trace (Some f) _) => tag s q (after f) | _ => s end) with s1
            by (destruct pf; reflexivity).
          refine (IH _ _ _ He' _ _).
          -- eapply inv_quantize_traced; eauto. unfold s1. destruct pf; reflexivity.
          -- eapply tags_quantize; [exact He|exact Ht|]. intros p ts Hp. change (metas (put_obj s1 o (Trace pf (Some q)))) with (metas s1).
             unfold s1. destruct pf as [f|].
             ++ destruct (tag_in s q (after f) p ts Hp) as (ts' & Hm' & Hin). exists ts'. split; [assumption|]. intros u. rewrite Hin.
                split; (intros [?|Hr]; [auto|right]).
                ** destruct Hr as [-> Hu]. destruct (proj1 (Hpf f) eq_refl) as [args Hm]. repeat split; auto. eauto.
                ** destruct Hr as (-> & _ & g & args & Hm & Hu). split; [reflexivity|].
                   assert (Hg : Some f = Some g) by (apply Hpf; eauto). injection Hg as ->. exact Hu.
             ++ exists ts. split; [assumption|]. intros u. split; [auto|]. intros [?|(_ & _ & g & args & Hm & _)]; [assumption|].
                assert (Hg : @None string = Some g) by (apply Hpf; eauto). discriminate.
        * rewrite (i_plain _ _ _ I x o Ho Htx). refine (IH _ _ _ He' _ _).
          -- eapply inv_quantize_plain; eauto.
          -- eapply tags_quantize; [exact He|exact Ht|]. intros p ts Hp. exists ts. split; [assumption|].
             intros u. split; [auto|]. intros [?|(_ & Hc & _)]; [assumption|contradiction].
  Qed.

  Lemma inv_start s : objs s = Trace None None :: repeat Plain n -> inv [] (seq 0 (S n)) s.
  Proof using.
    clear. intros Ho.
    assert (Hv : forall v o, nth_error (seq 0 (S n)) v = Some o -> v = o /\ v < S n).
    { intros v o H. assert (Hlt : v < S n).
      { apply Nat.nle_gt. intros Hc. rewrite (proj2 (nth_error_None _ _)) in H; [discriminate|]. now rewrite seq_length. }
      rewrite nth_seq_ in H by assumption. injection H as <-. auto. }
    assert (Ht : forall v, v < S n -> traced n es v -> v = 0).
    { intros v Hlt H. inversion H as [|? ? ? ? Hm|? ? ? Hq]; subst; [reflexivity| |].
      - apply made_next in Hm. lia.
      - apply quantized_next in Hq. lia. }
    constructor; rewrite ?Ho.
    - rewrite seq_length. unfold next. cbn. lia.
    - intros v o H. destruct (Hv v o H) as [<- Hlt]. cbn. rewrite repeat_length. assumption.
    - intros v o H Hn. destruct (Hv v o H) as [<- Hlt]. destruct v as [|v]; [destruct Hn; constructor|]. cbn.
      apply nth_repeat_. lia.
    - intros v o H Htr. destruct (Hv v o H) as [<- Hlt]. rewrite (Ht v Hlt Htr). cbn. eauto.
    - intros v o f args H Hm. destruct (Hv v o H) as [<- Hlt]. apply made_next in Hm. lia.
    - intros o H _. destruct (Hv 0 o H) as [<- _]. reflexivity.
    - intros v o q x H Hq. destruct (Hv v o H) as [<- Hlt]. apply quantized_next in Hq. lia.
    - intros v v' o H H' _ _. destruct (Hv v o H) as [<- _]. destruct (Hv v' v H') as [-> _]. auto.
  Qed.
  Lemma tags_start s : metas s = ms -> tags_ok [] s.
  Proof using.
    clear. intros Hm q ts Hq. exists ts. rewrite Hm. split; [assumption|]. intros t. split; [auto|].
    intros [?|[(f & v & x & _ & (pre & ? & ? & ? & H & _) & _)|(f & v & x & args & (pre & ? & H & _) & _)]]; [assumption| |];
      destruct pre; discriminate.
  Qed.
End Stubs.
