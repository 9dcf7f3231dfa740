(** What annotation leaves behind, quantizers that are not stubs, and the theorem on tags. *)
From Coq Require Import String Lia.
From Verif Require Import Prelude OverrideModel OverrideSpec OverrideProofs AnnModel AnnSpec AnnProofs AnnRunProofs.
From Verif Require ModulesModel.
Local Open Scope nat_scope.
Local Open Scope list_scope.

(** ** Registration and removal *)
Definition ids_of (q : nat) (hs : list handle) : list nat := map hid (filter (fun h => hq h =? q) hs).
Lemma register_all_spec w o qs :
  octr w <= octr (fst (register_all w o qs)) /\
  (forall h, In h (snd (register_all w o qs)) -> octr w <= hid h < octr (fst (register_all w o qs))) /\
  forall q, omap (fst (register_all w o qs)) q = omap w q ++ map (fun i => (i, o)) (ids_of q (snd (register_all w o qs))).
Proof.
  revert w. induction qs as [|p qs IH]; intros w; cbn [register_all].
  - cbn. split; [lia|]. split; [intros h []|]. intros q. now rewrite app_nil_r.
  - destruct (register_override w p o) as [w1 h] eqn:E. specialize (IH w1).
    destruct (register_all w1 o qs) as [w2 hs]. cbn [fst snd] in *. unfold register_override in E. injection E as <- <-.
    cbn [octr omap] in *. destruct IH as (H1 & H2 & H3). split; [lia|]. split.
    + intros h [<-|Hh]; cbn [hid]; [lia|]. specialize (H2 h Hh). lia.
    + intros q. rewrite H3. unfold ids_of. cbn [filter hq]. unfold upd. rewrite (Nat.eqb_sym p q). destruct (q =? p) eqn:Ep.
      * apply Nat.eqb_eq in Ep. subst. cbn [map hid]. rewrite <- app_assoc. reflexivity.
      * reflexivity.
Qed.
Lemma remove_all_omap w hs q :
  omap (remove_all w hs) q = filter (fun it => negb (existsb (Nat.eqb (fst it)) (ids_of q hs))) (omap w q).
Proof.
  unfold remove_all. revert w. induction hs as [|h hs IH]; intros w; cbn [fold_left].
  - cbn. induction (omap w q) as [|a l IHl]; [reflexivity|]. cbn. now f_equal.
  - rewrite IH. unfold handle_remove, pop_id. cbn [snd omap]. unfold upd, ids_of. cbn [filter]. rewrite (Nat.eqb_sym (hq h) q).
    destruct (Nat.eqb_spec q (hq h)) as [->|]; [|reflexivity].
    rewrite filter_filter. apply filter_ext_in'. intros it _. cbn [map existsb]. rewrite negb_orb. reflexivity.
Qed.
Definition below (w : oworld ov) : Prop := forall q it, In it (omap w q) -> fst it < octr w.
Lemma register_below w o qs : below w -> below (fst (register_all w o qs)).
Proof.
  intros Hb q it. destruct (register_all_spec w o qs) as (H1 & H2 & H3). rewrite H3. intros Hin. apply in_app_or in Hin.
  destruct Hin as [Hin|Hin]; [specialize (Hb q it Hin); lia|]. apply in_map_iff in Hin. destruct Hin as (i & <- & Hi).
  apply in_map_iff in Hi. destruct Hi as (h & <- & Hh). apply filter_In in Hh. cbn. apply H2. tauto.
Qed.
Lemma remove_registered w o qs w' : below w ->
  (forall q, omap w' q = omap (fst (register_all w o qs)) q) ->
  forall q, omap (remove_all w' (snd (register_all w o qs))) q = omap w q.
Proof.
  intros Hb Hw' q. rewrite remove_all_omap, Hw'. destruct (register_all_spec w o qs) as (H1 & H2 & H3). rewrite H3.
  set (ids := ids_of q (snd (register_all w o qs))).
  assert (Hids : forall i, In i ids -> octr w <= i).
  { intros i Hi. apply in_map_iff in Hi. destruct Hi as (h & <- & Hh). apply filter_In in Hh. apply H2. tauto. }
  rewrite filter_app. rewrite <- (app_nil_r (omap w q)) at 2. f_equal.
  - rewrite (filter_ext_in' _ (fun _ => true)).
    + induction (omap w q) as [|a l IHl]; [reflexivity|]. cbn. now f_equal.
    + intros it Hit. apply negb_true_iff. apply not_true_is_false. intros Hx. apply existsb_exists in Hx.
      destruct Hx as (i & Hi & He). apply Nat.eqb_eq in He. specialize (Hids i Hi). specialize (Hb q it Hit). lia.
  - assert (Hall : forall l, (forall i, In i l -> In i ids) ->
        filter (fun it => negb (existsb (Nat.eqb (fst it)) ids)) (map (fun i => (i, o)) l) = []).
    { induction l as [|i l IHl]; intros Hl; [reflexivity|]. cbn [map filter fst].
      replace (existsb (Nat.eqb i) ids) with true; [cbn [negb]; apply IHl; intros; apply Hl; now right|].
      symmetry. apply existsb_exists. exists i. split; [apply Hl; now left|apply Nat.eqb_refl]. }
    apply Hall. auto.
Qed.
Lemma history_below h : below (fst (hrun h)).
Proof.
  intros q it. pose proof (hrun_inv h) as I. rewrite (hi_map _ _ I), (hi_ctr _ _ I). intros Hin.
  apply in_map_iff in Hin. destruct Hin as (t & <- & Ht). apply filter_In in Ht. cbn. apply (hi_lt _ _ I). tauto.
Qed.

(** The world of overrides during the forward pass *)
Definition world1 (is_stub : nat -> bool) (w : oworld ov) (qs : list nat) : oworld ov := fst (register_all w Annotate qs).
Definition world2 (is_stub : nat -> bool) (w : oworld ov) (qs : list nat) : oworld ov :=
  fst (register_all (world1 is_stub w qs) Disable (filter (fun q => negb (is_stub q)) qs)).
Lemma annotate_eq is_stub own w ms b qs n es :
  annotate is_stub own w ms b qs n es =
  let rs := run is_stub own (world2 is_stub w qs) (seq 0 (S n)) (mkSt (Trace None None :: repeat Plain n) ms false) es in
  (match fst rs with Ok _ => None | Err e => Some e end,
   remove_all (remove_all (world2 is_stub w qs)
     (snd (register_all (world1 is_stub w qs) Disable (filter (fun q => negb (is_stub q)) qs)))) (snd (register_all w Annotate qs)),
   set_strict (snd rs) b).
Proof.
  unfold annotate, world2, world1. destruct (register_all w Annotate qs) as [w1 hs1]. cbn [fst snd].
  destruct (register_all w1 Disable _) as [w2 hs2]. cbn [fst snd]. unfold set_strict. cbn [objs metas strict].
  destruct (run is_stub own w2 _ _ es) as [r s']. reflexivity.
Qed.
Lemma restored h is_stub own ms b qs n es r w' s' :
  annotate is_stub own (fst (hrun h)) ms b qs n es = (r, w', s') ->
  (forall q, omap w' q = omap (fst (hrun h)) q) /\ strict s' = b.
Proof.
  rewrite annotate_eq. cbv zeta. intros [= <- <- <-]. split; [|reflexivity]. intros q.
  apply remove_registered; [apply history_below|]. intros q'.
  unfold world2 at 1. rewrite (remove_registered (world1 is_stub (fst (hrun h)) qs)); [reflexivity| |reflexivity].
  apply register_below, history_below.
Qed.

(** ** Quantizers that are not stubs *)
Lemma history_inc_ids h qs : NoDup qs -> forall q, inc_ids (omap (fst (register_all (fst (hrun h)) Annotate qs)) q).
Proof.
  intros Hd q. destruct (in_dec Nat.eq_dec q qs) as [Hq|Hq].
  - destruct (register_one (fst (hrun h)) Annotate qs q Hd Hq) as (i & Hi & ->).
    apply inc_snoc; [apply history_inc|]. intros y Hy. cbn. pose proof (history_below h q y Hy). lia.
  - rewrite register_other by assumption. apply history_inc.
Qed.
Lemma call_real h is_stub own qs q o s : NoDup qs -> In q qs -> is_stub q = false ->
  call_quantizer is_stub own (world2 is_stub (fst (hrun h)) qs) q o s = (Ok o, s).
Proof.
  intros Hd Hq Hs. unfold call_quantizer, world2.
  destruct (register_one (world1 is_stub (fst (hrun h)) qs) Disable (filter (fun q => negb (is_stub q)) qs) q) as (i & Hi & Hm).
  { now apply NoDup_filter. }
  { apply filter_In. rewrite Hs. auto. }
  rewrite Hm. rewrite forward_stack.
  - rewrite map_app, map_app, rev_app_distr, app_length, Nat.add_1_r. reflexivity.
  - apply inc_snoc; [apply history_inc_ids; assumption|]. intros y Hy. cbn.
    pose proof (register_below _ Annotate qs (history_below h) q y Hy). unfold world1 in Hi. lia.
Qed.
Lemma call_own h is_stub own own' qs q o s : NoDup qs -> In q qs ->
  call_quantizer is_stub own (world2 is_stub (fst (hrun h)) qs) q o s =
  call_quantizer is_stub own' (world2 is_stub (fst (hrun h)) qs) q o s.
Proof.
  intros Hd Hq. destruct (is_stub q) eqn:Hs.
  - unfold call_quantizer, quantize. now rewrite Hs.
  - now rewrite !call_real.
Qed.
Lemma run_own is_stub own own' w env s es :
  (forall q, calls es q -> forall o s, call_quantizer is_stub own w q o s = call_quantizer is_stub own' w q o s) ->
  run is_stub own w env s es = run is_stub own' w env s es.
Proof.
  revert env s. induction es as [|e es IH]; intros env s H; cbn [run]; [reflexivity|].
  assert (Hd : do_step is_stub own w env s e = do_step is_stub own' w env s e).
  { destruct e as [f args outs|q x]; cbn [do_step]; [reflexivity|].
    destruct (nth_error env x) as [o|]; [|reflexivity]. rewrite (H q); [reflexivity|]. exists x. now left. }
  rewrite Hd. destruct (do_step is_stub own' w env s e) as [[l|x] s']; [|reflexivity].
  apply IH. intros q (x & Hx). apply H. exists x. now right.
Qed.
Lemma never_quantizes h is_stub own own' ms b qs n es : NoDup qs -> (forall q, calls es q -> In q qs) ->
  annotate is_stub own (fst (hrun h)) ms b qs n es = annotate is_stub own' (fst (hrun h)) ms b qs n es.
Proof.
  intros Hd Hc. rewrite !annotate_eq.
  rewrite (run_own is_stub own own'); [reflexivity|]. intros q Hq o s. apply call_own; auto.
Qed.

(** Tags move only to stubs, and are never removed. *)
Section Safe.
  Variables (is_stub : nat -> bool) (own : nat -> nat -> st -> result nat * st) (w : oworld ov).
  Definition calls_ok (q : nat) : Prop :=
    (is_stub q = true /\ exists i, omap w q = [(i, Annotate)]) \/
    (is_stub q = false /\ forall o s, call_quantizer is_stub own w q o s = (Ok o, s)).
  Definition only_stubs (s : st) : Prop := forall pf q, In (Trace pf (Some q)) (objs s) -> is_stub q = true.
  Definition grows (s s' : st) : Prop := forall q,
    (is_stub q = false -> metas s' q = metas s q) /\
    (metas s q = None -> metas s' q = None) /\
    (forall ts, metas s q = Some ts -> exists ts', metas s' q = Some ts' /\ incl ts ts').
  Lemma grows_refl s : grows s s.
  Proof using. intros q. repeat split; auto. intros ts H. exists ts. split; [assumption|apply incl_refl]. Qed.
  Lemma grows_trans a b c : grows a b -> grows b c -> grows a c.
  Proof using.
    intros H1 H2 q. destruct (H1 q) as (A1 & B1 & C1). destruct (H2 q) as (A2 & B2 & C2). repeat split.
    - intros H. now rewrite A2, A1.
    - auto.
    - intros ts H. destruct (C1 ts H) as (ts1 & M1 & I1). destruct (C2 ts1 M1) as (ts2 & M2 & I2).
      exists ts2. split; [assumption|]. now apply incl_tran with ts1.
  Qed.
  Lemma grows_metas s s' : metas s' = metas s -> grows s s'.
  Proof using. intros H q. rewrite H. exact (grows_refl s q). Qed.
  Lemma grows_tag s q t : is_stub q = true -> grows s (tag s q t).
  Proof using.
    intros Hs p. rewrite tag_metas. destruct (Nat.eqb_spec p q) as [->|Hn].
    - repeat split; [intros H; congruence|intros ->; reflexivity|]. intros ts ->. cbn. eexists. split; [reflexivity|].
      intros u Hu. apply in_or_app. now right.
    - repeat split; auto. intros ts H. exists ts. split; [assumption|apply incl_refl].
  Qed.
  Lemma grows_inputs f args s : only_stubs s -> grows s (fold_left (annotate_input f) args s).
  Proof using.
    revert s. induction args as [|a args IH]; intros s Ho; cbn [fold_left]; [apply grows_refl|].
    assert (H : grows s (annotate_input f s a) /\ objs (annotate_input f s a) = objs s).
    { unfold annotate_input. destruct (nth_error (objs s) a) as [[|pf [q|]]|] eqn:E; try (split; [apply grows_refl|reflexivity]).
      split; [|reflexivity]. apply grows_tag. apply (Ho pf). eapply nth_error_In; eauto. }
    destruct H as [H1 H2]. eapply grows_trans; [exact H1|]. apply IH. intros pf q. rewrite H2. apply Ho.
  Qed.
  Lemma in_set_obj x y n l : In y (set_obj n x l) -> y = x \/ In y l.
  Proof using.
    clear. revert n. induction l as [|z l IH]; intros [|n]; cbn [set_obj In]; [tauto|tauto|intros [->|H]; auto|].
    intros [->|H]; [auto|]. destruct (IH n H); auto.
  Qed.
  Lemma outputs_ok one s outs l s' :
    (forall s o a s1, one s o = Ok (a, s1) -> only_stubs s -> only_stubs s1 /\ metas s1 = metas s) ->
    outputs one s outs = Ok (l, s') -> only_stubs s -> only_stubs s' /\ metas s' = metas s.
  Proof using.
    intros H. revert s l s'. induction outs as [|o outs IH]; intros s l s'; cbn [outputs].
    - intros [= <- <-]. auto.
    - destruct (one s o) as [[a s1]|] eqn:E1; [|discriminate]. cbn [rbind].
      destruct (outputs one s1 outs) as [[l2 s2]|] eqn:E2; [|discriminate]. cbn [rbind]. intros [= <- <-] Ho.
      destruct (H _ _ _ _ E1 Ho) as [Ho1 Hm1]. destruct (IH _ _ _ E2 Ho1) as [Ho2 Hm2]. split; [assumption|congruence].
  Qed.
  Lemma new_ok s x : only_stubs s -> (forall pf q, x = Trace pf (Some q) -> is_stub q = true) -> only_stubs (snd (new_obj s x)).
  Proof using. intros Ho Hx pf q. cbn. rewrite in_app_iff. intros [H|[H|[]]]; eauto. Qed.
  Lemma annotate_output_ok f args s o a s1 : annotate_output f s args o = Ok (a, s1) -> only_stubs s ->
    only_stubs s1 /\ metas s1 = metas s.
  Proof using.
    unfold annotate_output. intros H Ho.
    assert (Hnew : only_stubs (snd (new_obj s (Trace (Some f) None)))) by (apply new_ok; [assumption|discriminate]).
    destruct o as [i|]; [|injection H as _ <-; auto].
    destruct (nth_error args i) as [b|]; [|discriminate].
    destruct (nth_error (objs s) b) as [[|pf pq]|] eqn:E; try (injection H as _ <-; auto; fail).
    injection H as _ <-. split; [|reflexivity]. intros pf' q Hin. apply in_set_obj in Hin. destruct Hin as [Hx|Hin].
    - injection Hx as _ <-. apply (Ho pf). eapply nth_error_In; eauto.
    - eauto.
  Qed.
  Lemma plain_output_ok args s o a s1 : plain_output s args o = Ok (a, s1) -> only_stubs s ->
    only_stubs s1 /\ metas s1 = metas s.
  Proof using.
    unfold plain_output. intros H Ho. destruct o as [i|].
    - destruct (nth_error args i); [|discriminate]. injection H as _ <-. auto.
    - injection H as _ <-. split; [|reflexivity]. apply (new_ok s Plain); [assumption|discriminate].
  Qed.
  Lemma step_safe env s e : (forall q x, e = Quantize q x -> calls_ok q) -> only_stubs s ->
    only_stubs (snd (do_step is_stub own w env s e)) /\ grows s (snd (do_step is_stub own w env s e)).
  Proof using.
    intros Hc Ho. destruct e as [f args outs|q x]; cbn [do_step].
    - destruct (values env args) as [os|]; [|split; [assumption|apply grows_refl]]. unfold apply.
      pose proof (grows_inputs f os s Ho) as Hg.
      assert (Ho1 : only_stubs (fold_left (annotate_input f) os s)) by (intros pf q; rewrite inputs_objs; apply Ho).
      destruct (existsb (is_trace s) os).
      + destruct outs as [outs|]; [|split; assumption].
        destruct (outputs _ _ outs) as [[l s2]|] eqn:E; [|split; assumption].
        apply outputs_ok in E; [|intros; eapply annotate_output_ok; eauto|assumption]. destruct E as [E1 E2].
        split; [assumption|]. eapply grows_trans; [exact Hg|]. now apply grows_metas.
      + destruct outs as [outs|]; [|split; [assumption|apply grows_refl]].
        destruct (outputs _ _ outs) as [[l s2]|] eqn:E; [|split; [assumption|apply grows_refl]].
        apply outputs_ok in E; [|intros; eapply plain_output_ok; eauto|assumption]. destruct E as [E1 E2].
        split; [assumption|]. now apply grows_metas.
    - destruct (nth_error env x) as [o|]; [|split; [assumption|apply grows_refl]].
      destruct (Hc q x eq_refl) as [[Hs (i & Hi)]|[Hs Hcall]].
      + rewrite (call_stub is_stub own w q o s i Hs Hi). cbv zeta.
        set (s1 := match nth_error (objs s) o with Some (Trace (Some f) _) => tag s q (after f) | _ => s end).
        assert (H1 : only_stubs s1 /\ grows s s1 /\ objs s1 = objs s).
        { unfold s1. destruct (nth_error (objs s) o) as [[|[f|] pq]|];
            (split; [exact Ho|split; [|reflexivity]]); try apply grows_refl. apply grows_tag; assumption. }
        destruct H1 as (Ho1 & Hg1 & Hobj).
        assert (Hnew : only_stubs (snd (new_obj s1 (Trace None (Some q))))) by (apply new_ok; [assumption|congruence]).
        destruct (nth_error (objs s) o) as [[|pf pq]|]; cbn [snd]; try (split; [exact Hnew|eapply grows_trans; [exact Hg1|now apply grows_metas]]).
        split; [|eapply grows_trans; [exact Hg1|now apply grows_metas]].
        intros pf' q' Hin. apply in_set_obj in Hin. destruct Hin as [[= _ ->]|Hin]; eauto.
      + rewrite Hcall. cbn. split; [assumption|apply grows_refl].
  Qed.
  Lemma run_safe es : forall env s, (forall q, calls es q -> calls_ok q) -> only_stubs s ->
    grows s (snd (run is_stub own w env s es)).
  Proof using.
    induction es as [|e es IH]; intros env s Hc Ho; cbn [run]; [apply grows_refl|].
    destruct (step_safe env s e) as [H1 H2]; [|assumption|].
    { intros q x ->. apply Hc. exists x. now left. }
    destruct (do_step is_stub own w env s e) as [[l|x] s']; cbn [snd] in *; [|assumption].
    eapply grows_trans; [exact H2|]. apply IH; [|assumption]. intros q (x & Hx). apply Hc. exists x. now right.
  Qed.
End Safe.

Lemma world2_stub h is_stub qs q : NoDup qs -> In q qs -> is_stub q = true -> omap (fst (hrun h)) q = [] ->
  exists i, omap (world2 is_stub (fst (hrun h)) qs) q = [(i, Annotate)].
Proof.
  intros Hd Hq Hs H0. unfold world2. rewrite register_other.
  - destruct (register_one (fst (hrun h)) Annotate qs q Hd Hq) as (i & _ & Hm). exists i. unfold world1. rewrite Hm, H0. reflexivity.
  - intros Hc. apply filter_In in Hc. rewrite Hs in Hc. destruct Hc. discriminate.
Qed.
Lemma tags_grow h is_stub own ms b qs n es r w' s' :
  annotate is_stub own (fst (hrun h)) ms b qs n es = (r, w', s') -> NoDup qs ->
  (forall q, calls es q -> In q qs /\ (is_stub q = true -> omap (fst (hrun h)) q = [])) ->
  forall q, (is_stub q = false -> metas s' q = ms q) /\ (metas s' q = None <-> ms q = None) /\
    (forall ts, ms q = Some ts -> exists ts', metas s' q = Some ts' /\ incl ts ts').
Proof.
  rewrite annotate_eq. cbv zeta. intros [= <- <- <-] Hd Hc q.
  set (s0 := mkSt (Trace None None :: repeat Plain n) ms false).
  pose proof (run_safe is_stub own (world2 is_stub (fst (hrun h)) qs) es (seq 0 (S n)) s0) as H.
  destruct (H) with (q := q) as (A & B & C).
  - intros p Hp. destruct (Hc p Hp) as [Hin Hempty]. destruct (is_stub p) eqn:Es; [left|right]; split; auto.
    + apply world2_stub; auto.
    + intros o s. now apply call_real.
  - intros pf p [Hx|Hx]; [discriminate|]. apply repeat_spec in Hx. discriminate.
  - repeat split.
    + exact A.
    + intros Hn. destruct (ms q) as [ts|] eqn:Em; [|reflexivity]. destruct (C ts Em) as (ts' & Hts' & _).
      pose proof (eq_trans (eq_sym Hn) Hts') as Hx. discriminate Hx.
    + exact B.
    + exact C.
Qed.

Lemma tags_exact h is_stub own ms b qs n es r w' s' :
  annotate is_stub own (fst (hrun h)) ms b qs n es = (r, w', s') -> NoDup qs ->
  (forall q, calls es q -> In q qs /\ is_stub q = true /\ omap (fst (hrun h)) q = []) ->
  no_aliases es -> quantized_once n es -> in_scope n es ->
  (forall pre f args e post, es = pre ++ Apply f args (Err e) :: post -> post = []) ->
  operands_traced n es ->
  forall q ts, ms q = Some ts -> exists ts', metas s' q = Some ts' /\
    forall t, In t ts' <-> In t ts \/ (exists f, follows n es q f /\ implied (before f) t)
                                  \/ (exists f, precedes n es q f /\ implied (after f) t).
Proof.
  rewrite annotate_eq. cbv zeta. intros [= <- <- <-] Hd Hc Hf Ho Hs Hr Ht q ts Hq.
  set (s0 := mkSt (Trace None None :: repeat Plain n) ms false).
  assert (H : tags_ok n es ms es (snd (run is_stub own (world2 is_stub (fst (hrun h)) qs) (seq 0 (S n)) s0 es))).
  { apply (run_inv is_stub own (world2 is_stub (fst (hrun h)) qs) n es ms) with (done := []); auto.
    - intros p Hp. destruct (Hc p Hp) as (H1 & H2 & H3). split; [assumption|]. now apply world2_stub.
    - now apply inv_start.
    - now apply tags_start. }
  destruct (H q ts Hq) as (ts' & Hm & Hin). exists ts'. split; [exact Hm|]. intros t. rewrite Hin.
  apply or_iff_compat_l. split.
  - intros [(f & v & x & H1 & H2 & H3)|(f & v & x & args & H1 & H2 & H3 & H4)].
    + left. exists f. split; [|assumption]. exists v, x. auto.
    + right. exists f. split; [|assumption]. exists v, x, args. auto.
  - intros [(f & (v & x & H1 & H2) & H3)|(f & (v & x & args & H1 & H2) & H3)].
    + left. exists f, v, x. auto.
    + right. exists f, v, x, args. repeat split; auto. destruct (Ht v q x f args H1 H2) as (a & Ha & Hta).
      eapply traced_made; eauto.
Qed.
