(** What saving and loading refuse. *)
From Coq Require Import String Ascii QArith.
From Verif Require Import Prelude GgufModel GgufExportProofs SaveModel SaveSpec SaveProofs SaveQuantProofs SaveLoadProofs SavePolicyProofs.
Local Open Scope nat_scope.
Local Open Scope list_scope.

Lemma expand_dangling {V} (tensors : list (string * V)) aliases n r :
  In (n, r) aliases -> ~ In r (map fst tensors) -> expand_shared_tensors tensors aliases = Err RuntimeError.
Proof.
  intros I N. unfold expand_shared_tensors. generalize tensors at 2 as acc.
  assert (E : forall l, fold_left (expand_step tensors) l (Err RuntimeError) = Err RuntimeError)
    by (induction l; [reflexivity|exact IHl]).
  induction aliases as [|[n' r'] l IH]; intros acc; [contradiction|]. cbn [fold_left].
  unfold expand_step at 2. cbn [rbind fst snd]. destruct I as [[= -> ->]|I].
  - rewrite (proj2 (assoc_none r tensors) N). apply E.
  - destruct (assoc_str r' tensors); [|apply E]. apply IH, I.
Qed.

Lemma file_not_empty {C} (w : world C) name allow f :
  write_quantizer_state w name allow = Ok f -> f_state f <> [] \/ f_meta f <> [].
Proof.
  unfold write_quantizer_state. destruct (fold_left _ _ _) as [[st m]|x]; [|discriminate]. cbn [rbind].
  intros [= <-]. cbn. destruct st; [|left; discriminate]. right. destruct m; discriminate.
Qed.

(** ** Attaching *)

Lemma attach_inv pol names base l : forall at_ at', attach pol names base at_ l = (at', Ok tt) ->
  forall n i, In (n, i) l -> exists c, assoc_str n names = Some c /\ at_ c <> NotQuantizer.
Proof.
  induction l as [|[n i] l IH]; intros at_ at' H n' i' I; [contradiction|]. cbn [attach] in H.
  destruct (attach_step pol names base at_ (n, i)) as [at1|x] eqn:E; [|discriminate].
  unfold attach_step in E. cbn [fst snd] in E. destruct (assoc_str n names) as [c|] eqn:Ec; [|discriminate].
  assert (Hc : at_ c <> NotQuantizer) by (intros E'; rewrite E' in E; discriminate).
  assert (H1 : forall c', at1 c' <> NotQuantizer -> at_ c' <> NotQuantizer).
  { intros c' Hn He. apply Hn. destruct (cell_eqb c' c) eqn:Ecc; [apply cell_eqb_spec in Ecc; congruence|].
    destruct (at_ c); [|destruct pol|congruence]; try discriminate E; injection E as <-; try rewrite Ecc; exact He. }
  destruct I as [[= <- <-]|I]; [eauto|]. destruct (IH _ _ H n' i' I) as (c' & E2 & P). eauto.
Qed.

Lemma load_names {C} cast (rebuild : C -> list (string * slot)) pol allow expected f base (w w2 : world C) :
  load_quantizer_state cast rebuild pol allow expected f base w = (w2, Ok tt) -> NoDup (map fst (w_names w)) ->
  forall n i, In (n, i) (f_config f) ->
  exists c, In (n, c) (w_names w) /\ w_at w c <> NotQuantizer.
Proof.
  unfold load_quantizer_state. intros H N n i I.
  destruct (match expected with Some n => negb (String.eqb (f_name f) n) | None => false end); [discriminate|].
  destruct (fold_left _ _ _) as [objs|x]; [|discriminate].
  destruct (attach pol (w_names w) base (w_at w) (f_config f)) as [a r] eqn:E. injection H as _ ->.
  destruct (attach_inv _ _ _ _ _ _ E n i I) as (c & Hc & Hn). exists c. split; [now apply assoc_some_in|exact Hn].
Qed.

(** ** Parameter names *)

Lemma slots_names cast sd : forall ps ps', rmapM (load_slot cast sd) ps = Ok ps' -> map fst ps' = map fst ps.
Proof.
  induction ps as [|[p s] ps IH]; intros ps' H; cbn [rmapM] in H; [now injection H as <-|].
  destruct (load_slot cast sd (p, s)) as [x|] eqn:E; [|discriminate]. cbn [rbind] in H.
  destruct (rmapM (load_slot cast sd) ps) as [y|] eqn:Ey; [|discriminate]. injection H as <-. cbn [map].
  rewrite (IH y eq_refl). f_equal. unfold load_slot in E. cbn [fst snd] in E.
  destruct (assoc_str p sd); [|now injection E as <-]. destruct s; [now injection E as <-|].
  destruct (size_eqb _ _); [now injection E as <-|discriminate].
Qed.

Lemma rmapM_fst {A B D} (f : A * B -> result D) : forall (l : list (A * B)) r,
  rmapM (fun e => let? t := f e in Ok (fst e, t)) l = Ok r -> map fst r = map fst l.
Proof.
  induction l as [|e l IH]; intros r H; cbn [rmapM] in H; [now injection H as <-|].
  destruct (f e); [|discriminate]. cbn [rbind] in H.
  destruct (rmapM _ l) as [y|]; [|discriminate]. injection H as <-. cbn. now rewrite (IH y eq_refl).
Qed.

Lemma upd_keys {V} (l : list (string * V)) : forall d k, In k (map fst (upd d l)) <-> In k (map fst d) \/ In k (map fst l).
Proof.
  unfold upd. induction l as [|[k' v] l IH]; intros d k; cbn [fold_left]; [cbn; tauto|].
  rewrite IH, dict_set_keys. cbn. intuition.
Qed.

(** A step that succeeds: the parameter names of the object are those in the metadata. *)
Lemma load_step_inv {C} cast (f : saved C) allow objs n i objs' first (q : qobj C) :
  load_step cast f allow objs (n, i) = Ok objs' -> plain first -> describable q ->
  assoc_str n (f_meta f) = Some (meta_string first (q_params q)) ->
  exists ps ps', nth_error objs i = Some ps /\ objs' = set_nth objs i ps' /\ map fst ps' = map fst ps /\
    (forall p, In p (map fst ps) -> In p (map fst (q_params q))) /\
    (forall p t, In (p, Init t) (q_params q) -> In p (map fst ps)) /\ (allow = true \/ lazy_free q).
Proof.
  intros H Pf (Q1 & Q2 & Q3) Hm. unfold load_step in H. cbn [fst snd] in H.
  unfold get_item at 1 in H. rewrite Hm in H. cbn [rbind] in H.
  rewrite meta_parsed in H by (auto; intros p I; apply Q3, I). cbn [rbind] in H.
  rewrite !filter_map_comm, map_map in H. cbn [fst snd] in H.
  set (qs := q_params q) in *.
  set (keys := fold_left _ _ _) in H.
  assert (Ek : forall p, In p (map fst keys) <-> In p (map fst (filter (fun a => negb (is_lazy (snd a))) qs))).
  { intros p. unfold keys.
    set (l := filter (fun a : string * slot => negb (is_lazy (snd a))) qs).
    replace (fold_left _ _ _) with (upd [] (map (fun p : string * slot => (fst p, dotted first (fst p))) l)).
    - rewrite upd_keys, map_map. cbn. tauto.
    - unfold upd. generalize (@nil (string * string)). clear. induction l as [|a l IH]; intros d; [reflexivity|]. cbn. apply IH. }
  destruct (rmapM _ keys) as [sd|] eqn:Es; [|discriminate]. cbn [rbind] in H.
  apply (rmapM_fst (fun e => get_item (f_state f) (snd e))) in Es.
  destruct (nth_error objs i) as [ps|] eqn:Ho; [|discriminate].
  unfold load_state_dict in H. destruct (rmapM (load_slot cast sd) ps) as [ps'|] eqn:El; [|discriminate].
  cbn [rbind] in H. exists ps, ps'. split; [reflexivity|]. apply slots_names in El.
  change (fun x : string * slot => fst (fst (fst x, dotted first (fst x), is_lazy (snd x)))) with (fun x : string * slot => fst x) in H.
  set (lazies := map (fun x : string * slot => fst x) (filter (fun a => is_lazy (snd a)) qs)) in H.
  assert (L : allow = true \/ lazies = []).
  { destruct lazies; [auto|]. destruct allow; [auto|discriminate]. }
  assert (H' : (match filter (fun k => negb (mem_str k lazies)) (filter (fun k => negb (mem_str k (map fst sd))) (map fst ps)) ++
                  filter (fun k => negb (mem_str k (map fst ps))) (map fst sd) with
                | [] => Ok (set_nth objs i ps') | _ :: _ => Err RuntimeError end) = Ok objs').
  { destruct L as [->|E]; [destruct lazies; exact H|]. rewrite E in *. exact H. }
  clear H. destruct (filter (fun k => negb (mem_str k lazies)) _ ++ _) eqn:Ef; [|discriminate].
  apply app_eq_nil in Ef as [E1 E2]. rewrite filter_nil in E1, E2.
  split; [now injection H' as <-|]. split; [exact El|]. split.
  - intros p Ip. destruct (in_dec string_dec p (map fst sd)) as [J|J].
    + rewrite Es in J. apply Ek in J. apply in_map_iff in J as (e & <- & J). apply filter_In in J as [J _]. now apply in_map.
    + assert (M : mem_str p lazies = true).
      { apply negb_false_iff. apply E1, filter_In. split; [exact Ip|]. now apply negb_true_iff, mem_false. }
      apply mem_spec in M. unfold lazies in M. apply in_map_iff in M as (e & <- & M). apply filter_In in M as [M _]. now apply in_map.
  - split.
    + intros p t Ip. assert (J : In p (map fst sd)).
      { rewrite Es. apply Ek. apply in_map_iff. exists (p, Init t). split; [reflexivity|]. apply filter_In. auto. }
      specialize (E2 p J). now apply negb_false_iff, mem_spec in E2.
    + destruct L as [->|L]; [auto|]. right. intros p s Ip. destruct s as [d|t]; [|eauto]. exfalso.
      assert (In p lazies); [|rewrite L in *; contradiction].
      unfold lazies. apply in_map_iff. exists (p, Uninit d). split; [reflexivity|]. apply filter_In. auto.
Qed.

(** The loop: the names of every object used stay those it was rebuilt with. *)
Lemma load_loop_inv {C} cast (f : saved C) allow (firsts : nat -> string) (qs : list (qobj C)) :
  (forall i q, nth_error qs i = Some q -> plain (firsts i) /\ describable q) ->
  forall l objs objs',
  (forall n i, In (n, i) l -> exists q, nth_error qs i = Some q /\ assoc_str n (f_meta f) = Some (meta_string (firsts i) (q_params q))) ->
  fold_left (fun acc e => let? o := acc in load_step cast f allow o e) l (Ok objs) = Ok objs' ->
  forall n i, In (n, i) l -> exists q ps, nth_error qs i = Some q /\ nth_error objs i = Some ps /\
    (forall p, In p (map fst ps) -> In p (map fst (q_params q))) /\
    (forall p t, In (p, Init t) (q_params q) -> In p (map fst ps)) /\ (allow = true \/ lazy_free q).
Proof.
  intros HQ. assert (Er : forall l x, fold_left (fun (acc : result (list (list (string * slot)))) e => let? o := acc in load_step cast f allow o e) l (Err x) = Err x)
    by (induction l; intros x; [reflexivity|apply IHl]).
  induction l as [|[n i] l IH]; intros objs objs' HL H n' i' I; [contradiction|].
  cbn [fold_left] in H. cbn [rbind] in H.
  destruct (load_step cast f allow objs (n, i)) as [o1|x] eqn:E; [|rewrite Er in H; discriminate].
  destruct (HL n i (or_introl eq_refl)) as (q & Hq & Hm). destruct (HQ i q Hq) as [H1 H2].
  destruct (load_step_inv cast f allow objs n i o1 (firsts i) q E H1 H2 Hm) as (ps & ps' & A1 & A2 & A3 & A4 & A5 & A6).
  destruct I as [[= <- <-]|I]; [exists q, ps; auto 6|].
  destruct (IH o1 objs' (fun a b J => HL a b (or_intror J)) H n' i' I) as (q' & ps2 & B1 & B2 & B3 & B4 & B5).
  exists q'. destruct (Nat.eq_dec i' i) as [->|Ni].
  - assert (Li : i < length objs) by (apply nth_error_Some; congruence).
    destruct (set_nth_spec objs i ps' Li) as (_ & S2 & _). subst o1.
    exists ps. assert (ps2 = ps') by congruence. subst ps2. rewrite A3 in *. auto 6.
  - assert (Li : i < length objs) by (apply nth_error_Some; congruence).
    destruct (set_nth_spec objs i ps' Li) as (_ & _ & S3). subst o1. rewrite S3 in B2 by exact Ni. exists ps2. auto 6.
Qed.

(** Loading a written state succeeds only if the rebuilt quantizers have the saved parameters, and
    lazy parameters are allowed if there are any. *)
Theorem load_checks {C} cast (rebuild : C -> list (string * slot)) (w : world C) allow_save allow name expected pol base f w' w'' :
  NoDup (map fst (w_names w)) ->
  (forall n q, quantizer_at w n q -> plain n /\ describable (w_store w q)) ->
  write_quantizer_state w name allow_save = Ok f ->
  load_quantizer_state cast rebuild pol allow expected f base w' = (w'', Ok tt) ->
  forall n q, quantizer_at w n q ->
    (forall p, In p (map fst (rebuild (q_config (w_store w q)))) -> In p (map fst (q_params (w_store w q)))) /\
    (forall p t, In (p, Init t) (q_params (w_store w q)) -> In p (map fst (rebuild (q_config (w_store w q))))) /\
    (allow = true \/ lazy_free (w_store w q)).
Proof.
  intros N H W L.
  assert (HQ : forall n q, quantizer_at w n q -> plain n /\ describable (w_store w q) /\ (allow_save = true \/ lazy_free (w_store w q))).
  { intros n q A. destruct (H n q A) as [H1 H2]. split; [exact H1|]. split; [exact H2|].
    destruct allow_save; [auto|]. right. intros p s I. destruct s as [d|t]; [|eauto].
    rewrite (lazy_rejected w name n q p d A I) in W. discriminate. }
  destruct (written w allow_save N HQ name) as (f' & Ef & F1 & F2 & F3 & F4 & F5).
  assert (f' = f) by congruence. subst f'.
  set (gs := quantizer_groups (named_quantizers w)) in *. pose proof (qgroups_spec (named_quantizers w) : qgroups_ok gs _) as G.
  unfold load_quantizer_state in L.
  destruct (match expected with Some n => negb (String.eqb (f_name f) n) | None => false end); [discriminate|].
  destruct (fold_left _ _ _) as [objs|x] eqn:E; [|discriminate]. clear L.
  set (firsts := fun i => match nth_error gs i with Some (_, ns) => first_of ns | None => EmptyString end).
  intros n q A. pose proof (proj2 (named_in w n q) A) as I. destruct (qg_all _ _ G _ _ I) as (ns & Ig).
  destruct (In_nth_error _ _ Ig) as (i & Hi). assert (Hn : In n ns) by now apply (group_names w q ns n Ig).
  assert (Ic : In (n, i) (config_of w)) by (apply (config_in w allow_save HQ); eauto).
  destruct (load_loop_inv cast f allow firsts (map (fun g => w_store w (fst g)) gs)) with (l := config_of w)
    (objs := map rebuild (f_objs f)) (objs' := objs) (n := n) (i := i) as (q0 & ps & B1 & B2 & B3 & B4 & B5).
  - intros j q0 Hj. rewrite nth_error_map in Hj. unfold firsts. destruct (nth_error gs j) as [[r rs]|] eqn:Ej; [|discriminate].
    cbn in Hj. injection Hj as <-. apply nth_error_In in Ej.
    pose proof (proj1 (group_names w r rs _ Ej) (first_in w r rs Ej)) as Ar. destruct (H _ _ Ar). auto.
  - intros m j J. apply (config_in w allow_save HQ) in J as (r & rs & Hj & J). exists (w_store w r). fold gs in Hj.
    split; [rewrite nth_error_map, Hj; reflexivity|]. unfold firsts. rewrite Hj, F5 by (intros Eg; rewrite Eg in Hj; destruct j; discriminate).
    apply (meta_lookup w N r rs m); [eapply nth_error_In; exact Hj|exact J].
  - rewrite F2 in E. exact E.
  - exact Ic.
  - rewrite nth_error_map, Hi in B1. cbn in B1. injection B1 as <-.
    rewrite F3, map_map, nth_error_map, Hi in B2. cbn in B2. injection B2 as <-. auto.
Qed.
