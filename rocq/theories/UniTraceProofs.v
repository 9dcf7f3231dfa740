(** Proofs about what tracing leaves behind. *)
From Coq Require Import String Ascii Permutation.
From Verif Require Import Prelude UniModel UniSpec UniProofs.
Local Open Scope nat_scope.
Local Open Scope list_scope.

Lemma key_unique (l : table) k v v' : NoDup (map fst l) -> In (k, v) l -> In (k, v') l -> v = v'.
Proof.
  induction l as [|[k0 v0] l IH]; cbn; intros N H H'; [destruct H|]. inversion N as [|? ? Nk N']; subst.
  destruct H as [H|H], H' as [H'|H']; [congruence| | |now apply IH].
  - injection H as -> ->. exfalso. apply Nk. now apply (in_map fst) in H'.
  - injection H' as -> ->. exfalso. apply Nk. now apply (in_map fst) in H.
Qed.
Lemma turns_in l e : In e (turns l) -> In e l /\ uninitialised e = true.
Proof.
  unfold turns. rewrite in_map_iff. intros ([k t] & <- & H). apply filter_In in H as [H U]. cbn in *. split; [now apply members_in in H|exact U].
Qed.
Lemma stays_false l e : stays l e = false <-> exists x, In x (turns l) /\ fst x = fst e.
Proof.
  unfold stays. rewrite negb_false_iff, existsb_exists. split; intros (x & Hx & E); exists x; (split; [exact Hx|]); [now apply String.eqb_eq|now apply String.eqb_eq].
Qed.
Lemma after_same l : NoDup (map fst l) -> same_entries l (filter (stays l) l ++ turns l).
Proof.
  intros N e. rewrite in_app_iff, filter_In. split.
  - intros H. destruct (stays l e) eqn:E; [left; now split|]. right. apply stays_false in E as (x & Hx & E). destruct (turns_in l x Hx) as [Hl _].
    destruct x as [k v], e as [k' v']. cbn in E. subst k'. now rewrite (key_unique l k v' v N H Hl).
  - intros [[H _]|H]; [exact H|now apply turns_in].
Qed.
Lemma members_all l : NoDup (map fst l) -> one_name l -> forall seen, (forall k t, In (k, Some t) l -> t_uninit t = true -> ~ In (t_id t) seen) ->
  map (fun e => (fst e, Some (snd e))) (filter (fun e => t_uninit (snd e)) (members seen l)) = filter uninitialised l.
Proof.
  induction l as [|[k [t|]] l IH]; intros N O seen H; cbn [members]; [reflexivity| |].
  - inversion N as [|? ? Nk N']; subst. assert (O' : one_name l) by (intros a b x y Ha Hb; apply O; now right).
    cbn [filter]. unfold uninitialised at 1. cbn [snd]. destruct (existsb (Nat.eqb (t_id t)) seen) eqn:Es.
    + destruct (t_uninit t) eqn:U.
      * exfalso. apply (H k t (or_introl eq_refl) U). apply existsb_exists in Es as (x & Hx & Ex). apply Nat.eqb_eq in Ex. now subst.
      * apply IH; [exact N'|exact O'|]. intros k' t' H' U'. now apply (H k' t' (or_intror H')).
    + cbn [filter snd]. assert (H2 : forall k' t', In (k', Some t') l -> t_uninit t' = true -> ~ In (t_id t') (t_id t :: seen)).
      { intros k' t' H' U' [Ei|Hs]; [|exact (H k' t' (or_intror H') U' Hs)].
        assert (Ek : k' = k) by (apply (O k' k t' t (or_intror H') (or_introl eq_refl)); [now symmetry|exact U']). subst k'.
        apply Nk. now apply (in_map fst) in H'. }
      destruct (t_uninit t); cbn [map fst snd]; [f_equal|]; now apply IH.
  - inversion N as [|? ? Nk N']; subst. cbn [filter uninitialised snd]. apply IH; [exact N'|intros a b x y Ha Hb; apply O; now right|].
    intros k' t' H' U'. now apply (H k' t' (or_intror H')).
Qed.
Lemma turns_all l : NoDup (map fst l) -> one_name l -> turns l = filter uninitialised l.
Proof. intros N O. unfold turns. apply (members_all l N O []). intros k t _ _ []. Qed.
Lemma stays_all l : NoDup (map fst l) -> one_name l -> forall e, In e l -> stays l e = negb (uninitialised e).
Proof.
  intros N O e He. destruct (uninitialised e) eqn:U; cbn.
  - apply stays_false. exists e. split; [|reflexivity]. rewrite (turns_all l N O). now apply filter_In.
  - destruct (stays l e) eqn:E; [reflexivity|]. apply stays_false in E as (x & Hx & E). destruct (turns_in l x Hx) as [Hl Ux].
    destruct x as [k v], e as [k' v']. cbn in E. subst k'. rewrite (key_unique l k v' v N He Hl) in U. congruence.
Qed.
Lemma stays_filter l : NoDup (map fst l) -> one_name l -> filter (stays l) l = filter (fun e => negb (uninitialised e)) l.
Proof.
  intros N O. pose proof (stays_all l N O) as H. revert H. generalize (stays l) as f. intros f H. clear N O. induction l as [|e l IH]; cbn; [reflexivity|].
  rewrite (H e (or_introl eq_refl)). rewrite IH; [reflexivity|]. intros x Hx. apply H. now right.
Qed.
Lemma after_moved l : NoDup (map fst l) -> one_name l -> filter (stays l) l ++ turns l = moved l.
Proof. intros N O. unfold moved. now rewrite (stays_filter l N O), (turns_all l N O). Qed.
Lemma moved_last l : last_ones l -> moved l = l.
Proof.
  intros (l1 & l2 & -> & H1 & H2). unfold moved. rewrite !filter_app.
  assert (A : forall f (l : table), (forall e, In e l -> f e = true) -> filter f l = l).
  { intros f l. induction l as [|e l IH]; intros H; cbn; [reflexivity|]. rewrite (H e (or_introl eq_refl)). f_equal. apply IH. intros x Hx. apply H. now right. }
  assert (B : forall f (l : table), (forall e, In e l -> f e = false) -> filter f l = []).
  { intros f l. induction l as [|e l IH]; intros H; cbn; [reflexivity|]. rewrite (H e (or_introl eq_refl)). apply IH. intros x Hx. apply H. now right. }
  rewrite (A _ l1), (B _ l2), (B _ l1), (A _ l2); [now rewrite app_nil_r|exact H2|exact H1|intros e He; now rewrite (H2 e He)|intros e He; now rewrite (H1 e He)].
Qed.
Lemma shadows_keys a b : shadows a b -> map fst b = map fst a.
Proof. induction 1 as [|x y a b [E _] S IH]; cbn; [reflexivity|]. now rewrite E, IH. Qed.
Lemma shadows_init a b e : shadows a b -> In e b -> uninitialised e = false.
Proof. induction 1 as [|x y a b [_ (t & E & U)] S IH]; intros []; [subst; unfold uninitialised; now rewrite E|now apply IH]. Qed.
Lemma during_stands l b : NoDup (map fst l) -> shadows (turns l) b -> stands_for l (filter (stays l) l ++ b).
Proof.
  intros N S. split.
  - intros k. rewrite map_app, (shadows_keys _ _ S), <- map_app. split; intros H; apply in_map_iff in H as (e & <- & H); apply in_map; now apply (after_same l N).
  - intros e U H. apply in_app_iff. left. apply filter_In. split; [exact H|]. destruct (stays l e) eqn:E; [reflexivity|].
    apply stays_false in E as (x & Hx & E). destruct (turns_in l x Hx) as [Hl Ux]. destruct x as [k v], e as [k' v']. cbn in E. subst k'.
    rewrite (key_unique l k v' v N H Hl) in U. congruence.
Qed.
Lemma during_init l b : NoDup (map fst l) -> one_name l -> shadows (turns l) b -> forall e, In e (filter (stays l) l ++ b) -> uninitialised e = false.
Proof.
  intros N O S e H. apply in_app_iff in H as [H|H]; [|now apply (shadows_init _ _ e S)]. rewrite (stays_filter l N O) in H. apply filter_In in H as [_ H]. now destruct (uninitialised e).
Qed.

Section Traced.
  Context {E G : Type} (capture : bool -> heap -> nat -> result E * (heap * nat)) (build : E -> result G) (m : nat) (ms : list nat) (s s' : tstate G) (r : result G).
  Hypothesis Hms : NoDup ms.
  Hypothesis Hok : forall x, In x ms -> module_ok (s_heap s x).
  Hypothesis Hleave : leaves_modules (capture false).
  Hypothesis Htrace : trace capture build m ms s = (r, s').

  Lemma trace_cached g : cached m (s_cache s) = Some g -> r = Ok g /\ s' = s.
  Proof using Htrace. intros C. unfold trace in Htrace. rewrite C in Htrace. now injection Htrace as <- <-. Qed.
  Lemma trace_run : cached m (s_cache s) = None -> exists w1 n1 w' n',
    with_placeholders ms (capture false) (s_heap s) (s_next s) = (fst (capture false w1 n1), (w', n')) /\ r = rbind (fst (capture false w1 n1)) build /\ s_heap s' = w' /\
    (forall x, ~ In x ms -> w1 x = s_heap s x /\ w' x = s_heap s x) /\
    forall x, In x ms ->
      (exists bp bb, shadows (turns (u_params (s_heap s x))) bp /\ shadows (turns (u_buffers (s_heap s x))) bb /\
        u_params (w1 x) = filter (stays (u_params (s_heap s x))) (u_params (s_heap s x)) ++ bp /\
        u_buffers (w1 x) = filter (stays (u_buffers (s_heap s x))) (u_buffers (s_heap s x)) ++ bb) /\
      u_params (w' x) = filter (stays (u_params (s_heap s x))) (u_params (s_heap s x)) ++ turns (u_params (s_heap s x)) /\
      u_buffers (w' x) = filter (stays (u_buffers (s_heap s x))) (u_buffers (s_heap s x)) ++ turns (u_buffers (s_heap s x)) /\
      u_other (w1 x) = u_other (s_heap s x) /\ u_other (w' x) = u_other (s_heap s x) /\
      (forall k, In k (u_transient (w' x)) <-> In k (u_transient (s_heap s x)) /\ ~ In k (map fst (turns (u_buffers (s_heap s x))))).
  Proof using Htrace Hms Hok Hleave.
    intros C. destruct (placeholders_run E ms (capture false) (s_heap s) (s_next s) Hms Hok Hleave) as (w1 & n1 & w' & n' & Ew & H1 & H2).
    exists w1, n1, w', n'. unfold trace in Htrace. rewrite C, Ew in Htrace. split; [exact Ew|].
    destruct (rbind (fst (capture false w1 n1)) build); injection Htrace as <- <-; cbn; now repeat split; try (intros; now apply H1); try (intros; now apply H2).
  Qed.

  Theorem trace_restored : (forall x, In x ms -> same_tensors (s_heap s x) (s_heap s' x)) /\ (forall x, ~ In x ms -> s_heap s' x = s_heap s x) /\ s_strict s' = s_strict s.
  Proof using Htrace Hms Hok Hleave.
    assert (St : s_strict s' = s_strict s).
    { unfold trace in Htrace. destruct (cached m (s_cache s)); [now injection Htrace as _ <-|]. destruct (with_placeholders _ _ _ _) as [x [w n]]. destruct (rbind x build); now injection Htrace as _ <-. }
    destruct (cached m (s_cache s)) as [g|] eqn:C.
    - destruct (trace_cached g C) as [_ ->]. split; [|now split]. intros x Hx. now repeat split.
    - destruct (trace_run C) as (w1 & n1 & w' & n' & _ & _ & -> & H1 & H2). split; [|split; [intros x Hx; now apply H1|exact St]].
      intros x Hx. destruct (H2 x Hx) as (_ & P & B & _ & O & _). split; [rewrite P; apply after_same; now apply ok_params, Hok|]. split; [rewrite B; apply after_same; now apply ok_buffers, Hok|exact O].
  Qed.
  Theorem trace_seen : cached m (s_cache s) = None -> exists w1 n1, r = rbind (fst (capture false w1 n1)) build /\
    (forall x, ~ In x ms -> w1 x = s_heap s x) /\
    forall x, In x ms -> stands_for (u_params (s_heap s x)) (u_params (w1 x)) /\ stands_for (u_buffers (s_heap s x)) (u_buffers (w1 x)) /\ (untied (s_heap s x) -> initialised (w1 x)).
  Proof using Htrace Hms Hok Hleave.
    intros C. destruct (trace_run C) as (w1 & n1 & w' & n' & _ & -> & _ & H1 & H2). exists w1, n1. split; [reflexivity|]. split; [intros x Hx; now apply H1|].
    intros x Hx. destruct (H2 x Hx) as ((bp & bb & Sp & Sb & P & B) & _). pose proof (ok_params _ (Hok x Hx)) as Np. pose proof (ok_buffers _ (Hok x Hx)) as Nb.
    rewrite P, B. split; [now apply during_stands|]. split; [now apply during_stands|]. intros [Op Ob] e He. rewrite P, B in He. apply in_app_iff in He as [He|He].
    - exact (during_init _ bp Np Op Sp e He).
    - exact (during_init _ bb Nb Ob Sb e He).
  Qed.
  Theorem trace_order : cached m (s_cache s) = None -> forall x, In x ms -> untied (s_heap s x) ->
    u_params (s_heap s' x) = moved (u_params (s_heap s x)) /\ u_buffers (s_heap s' x) = moved (u_buffers (s_heap s x)) /\
    (forall k, In k (u_transient (s_heap s' x)) <-> In k (u_transient (s_heap s x)) /\ exists v, In (k, v) (u_buffers (s_heap s x)) /\ uninitialised (k, v) = false).
  Proof using Htrace Hms Hok Hleave.
    intros C x Hx [Op Ob]. destruct (trace_run C) as (w1 & n1 & w' & n' & _ & _ & -> & _ & H2). destruct (H2 x Hx) as (_ & P & B & _ & _ & T).
    pose proof (ok_params _ (Hok x Hx)) as Np. pose proof (ok_buffers _ (Hok x Hx)) as Nb.
    rewrite P, B, (after_moved _ Np Op), (after_moved _ Nb Ob). split; [reflexivity|]. split; [reflexivity|]. intros k. rewrite T, (turns_all _ Nb Ob).
    destruct (Hok x Hx) as [_ I]. split; intros [K K2]; (split; [exact K|]).
    - apply I in K. apply in_map_iff in K as ([k' v] & Ek & Hk). cbn in Ek. subst k'. exists v. split; [exact Hk|]. destruct (uninitialised (k, v)) eqn:U; [|reflexivity].
      exfalso. apply K2. apply in_map_iff. exists (k, v). split; [reflexivity|]. now apply filter_In.
    - destruct K2 as (v & Hv & U). intros K3. apply in_map_iff in K3 as ([k' v'] & Ek & H3). cbn in Ek. subst k'. apply filter_In in H3 as [H3 U3].
      rewrite (key_unique _ k v v' Nb Hv H3) in U. congruence.
  Qed.
End Traced.

(** ** The cache *)
Lemma cached_drop {G} m m' (l : list (nat * G)) : m <> m' -> cached m (filter (fun e => negb (fst e =? m')) l) = cached m l.
Proof.
  intros Ne. unfold cached. induction l as [|[k g] l IH]; cbn; [reflexivity|]. destruct (Nat.eqb_spec k m') as [->|]; cbn.
  - destruct (Nat.eqb_spec m' m) as [->|]; [congruence|exact IH].
  - destruct (k =? m); [reflexivity|exact IH].
Qed.
Lemma cached_run {E G} (l : list (event E G)) : forall s m rs s', (forall m', In (Destroyed m') l -> m' <> m) -> run l s = (rs, s') ->
  cached m (s_cache s') = match cached m (s_cache s) with Some g => Some g | None => first_graph m rs end /\ s_strict s' = s_strict s.
Proof.
  induction l as [|[m1 ms c b|m1] l IH]; intros s m rs s' Hd Hr; cbn in Hr.
  - injection Hr as <- <-. cbn. split; [now destruct (cached m (s_cache s))|reflexivity].
  - destruct (trace c b m1 ms s) as [r s1] eqn:T. destruct (run l s1) as [rs2 s2] eqn:R. injection Hr as <- <-.
    destruct (IH s1 m rs2 s2 (fun m' H => Hd m' (or_intror H)) R) as [C S]. rewrite C, S. unfold trace in T.
    destruct (cached m1 (s_cache s)) as [g|] eqn:C1.
    + injection T as <- <-. cbn [first_graph]. split; [|reflexivity]. destruct (Nat.eqb_spec m1 m) as [->|]; [now rewrite C1|reflexivity].
    + destruct (with_placeholders _ _ _ _) as [x [w n]]. destruct (rbind x b) as [g|e]; injection T as <- <-; cbn [s_cache s_strict first_graph]; (split; [|reflexivity]); [|now destruct (cached m (s_cache s))].
      unfold cached at 1. cbn [find fst]. destruct (Nat.eqb_spec m1 m) as [->|]; [now rewrite C1|]. fold (cached m (s_cache s)). reflexivity.
  - destruct (IH _ m rs s' (fun m' H => Hd m' (or_intror H)) Hr) as [C S]. cbn in C, S. rewrite cached_drop in C; [now split|]. intros ->. exact (Hd m1 (or_introl eq_refl) eq_refl).
Qed.
(** The next call. *)
Theorem trace_history {E G} (l : list (event E G)) s rs s1 m ms (capture : bool -> heap -> nat -> result E * (heap * nat)) (build : E -> result G) :
  cached m (s_cache s) = None -> (forall m', In (Destroyed m') l -> m' <> m) -> run l s = (rs, s1) ->
  s_strict s1 = s_strict s /\
  match first_graph m rs with
  | Some g => trace capture build m ms s1 = (Ok g, s1)
  | None => exists s2, trace capture build m ms s1 = (rbind (fst (with_placeholders ms (capture false) (s_heap s1) (s_next s1))) build, s2)
  end.
Proof.
  intros C Hd R. destruct (cached_run l s m rs s1 Hd R) as [C1 S]. rewrite C in C1. split; [exact S|]. unfold trace. rewrite C1. destruct (first_graph m rs) as [g|]; [reflexivity|].
  destruct (with_placeholders _ _ _ _) as [x [w n]]. cbn [fst]. destruct (rbind x build); eexists; reflexivity.
Qed.
(** A module that is destroyed is forgotten. *)
Theorem destroyed_forgotten {E G} m (s : tstate G) rs s' : run [@Destroyed E G m] s = (rs, s') -> cached m (s_cache s') = None /\ forall x, x <> m -> cached x (s_cache s') = cached x (s_cache s).
Proof.
  cbn. intros [= <- <-]. cbn. split; [|intros x Hx; now apply cached_drop]. unfold cached. induction (s_cache s) as [|[k g] l IH]; cbn; [reflexivity|].
  destruct (Nat.eqb_spec k m) as [->|Ne]; cbn; [exact IH|]. destruct (Nat.eqb_spec k m); [contradiction|exact IH].
Qed.
