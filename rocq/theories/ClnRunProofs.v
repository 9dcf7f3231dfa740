(** The cleaned graph and its runs. *)
From Coq Require Import List Arith Bool Lia.
From Verif Require Import Prelude ClnModel ClnSpec ClnProofs.
Import ListNotations.

Lemma filter_filter : forall {A} (f h : A -> bool) l, filter h (filter f l) = filter (fun x => f x && h x) l.
Proof.
  intros A f h l. induction l as [|a l IH]; cbn; auto. destruct (f a) eqn:F; cbn; rewrite IH; auto.
Qed.

Lemma eliminate_valid : forall w m, valid m ->
  exists f, eliminate_dead_code w m = Ok (mkGM (filter f (gm_graph m)) (gm_modules m) (gm_attrs m))
  /\ (forall n, In n (gm_graph m) -> (f n = true <-> needed w (gm_graph m) n)).
Proof.
  intros w m V. unfold eliminate_dead_code. rewrite valid_lint; auto. destruct V as (T & O & X).
  destruct (dead_code_filter w _ O) as (f & E & F). exists f. rewrite E. split; auto.
Qed.

Lemma filter_valid : forall w m f, valid m -> (forall n, In n (gm_graph m) -> (f n = true <-> needed w (gm_graph m) n)) ->
  valid (mkGM (filter f (gm_graph m)) (gm_modules m) (gm_attrs m)).
Proof.
  intros w m f (T & O & X) F. split; [exact T|]. cbn. split.
  - apply filter_in_order with (seen := []); auto.
    intros n n' I I' Fn J. apply F; auto. apply needed_arg with n; auto. apply F; auto.
  - intros n I. apply filter_In in I as (I & _). apply (X n I).
Qed.

Lemma prune_valid : forall w m, valid m ->
  exists f, prune_unused_get_attrs w m = Ok (mkGM (filter f (gm_graph m)) (gm_modules m) (gm_attrs m))
  /\ (forall n, In n (gm_graph m) -> (f n = true <-> needed w (gm_graph m) n)).
Proof.
  intros w m V. pose proof V as (T & O & X). unfold prune_unused_get_attrs.
  destruct (pruned_graph w _ O) as (f1 & E1 & N1 & O1). rewrite E1.
  destruct (eliminate_valid w (mkGM (filter f1 (gm_graph m)) (gm_modules m) (gm_attrs m))) as (f2 & E2 & N2).
  { split; [exact T|]. split; [exact O1|]. cbn. intros n I. apply filter_In in I as (I & _). apply (X n I). }
  cbn in E2, N2. rewrite E2. exists (fun n => f1 n && f2 n). rewrite filter_filter. split; auto.
  intros n I. rewrite andb_true_iff. split.
  - intros (A & B). apply (needed_filter w (gm_graph m) f1 N1). apply N2; auto. apply filter_In. auto.
  - intro H. split; [apply N1; exact H|]. apply N2; [apply filter_In; auto|]. apply needed_filter; auto.
Qed.

(** References to quantizers *)
Definition live_quantizer (w : purity) (m : gmodule) (source : list (path * bool)) : Prop :=
  exists n p, needed w (gm_graph m) n /\ In (p, true) source /\ p <> [] /\ refers_to n p.

Lemma quantizer_paths : forall source p,
  In p (collect_quantizer_module_paths source) <-> In (p, true) source /\ p <> [].
Proof.
  intros source p. unfold collect_quantizer_module_paths. rewrite in_map_iff. split.
  - intros ((q, b) & E & I). cbn in E. subst q. apply filter_In in I as (I & B). cbn in B.
    apply andb_true_iff in B as (B1 & ->). split; auto. apply negb_true_iff in B1. intros ->.
    rewrite (proj2 (path_eqb_eq [] [])) in B1; auto. discriminate.
  - intros (I & N). exists (p, true). split; auto. apply filter_In. split; auto. cbn.
    destruct (path_eqb p []) eqn:E; auto. apply path_eqb_eq in E. contradiction.
Qed.

Lemma referenced : forall m p, is_tree m -> targets_exist m (gm_graph m) -> p <> [] -> ~ In p (gm_attrs m) ->
  (In p (collect_graph_referenced_module_paths m) <-> exists n, In n (gm_graph m) /\ refers_to n p).
Proof.
  intros m p (T1 & T2 & T3 & T4) X N NA. unfold collect_graph_referenced_module_paths. rewrite in_flat_map. split.
  - intros (n & I & J). exists n. split; auto. unfold refers_to. destruct (nop n); auto.
    + unfold module_prefixes_from_get_attr_target in J. apply filter_In in J as (J & _).
      change (map _ _) with (module_path_prefixes p0 true) in J. apply prefixes_full in J. tauto.
    + apply prefixes_full in J. tauto.
  - intros (n & I & J). exists n. split; auto. specialize (X n I). unfold refers_to in J. destruct (nop n) as [|q|q|f|]; auto.
    + apply filter_In. split.
      * change (map _ _) with (module_path_prefixes q true). apply prefixes_full. auto.
      * apply mem_path_In. destruct X as [X|X]; [eauto|].
        apply (T2 p q); auto. intros ->. contradiction.
    + apply prefixes_full. auto.
Qed.

Lemma referenced_sound : forall m p, In p (collect_graph_referenced_module_paths m) ->
  exists n, In n (gm_graph m) /\ refers_to n p.
Proof.
  intros m p H. unfold collect_graph_referenced_module_paths in H. apply in_flat_map in H as (n & I & J).
  exists n. split; auto. unfold refers_to. destruct (nop n); auto.
  - unfold module_prefixes_from_get_attr_target in J. apply filter_In in J as (J & _).
    change (map _ _) with (module_path_prefixes p0 true) in J. apply prefixes_full in J. tauto.
  - apply prefixes_full in J. tauto.
Qed.

Definition no_clash (m : gmodule) (source : list (path * bool)) : Prop :=
  forall p, In (p, true) source -> ~ In p (gm_attrs m).

Lemma cleanup_cases : forall w m source, valid m ->
  exists keep m1, m1 = mkGM (filter keep (gm_graph m)) (gm_modules m) (gm_attrs m)
  /\ valid m1
  /\ (forall n, In n (gm_graph m) -> (keep n = true <-> needed w (gm_graph m) n))
  /\ ((stage_cleanup_ff_quantizer_artifacts w m source = Ok (deleted m1)
       /\ forall p, In (p, true) source -> p <> [] -> ~ In p (collect_graph_referenced_module_paths m1))
      \/ (stage_cleanup_ff_quantizer_artifacts w m source = Err RuntimeError
          /\ exists p, In (p, true) source /\ p <> [] /\ In p (collect_graph_referenced_module_paths m1))).
Proof.
  intros w m source V. unfold stage_cleanup_ff_quantizer_artifacts.
  destruct (prune_valid w m V) as (f & -> & F). cbn [rbind].
  set (m1 := mkGM _ _ _).
  assert (V1 : valid m1) by (apply (filter_valid w); auto).
  exists f, m1. split; [reflexivity|]. split; [exact V1|]. split; [exact F|].
  destruct (filter (fun p => mem_path p (collect_graph_referenced_module_paths m1))
              (collect_quantizer_module_paths source)) as [|p l] eqn:E; [left|right].
  - split.
    + unfold finalize_graph_module. destruct V1 as (T & O & X).
      assert (V2 : valid (deleted m1)).
      { split; [apply deleted_tree; exact T|]. split; [exact O|]. apply deleted_targets; auto. }
      destruct (eliminate_valid w (deleted m1) V2) as (f2 & E2 & F2). unfold deleted in *. rewrite E2. cbn.
      assert (K : filter f2 (filter f (gm_graph m)) = filter f (gm_graph m)).
      { assert (A : forall n, In n (filter f (gm_graph m)) -> f2 n = true).
        { intros n I. apply F2; [exact I|]. cbn. apply needed_filter; [intros; apply F; auto; eapply needed_In; eauto|].
          apply filter_In in I as (I & K). apply F; auto. }
        clear -A. induction (filter f (gm_graph m)) as [|x l IH]; auto. cbn. rewrite A by (left; reflexivity).
        rewrite IH; auto. intros n I. apply A. right. exact I. }
      rewrite K. unfold delete_all_unused_submodules. cbn. reflexivity.
    + intros p I N R.
      assert (X : In p (filter (fun p => mem_path p (collect_graph_referenced_module_paths m1))
                    (collect_quantizer_module_paths source))).
      { apply filter_In. split; [apply quantizer_paths; auto|apply mem_path_In; exact R]. }
      rewrite E in X. destruct X.
  - split; auto.
    assert (X : In p (filter (fun p => mem_path p (collect_graph_referenced_module_paths m1))
                    (collect_quantizer_module_paths source))) by (rewrite E; left; reflexivity).
    apply filter_In in X as (I & R). apply quantizer_paths in I as (I & N). apply mem_path_In in R. eauto.
Qed.

Lemma cleanup_raises : forall w m source, valid m -> no_clash m source ->
  (stage_cleanup_ff_quantizer_artifacts w m source = Err RuntimeError <-> live_quantizer w m source)
  /\ (~ live_quantizer w m source -> exists m', stage_cleanup_ff_quantizer_artifacts w m source = Ok m').
Proof.
  intros w m source V C.
  destruct (cleanup_cases w m source V) as (keep & m1 & E1 & (T1 & O1 & X1) & K & D).
  assert (LR : live_quantizer w m source <->
    exists p, In (p, true) source /\ p <> [] /\ In p (collect_graph_referenced_module_paths m1)).
  { split.
    - intros (n & p & Hn & I & N & R). exists p. split; [|split]; auto. apply referenced; auto.
      + subst m1. apply C. exact I.
      + exists n. split; auto. subst m1. cbn. apply filter_In.
        split; [eapply needed_In; eauto|]. apply K; auto. eapply needed_In; eauto.
    - intros (p & I & N & R). apply referenced_sound in R as (n & J & R). exists n, p. split; auto.
      subst m1. cbn in J. apply filter_In in J as (J & Kn). apply K; auto. }
  rewrite LR. destruct D as [(E & D)|(E & D)]; rewrite E; split.
  - split; [discriminate|]. intros (p & I & N & R). destruct (D p I N R).
  - intros _. eexists. reflexivity.
  - tauto.
  - tauto.
Qed.

(** What is left of the graph *)
Lemma cleanup_kept : forall w m source m', valid m -> stage_cleanup_ff_quantizer_artifacts w m source = Ok m' ->
  exists keep, gm_graph m' = filter keep (gm_graph m)
  /\ forall n, In n (gm_graph m) -> (keep n = true <-> needed w (gm_graph m) n).
Proof.
  intros w m source m' V E.
  destruct (cleanup_cases w m source V) as (keep & m1 & E1 & V1 & K & [(E' & D)|(E' & D)]); [|congruence].
  exists keep. assert (m' = deleted m1) by congruence. subst. split; auto.
Qed.

Definition below_a_call (m : gmodule) (q : path) : Prop :=
  exists n p, In n (gm_graph m) /\ nop n = CallModule p /\ inside p q.

Lemma cleanup_no_quantizer : forall w m source m' q p, valid m -> no_clash m source ->
  stage_cleanup_ff_quantizer_artifacts w m source = Ok m' ->
  In (p, true) source -> p <> [] ->
  (forall n, In n (gm_graph m') -> ~ refers_to n p)
  /\ (In q (gm_modules m') -> inside p q -> below_a_call m' q).
Proof.
  intros w m source m' q p V C E I N.
  destruct (cleanup_cases w m source V) as (keep & m1 & E1 & V1 & K & [(E' & D)|(E' & D)]); [|congruence].
  assert (m' = deleted m1) by congruence. subst m'. pose proof V1 as (T1 & O1 & X1).
  assert (A : forall n, In n (gm_graph m1) -> ~ refers_to n p).
  { intros n J R. apply (D p I N). apply referenced; auto; [subst m1; apply C; exact I|]. eauto. }
  split; [exact A|].
  intros J H. apply deleted_modules in J; auto. destruct J as (J & U). apply used_spec in U as (n & Jn & U).
  specialize (A n Jn). unfold refers_to in A. destruct (nop n) as [|t|t|f|] eqn:O; try tauto.
  - destruct U as (_ & U). exfalso. apply A. eapply inside_trans; eauto.
  - destruct U as [(_ & U)|(U & _)].
    + exfalso. apply A. eapply inside_trans; eauto.
    + exists n, t. auto.
Qed.

Lemma cleanup_valid : forall w m source m', valid m -> stage_cleanup_ff_quantizer_artifacts w m source = Ok m' ->
  valid m'.
Proof.
  intros w m source m' V E.
  destruct (cleanup_cases w m source V) as (keep & m1 & E1 & (T & O & X) & K & [(E' & D)|(E' & D)]); [|congruence].
  assert (m' = deleted m1) by congruence. subst m'. split; [apply deleted_tree; exact T|]. split; [exact O|].
  apply deleted_targets; auto.
Qed.

(** ** Runs *)

Section Runs.
  Variable M : meaning.
  Variable w : purity.

  Lemma exists_in_spec : forall l p, exists_in l p = true <-> In p l.
  Proof. intros l p. unfold exists_in. destruct (in_dec (list_eq_dec Nat.eq_dec) p l); split; auto; discriminate. Qed.
  Lemma exists_in_ext : forall l l' p, (In p l <-> In p l') -> exists_in l p = exists_in l' p.
  Proof.
    intros l l' p H. destruct (exists_in l p) eqn:E, (exists_in l' p) eqn:E'; auto.
    - apply exists_in_spec in E. apply H in E. apply exists_in_spec in E. congruence.
    - apply exists_in_spec in E'. apply H in E'. apply exists_in_spec in E'. congruence.
  Qed.

  (** One node does the same in two modules. *)
  Definition same_step (m m' : gmodule) (n : node) : Prop := forall s, step M w m s n = step M w m' s n.

  Lemma look_all_ext : forall e e' l, (forall a, In a l -> look M e a = look M e' a) -> look_all M e l = look_all M e' l.
  Proof.
    intros e e' l H. induction l as [|a l IH]; cbn; auto. rewrite H by (left; reflexivity).
    rewrite IH; auto. intros b I. apply H. right. exact I.
  Qed.

  Definition similar (names : nat -> Prop) (s s' : state M) : Prop :=
    inputs M s = inputs M s' /\ effects M s = effects M s' /\ outputs M s = outputs M s'
    /\ forall a, names a -> look M (env M s) a = look M (env M s') a.

  Lemma step_similar : forall names m n s s' t, similar names s s' -> (forall a, In a (nargs n) -> names a) ->
    step M w m s n = Some t -> exists t', step M w m s' n = Some t' /\ similar names t t'.
  Proof.
    intros names m n s s' t (A & B & C & D) Hn. unfold step.
    rewrite (look_all_ext (env M s) (env M s') (nargs n)) by (intros; apply D, Hn; auto).
    destruct (look_all M (env M s') (nargs n)) as [vs|]; [|discriminate].
    assert (Lg : log M w s n vs = log M w s' n vs) by (unfold log; rewrite B; reflexivity).
    assert (G : forall v names', names' = names -> forall a, names' a ->
       look M ((nname n, v) :: env M s) a = look M ((nname n, v) :: env M s') a).
    { intros v ? -> a I. cbn. destruct (nname n =? a); auto. }
    rewrite <- A. destruct (nop n) as [|p|p|f|]; intro E.
    - destruct (inputs M s) as [|v r]; [discriminate|]. inversion E; subst.
      eexists. split; [reflexivity|]. unfold similar; cbn [inputs effects outputs env]. rewrite <- ?B, <- ?C. eauto 6.
    - destruct (exists_in (gm_modules m) p); [|destruct (exists_in (gm_attrs m) p); [|discriminate]];
      inversion E; subst; (eexists; split; [reflexivity|]); unfold similar; cbn [inputs effects outputs env];
      rewrite <- ?B, <- ?C; eauto 6.
    - destruct (exists_in (gm_modules m) p); [|discriminate]. destruct (call_mod M p _ vs) as [v|]; [|discriminate].
      inversion E; subst. eexists; split; [reflexivity|]. unfold similar; cbn [inputs effects outputs env].
      rewrite <- ?Lg, <- ?C; eauto 6.
    - destruct (call_fn M f vs) as [v|]; [|discriminate].
      inversion E; subst. eexists; split; [reflexivity|]. unfold similar; cbn [inputs effects outputs env].
      rewrite <- ?Lg, <- ?C; eauto 6.
    - inversion E; subst. eexists; split; [reflexivity|]. unfold similar; cbn [inputs effects outputs env].
      rewrite <- ?B, <- ?C; eauto 6.
  Qed.

  Lemma step_dropped : forall (names : nat -> Prop) m n s s' t, similar names s s' -> ~ effectful w n -> ~ names (nname n) ->
    step M w m s n = Some t -> similar names t s'.
  Proof.
    intros names m n s s' t (A & B & C & D) P N E. unfold step in E.
    destruct (look_all M (env M s) (nargs n)) as [vs|]; [|discriminate].
    assert (G : forall v a, names a -> look M ((nname n, v) :: env M s) a = look M (env M s') a).
    { intros v a I. cbn. destruct (nname n =? a) eqn:Q; auto. apply Nat.eqb_eq in Q. subst. contradiction. }
    unfold effectful in P. unfold log in E. destruct (nop n) as [|p|p|f|] eqn:O; try tauto.
    - destruct (exists_in (gm_modules m) p); [|destruct (exists_in (gm_attrs m) p); [|discriminate]];
      inversion E; subst; unfold similar; cbn [inputs effects outputs env]; auto.
    - destruct (exists_in (gm_modules m) p); [|discriminate]. destruct (call_mod M p _ vs) as [v|]; [|discriminate].
      inversion E; subst. unfold similar; cbn [inputs effects outputs env].
      destruct (impure_mod w p); [tauto|]. auto.
    - destruct (call_fn M f vs) as [v|]; [|discriminate].
      inversion E; subst. unfold similar; cbn [inputs effects outputs env].
      destruct (impure_fn w f); [tauto|]. auto.
  Qed.

  Lemma steps_filter : forall (names : nat -> Prop) m m' keep g s s' t, similar names s s' ->
    (forall n, In n g -> keep n = true -> same_step m m' n /\ forall a, In a (nargs n) -> names a) ->
    (forall n, In n g -> keep n = false -> ~ effectful w n /\ ~ names (nname n)) ->
    steps M w m s g = Some t ->
    exists t', steps M w m' s' (filter keep g) = Some t' /\ similar names t t'.
  Proof.
    intros names m m' keep. induction g as [|n g IH]; intros s s' t S K D E.
    - cbn in *. inversion E; subst. eauto.
    - cbn [steps] in E. destruct (step M w m s n) as [s1|] eqn:E1; [|discriminate]. cbn [filter].
      destruct (keep n) eqn:Kn.
      + destruct (K n (or_introl eq_refl) Kn) as (SS & HA).
        destruct (step_similar names m n s s' s1 S HA E1) as (s1' & E1' & S1).
        rewrite SS in E1'. cbn [steps]. rewrite E1'.
        apply (IH s1 s1' t S1); auto; intros; [apply K|apply D]; auto; right; auto.
      + destruct (D n (or_introl eq_refl) Kn) as (P & N).
        pose proof (step_dropped names m n s s' s1 S P N E1) as S1.
        apply (IH s1 s' t S1); auto; intros; [apply K|apply D]; auto; right; auto.
  Qed.

  (** The modules below a called module are kept. *)
  Lemma fold_delete_filter : forall l mods,
    fold_left delete_submodule l mods = filter (fun q => negb (existsb (fun p => is_prefix p q) l)) mods.
  Proof.
    induction l as [|x l IH]; intros mods; cbn [fold_left].
    - cbn. induction mods as [|q r IHr]; cbn; congruence.
    - rewrite IH. unfold delete_submodule. rewrite filter_filter. apply filter_ext. intro q. cbn.
      destruct (is_prefix x q); reflexivity.
  Qed.

  Lemma submodules_called : forall m n p, is_tree m -> In n (gm_graph m) -> nop n = CallModule p ->
    submodules (deleted m) p = submodules m p.
  Proof.
    intros m n p T I O. unfold submodules, deleted, delete_all_unused_submodules. cbn.
    rewrite fold_delete_filter, filter_filter. apply filter_ext_in. intros q Iq.
    destruct (is_prefix_of p q) eqn:P; [|apply andb_false_r]. rewrite andb_true_r. apply negb_true_iff.
    destruct (existsb _ _) eqn:E; auto. exfalso. apply existsb_exists in E as (x & J & H).
    apply is_prefix_inside in H. apply filter_In in J as (J & U). apply negb_true_iff in U.
    assert (used m x).
    { apply (used_up m x q); auto.
      - intros ->. destruct T as (_ & _ & T & _). contradiction.
      - apply used_spec. exists n. rewrite O. split; auto. right. split; auto.
        rewrite is_prefix_of_eq in P. apply is_prefix_inside. exact P. }
    apply mem_path_In in H0. congruence.
  Qed.

  Lemma submodules_leaf : forall m p, is_tree m -> (forall q, In q (gm_modules m) -> inside p q -> q = p) ->
    In p (gm_modules m) -> used m p -> submodules (deleted m) p = submodules m p.
  Proof.
    intros m p T Lf Ip U. unfold submodules, deleted, delete_all_unused_submodules. cbn.
    rewrite fold_delete_filter, filter_filter. apply filter_ext_in. intros q Iq.
    destruct (is_prefix_of p q) eqn:P; [|apply andb_false_r]. rewrite andb_true_r. apply negb_true_iff.
    destruct (existsb _ _) eqn:E; auto. exfalso. apply existsb_exists in E as (x & J & H).
    apply is_prefix_inside in H. apply filter_In in J as (J & Ux). apply negb_true_iff in Ux.
    assert (q = p). { apply Lf; auto. rewrite is_prefix_of_eq in P. apply is_prefix_inside. exact P. } subst q.
    assert (used m x). { apply (used_up m x p); auto. intros ->. destruct T as (_ & _ & T & _). contradiction. }
    apply mem_path_In in H0. congruence.
  Qed.

  Lemma deleted_same_step : forall m n, valid m -> In n (gm_graph m) ->
    (forall p, nop n = GetAttr p -> In p (gm_modules m) -> forall q, In q (gm_modules m) -> inside p q -> q = p) ->
    same_step m (deleted m) n.
  Proof.
    intros m n (T & O & X) I Lf s. pose proof (deleted_targets m T X n I) as X'. specialize (X n I).
    pose proof T as (_ & _ & T3 & T4).
    unfold step. destruct (look_all M (env M s) (nargs n)) as [vs|]; auto.
    destruct (nop n) as [|p|p|f|] eqn:On; auto.
    - destruct X as [X|X].
      + assert (U : used m p).
        { apply used_spec. exists n. rewrite On. split; auto. split; [|apply inside_refl]. intros ->. contradiction. }
        assert (X1 : In p (gm_modules (deleted m))) by (rewrite deleted_modules; auto).
        rewrite (proj2 (exists_in_spec _ _) X), (proj2 (exists_in_spec _ _) X1).
        rewrite submodules_leaf; auto.
      + destruct (T4 p X) as (X0 & _).
        assert (X1 : ~ In p (gm_modules (deleted m))) by (rewrite deleted_modules; tauto).
        destruct (exists_in (gm_modules m) p) eqn:E; [apply exists_in_spec in E; contradiction|].
        destruct (exists_in (gm_modules (deleted m)) p) eqn:E1; [apply exists_in_spec in E1; contradiction|].
        destruct X' as [X'|X']; [contradiction|].
        rewrite (proj2 (exists_in_spec _ _) X), (proj2 (exists_in_spec _ _) X'). reflexivity.
    - rewrite (proj2 (exists_in_spec _ _) X), (proj2 (exists_in_spec _ _) X').
      rewrite (submodules_called m n p); auto.
  Qed.

  Lemma same_step_graph : forall g1 g2 mods attrs n, same_step (mkGM g1 mods attrs) (mkGM g2 mods attrs) n.
  Proof. intros g1 g2 mods attrs n s. reflexivity. Qed.

  (** Modules that are read as values have no modules inside. *)
  Definition values_are_leaves (m : gmodule) : Prop := forall n p q, In n (gm_graph m) -> nop n = GetAttr p ->
    In p (gm_modules m) -> In q (gm_modules m) -> inside p q -> q = p.

  Lemma cleanup_run : forall m source m' ins r, valid m -> values_are_leaves m ->
    stage_cleanup_ff_quantizer_artifacts w m source = Ok m' ->
    run M w m ins = Some r -> run M w m' ins = Some r.
  Proof.
    intros m source m' ins r V Lf E R.
    destruct (cleanup_cases w m source V) as (keep & m1 & E1 & V1 & K & [(E' & D)|(E' & D)]); [|congruence].
    assert (m' = deleted m1) by congruence. subst m'. clear E.
    unfold run in *. destruct (steps M w m _ (gm_graph m)) as [t|] eqn:St; [|discriminate].
    assert (G : gm_graph (deleted m1) = filter keep (gm_graph m)) by (subst m1; reflexivity).
    pose proof V as (T & O & X).
    destruct (steps_filter (fun a => exists n, needed w (gm_graph m) n /\ nname n = a) m (deleted m1) keep
                (gm_graph m) (mkState M ins [] [] []) (mkState M ins [] [] []) t) as (t' & St' & S).
    - unfold similar. cbn. auto.
    - intros n I Kn. split.
      + assert (I1 : In n (gm_graph m1)) by (subst m1; cbn; apply filter_In; auto).
        intro s. transitivity (step M w m1 s n); [subst m1; reflexivity|].
        apply deleted_same_step; auto. intros p On Ip q Iq. subst m1. cbn in *. eapply Lf; eauto.
      + intros a J. destruct (in_order_args _ _ _ O I a J) as [[]|(n' & I' & <-)].
        exists n'. split; auto. apply needed_arg with n; auto. apply K; auto.
    - intros n I Kn. assert (NN : ~ needed w (gm_graph m) n) by (intro H; apply K in H; congruence).
      split; [intro Ef; apply NN, needed_effect; auto|].
      intros (n' & Hn & En). assert (n' = n).
      { eapply in_order_unique; eauto. eapply needed_In; eauto. }
      subst n'. contradiction.
    - exact St.
    - rewrite G, St'. destruct S as (_ & S2 & S3 & _). congruence.
  Qed.
End Runs.

Lemma cleanup_modules : forall w m source m' q, valid m ->
  stage_cleanup_ff_quantizer_artifacts w m source = Ok m' ->
  (In q (gm_modules m') <-> In q (gm_modules m) /\ exists n, needed w (gm_graph m) n
     /\ (refers_to n q \/ exists p, nop n = CallModule p /\ inside p q)).
Proof.
  intros w m source m' q V E.
  destruct (cleanup_cases w m source V) as (keep & m1 & E1 & V1 & K & [(E' & D)|(E' & D)]); [|congruence].
  assert (m' = deleted m1) by congruence. subst m'. pose proof V1 as (T1 & O1 & X1).
  assert (G : forall n, In n (gm_graph m1) <-> needed w (gm_graph m) n).
  { intro n. subst m1. cbn. rewrite filter_In. split.
    - intros (I & J). apply K; auto.
    - intro H. pose proof (needed_In _ _ _ H). split; auto. apply K; auto. }
  rewrite deleted_modules; auto. rewrite used_spec. subst m1. cbn [gm_modules] in *.
  split; intros (I & n & J & U); (split; [exact I|]); exists n; apply G in J; (split; [exact J|]).
  - unfold refers_to. destruct (nop n) as [|t|t|f|]; try tauto.
    destruct U as [(_ & U)|(U & _)]; eauto.
  - destruct V as ((_ & _ & T3 & _) & _). assert (q <> []) by (intros ->; contradiction).
    unfold refers_to in U. destruct (nop n) as [|t|t|f|];
    destruct U as [U|(p & Ep & U)]; try discriminate; try inversion Ep; subst; auto.
Qed.

Lemma cleanup_in_order : forall w m source m', stage_cleanup_ff_quantizer_artifacts w m source = Ok m' ->
  in_order [] (gm_graph m').
Proof.
  intros w m source m' H. unfold stage_cleanup_ff_quantizer_artifacts in H.
  destruct (prune_unused_get_attrs w m) as [m1|e]; [|discriminate]. cbn [rbind] in H.
  destruct (filter _ _); [|discriminate]. unfold finalize_graph_module, eliminate_dead_code in H.
  remember (delete_all_unused_submodules m1) as m2 eqn:E2. destruct (lint m2) eqn:L; [|discriminate].
  inversion H; subst m'. cbn [gm_graph]. unfold lint in L. apply andb_true_iff in L as (L & _). apply lint_order_spec in L.
  destruct (dead_code_filter w _ L) as (f & E & K). rewrite E. apply filter_in_order with (seen := []); auto.
  intros n n' I I' Fn J. apply K; auto. apply needed_arg with n; auto. apply K; auto.
Qed.
