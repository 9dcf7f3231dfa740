(** Proofs for C90-C92, fourth part: the temporaries, and all passes together. *)
From Coq Require Import String Ascii.
From Verif Require Import Prelude AqModel AqSpec AqProofs AqIso AqSim.
Local Open Scope nat_scope.
Local Open Scope list_scope.

Notation temps l n n' := (exists ks, filter (String.prefix "_tmp_") l = map tmp ks /\ NoDup ks /\ forall k, In k ks -> n <= k < n').
Lemma prefix_spec : forall x, String.prefix "_tmp_" x = true <-> temporary x.
Proof.
  intros x. split.
  - assert (G : forall a r x, String.prefix (String a r) x = true -> exists y, x = String a y /\ String.prefix r y = true).
    { intros a r [|b y] H; cbn in H; [discriminate|]. destruct (ascii_dec a b) as [<-|]; [|discriminate]. exists y. auto. }
    intros H. do 5 (apply G in H; destruct H as (? & -> & H)). eexists. reflexivity.
  - intros [r ->]. cbn. destruct r; reflexivity.
Qed.
Lemma temps_nil : forall n, temps (@nil string) n n.
Proof. intros n. exists []. split; [reflexivity|]. split; [constructor | intros k []]. Qed.
Lemma temps_app : forall a b n m k, n <= m -> m <= k -> temps a n m -> temps b m k -> temps (a ++ b) n k.
Proof.
  intros a b n m k L1 L2 (i & A1 & A2 & A3) (j & B1 & B2 & B3). exists (i ++ j). split; [rewrite filter_app, A1, B1, map_app; reflexivity|]. split.
  - clear A1 B1. induction A2 as [|x i Hx _ IH]; [exact B2|]. cbn. constructor.
    + rewrite in_app_iff. intros [I|I]; [contradiction|]. specialize (A3 x (or_introl eq_refl)). specialize (B3 x I). lia.
    + apply IH. intros y I. apply A3. right. exact I.
  - intros x I. apply in_app_or in I. destruct I as [I|I]; [specialize (A3 x I) | specialize (B3 x I)]; lia.
Qed.
Lemma temps_le : forall (l : list string) n n' m m', m <= n -> n' <= m' -> temps l n n' -> temps l m m'.
Proof. intros l n n' m m' L1 L2 (ks & A1 & A2 & A3). exists ks. split; [exact A1|]. split; [exact A2|]. intros k I. specialize (A3 k I). lia. Qed.
Lemma temps_none : forall l n n', (forall x, In x l -> ~ temporary x) -> temps l n n'.
Proof.
  intros l n n' H. exists []. split; [|split; [constructor | intros k []]]. cbn. induction l as [|x l IH]; [reflexivity|]. cbn [filter].
  destruct (String.prefix "_tmp_" x) eqn:E; [exfalso; apply prefix_spec in E; apply (H x); [left; reflexivity | exact E]|].
  apply IH. intros y I. apply H. right. exact I.
Qed.
Lemma assigned_insertions : forall ins, flat_map assigned (map insertion ins) = map fst ins.
Proof. induction ins as [|[x e] ins IH]; [reflexivity|]. cbn. rewrite IH. reflexivity. Qed.
Lemma temps_good : forall ins n n', good ins n n' -> temps (flat_map assigned (map insertion ins)) n n'.
Proof.
  intros ins n n' (L & M & _). exists (seq n (n' - n)). split; [|split; [apply seq_NoDup | intros k I; apply in_seq in I; lia]].
  rewrite assigned_insertions, M. generalize (seq n (n' - n)). induction l as [|k l IH]; [reflexivity|]. cbn [map filter].
  assert (P : String.prefix "_tmp_" (tmp k) = true) by (apply prefix_spec, tmp_temporary). rewrite P, IH. reflexivity.
Qed.
Lemma assigned_isolate : forall m n i m' n', valid_targets m = true -> isolate_small m n = (i, m', n') -> assigned_small m' = assigned_small m.
Proof.
  intros [ts v|t o v|e|[e|]|t m|e c| | |] n i m' n' T E; cbn [isolate_small] in E; try (injection E as <- <- <-; reflexivity);
    try (repeat (match type of E with context [match ?x with (_, _) => _ end] => destruct x as [[? ?] ?] end); injection E as <- <- <-; reflexivity).
  destruct (isolates ts n) as [[i1 ts1] n1] eqn:E1. destruct (isolate_top v n1) as [[j v1] n2] eqn:E2. injection E as <- <- <-.
  destruct ts as [|t ts].
  - cbn in E1. injection E1 as <- <- <-. reflexivity.
  - cbn in E1. destruct (isolate t n) as [[i2 t2] n3] eqn:E3. destruct (isolates ts n3) as [[i4 ts4] n4] eqn:E4. injection E1 as <- <- <-.
    cbn [valid_targets forallb] in T. apply andb_true_iff in T. destruct T as [T _].
    destruct t; try discriminate.
    + cbn in E3. injection E3 as <- <- <-. cbn [assigned_small]. destruct ts.
      * cbn in E4. injection E4 as <- <- <-. reflexivity.
      * cbn in E4. destruct (isolate e n) as [[? ?] ?], (isolates ts n0) as [[? ?] ?]. injection E4 as <- <- <-. reflexivity.
    + rewrite isolate_node in E3. destruct (isolates l n) as [[? ?] ?]. injection E3 as <- <- <-. reflexivity.
Qed.
Lemma assigned_smalls_isolate : forall l n i l' n', forallb valid_targets l = true -> isolate_smalls l n = (i, l', n') -> flat_map assigned_small l' = flat_map assigned_small l.
Proof.
  induction l as [|m l IH]; intros n i l' n' T E; cbn in E; [injection E as <- <- <-; reflexivity|]. cbn in T. apply andb_true_iff in T. destruct T as [T1 T2].
  destruct (isolate_small m n) as [[i1 m1] n1] eqn:E1. destruct (isolate_smalls l n1) as [[i2 l2] n2] eqn:E2. injection E as <- <- <-.
  cbn. rewrite (assigned_isolate _ _ _ _ _ T1 E1), (IH _ _ _ _ T2 E2). reflexivity.
Qed.
Lemma assigned_names : forall m x, In x (assigned_small m) -> In x (names_small m).
Proof. intros m x I. destruct m as [[|[] []] | | | | | | | |]; try contradiction. cbn in *. destruct I as [->|[]]. left. reflexivity. Qed.
Lemma flat_map_in : forall {A B} (f g : A -> list B) l x, (forall a, In x (f a) -> In x (g a)) -> In x (flat_map f l) -> In x (flat_map g l).
Proof. intros A B f g l x H I. apply in_flat_map in I. destruct I as (a & I1 & I2). apply in_flat_map. exists a. auto. Qed.

Lemma stmt_temps : forall p n q n', clean (names_stmt p) -> every valid_targets p = true -> isolate_stmt p n = (q, n') -> n <= n' /\ temps (flat_map assigned q) n n'.
Proof.
  assert (R : forall l, Forall (fun p => forall n q n', clean (names_stmt p) -> every valid_targets p = true -> isolate_stmt p n = (q, n') -> n <= n' /\ temps (flat_map assigned q) n n') l ->
    forall n q n', clean (flat_map names_stmt l) -> forallb (every valid_targets) l = true -> block l n = (q, n') -> n <= n' /\ temps (flat_map assigned q) n n').
  { induction 1 as [|p l Hp _ IH]; intros n q n' C T E; cbn in E; [injection E as <- <-; split; [lia | apply temps_nil]|].
    cbn in C, T. apply clean_app in C. apply andb_true_iff in T. destruct C as [C1 C2], T as [T1 T2].
    destruct (isolate_stmt p n) as [q1 n1] eqn:E1. destruct (block l n1) as [q2 n2] eqn:E2. injection E as <- <-.
    destruct (Hp _ _ _ C1 T1 E1) as [L1 A1], (IH _ _ _ C2 T2 E2) as [L2 A2]. split; [lia|]. rewrite flat_map_app. eapply temps_app; eassumption. }
  induction p using stmt_ind'; intros n q n' C T E.
  - cbn [isolate_stmt] in E. destruct (isolate_smalls l n) as [[i l1] n1] eqn:E1. injection E as <- <-. destruct (isolate_smalls_good _ _ _ _ _ E1) as [G _].
    split; [apply G|]. rewrite flat_map_app. apply temps_app with (m := n1); [apply G | lia | apply temps_good; exact G |].
    cbn [flat_map assigned]. rewrite app_nil_r. rewrite (assigned_smalls_isolate _ _ _ _ _ T E1). apply temps_none.
    intros x I. apply C. cbn [names_stmt]. eapply flat_map_in; [|exact I]. intros. apply assigned_names. assumption.
  - cbn [isolate_stmt] in E. injection E as <- <-. split.
    + destruct (isolate_smalls l n) as [[i l1] n1] eqn:E1. destruct (isolate_smalls_good _ _ _ _ _ E1) as [G _]. apply G.
    + cbn [flat_map assigned]. rewrite app_nil_r. apply temps_none. intros x I. apply C. cbn [names_stmt]. eapply flat_map_in; [|exact I]. intros. apply assigned_names. assumption.
  - rewrite isolate_if in E. cbn [names_stmt] in C. apply clean_app in C. destruct C as [_ C]. apply clean_app in C. cbn [every] in T. apply andb_true_iff in T. destruct C as [C1 C2], T as [T1 T2].
    destruct (block b (counted t n)) as [b1 n1] eqn:E1. destruct (block o n1) as [o1 n2] eqn:E2. injection E as <- <-.
    destruct (R b H _ _ _ C1 T1 E1) as [L1 A1], (R o H0 _ _ _ C2 T2 E2) as [L2 A2]. pose proof (counted_le t n). split; [lia|].
    cbn [flat_map assigned]. rewrite app_nil_r. apply temps_app with (m := n1); try lia; [|exact A2]. eapply temps_le; [| |exact A1]; lia.
  - rewrite isolate_while in E. cbn [names_stmt] in C. apply clean_app in C. destruct C as [_ C]. cbn [every] in T.
    destruct (block b (counted t n)) as [b1 n1] eqn:E1. injection E as <- <-.
    destruct (R b H _ _ _ C T E1) as [L1 A1]. pose proof (counted_le t n). split; [lia|].
    cbn [flat_map assigned]. rewrite app_nil_r. eapply temps_le; [| |exact A1]; lia.
  - rewrite isolate_for in E. cbn [names_stmt] in C. apply clean_app in C. destruct C as [_ C]. apply clean_app in C. destruct C as [_ C]. cbn [every] in T.
    destruct (block b (counted it (counted t n))) as [b1 n1] eqn:E1. injection E as <- <-.
    destruct (R b H _ _ _ C T E1) as [L1 A1]. pose proof (counted_le t n). pose proof (counted_le it (counted t n)). split; [lia|].
    cbn [flat_map assigned]. rewrite app_nil_r. eapply temps_le; [| |exact A1]; lia.
Qed.
Lemma NoDup_map_inj : forall {A B} (f : A -> B) l, (forall a b, f a = f b -> a = b) -> NoDup l -> NoDup (map f l).
Proof.
  intros A B f l H. induction 1 as [|x l Hx _ IH]; cbn; constructor; [|exact IH]. intros I. apply in_map_iff in I. destruct I as (y & E & I). apply H in E. subst. contradiction.
Qed.
Lemma count_filter : forall f (l : list string) x, f x = true -> count_occ string_dec (filter f l) x = count_occ string_dec l x.
Proof.
  intros f l x H. induction l as [|y l IH]; [reflexivity|]. cbn. destruct (f y) eqn:E; cbn; destruct (string_dec y x) as [->|N]; try congruence.
Qed.
Lemma isolate_all_once : forall l, no_temporaries l -> forallb (every valid_targets) l = true ->
  forall x, temporary x -> count_occ string_dec (flat_map assigned (isolate_all l)) x <= 1.
Proof.
  intros l C T x X. unfold isolate_all.
  assert (A : forall n q n', isolate_block l n = (q, n') -> n <= n' /\ temps (flat_map assigned q) n n').
  { clear x X. assert (C' : clean (flat_map names_stmt l)) by exact C. clear C. induction l as [|p l IH]; intros n q n' E; cbn in E; [injection E as <- <-; split; [lia | apply temps_nil]|].
    cbn in C', T. apply clean_app in C'. apply andb_true_iff in T. destruct C' as [C1 C2], T as [T1 T2].
    destruct (isolate_stmt p n) as [q1 n1] eqn:E1. destruct (isolate_block l n1) as [q2 n2] eqn:E2. injection E as <- <-.
    destruct (stmt_temps _ _ _ _ C1 T1 E1) as [L1 A1], (IH T2 C2 _ _ _ E2) as [L2 A2]. split; [lia|]. rewrite flat_map_app. eapply temps_app; eassumption. }
  destruct (isolate_block l 1) as [q n'] eqn:E. destruct (A _ _ _ E) as (_ & ks & F & N & _). cbn [fst].
  rewrite <- (count_filter (String.prefix "_tmp_")) by (apply prefix_spec; exact X). rewrite F.
  apply (NoDup_count_occ string_dec). apply NoDup_map_inj; [exact tmp_inj | exact N].
Qed.

(** ** All passes *)
Lemma names_split : forall p x, In x (flat_map names_stmt (split_stmt p)) <-> In x (names_stmt p).
Proof.
  assert (L : forall l x, In x (flat_map names_stmt (map (fun m => Line [m]) l)) <-> In x (flat_map names_small l)).
  { induction l as [|m l IH]; intros x; [reflexivity|]. cbn. rewrite app_nil_r, !in_app_iff, IH. reflexivity. }
  assert (R : forall l, Forall (fun p => forall x, In x (flat_map names_stmt (split_stmt p)) <-> In x (names_stmt p)) l ->
    forall x, In x (flat_map names_stmt (flat_map split_stmt l)) <-> In x (flat_map names_stmt l)).
  { induction 1 as [|p l Hp _ IH]; intros x; [reflexivity|]. cbn. rewrite flat_map_app, !in_app_iff, Hp, IH. reflexivity. }
  induction p using stmt_ind'; intros x.
  - destruct l as [|m [|m' l]]; [reflexivity | cbn; rewrite !app_nil_r; reflexivity | apply L].
  - apply L.
  - cbn. rewrite app_nil_r, !in_app_iff, !R by assumption. reflexivity.
  - cbn. rewrite app_nil_r, !in_app_iff, !R by assumption. reflexivity.
  - cbn. rewrite app_nil_r, !in_app_iff, !R by assumption. reflexivity.
Qed.
Lemma names_map : forall f g, (forall m x, In x (names_small (f m)) -> In x (names_small m)) -> (forall e x, In x (names (g e)) -> In x (names e)) ->
  forall p x, In x (names_stmt (map_stmt f g p)) -> In x (names_stmt p).
Proof.
  intros f g Hf Hg.
  assert (L : forall l x, In x (flat_map names_small (map f l)) -> In x (flat_map names_small l)).
  { induction l as [|m l IH]; intros x; [intros []|]. cbn. rewrite !in_app_iff. intros [I|I]; auto. }
  assert (R : forall l, Forall (fun p => forall x, In x (names_stmt (map_stmt f g p)) -> In x (names_stmt p)) l ->
    forall x, In x (flat_map names_stmt (map (map_stmt f g) l)) -> In x (flat_map names_stmt l)).
  { induction 1 as [|p l Hp _ IH]; intros x; [intros []|]. cbn. rewrite !in_app_iff. intros [I|I]; auto. }
  induction p using stmt_ind'; intros x; cbn; rewrite ?in_app_iff; intuition (eauto).
Qed.
Lemma names_expand : forall m x, In x (names_small (expand_small m)) -> In x (names_small m).
Proof.
  intros [] x I; try exact I. destruct t; try exact I; [|destruct k; try exact I]; cbn in *; repeat rewrite ?in_app_iff, ?app_nil_r in *; cbn in *; intuition.
Qed.
Lemma names_mark_small : forall m x, In x (names_small (mark_small m)) -> In x (names_small m).
Proof.
  assert (L : forall l, flat_map names (map mark l) = flat_map names l) by (induction l as [|e l IH]; cbn; [reflexivity | rewrite names_mark, IH; reflexivity]).
  intros [ts v|t o v|e|[e|]|t [m|]|e [c|]| | |] x I; cbn in *; rewrite ?L, ?names_mark in I; exact I.
Qed.
Lemma names_prepared : forall l, no_temporaries l -> no_temporaries (mark_all (expand (split l))).
Proof.
  intros l H x I. apply H. unfold mark_all, expand, split in I. apply in_flat_map in I. destruct I as (p & I1 & I2).
  apply in_map_iff in I1. destruct I1 as (p1 & <- & I1). apply names_map in I2; [|exact names_mark_small | intros e y; rewrite names_mark; auto].
  apply in_map_iff in I1. destruct I1 as (p2 & <- & I1). apply names_map in I2; [|exact names_expand | auto].
  apply in_flat_map in I1. destruct I1 as (p3 & I1 & I3). apply in_flat_map. exists p3. split; [exact I1|].
  apply names_split. apply in_flat_map. exists p2. auto.
Qed.
Lemma every_split : forall f p, every f p = true -> forallb (every f) (split_stmt p) = true.
Proof.
  intros f.
  assert (L : forall l, forallb f l = true -> forallb (every f) (map (fun m => Line [m]) l) = true).
  { induction l as [|m l IH]; cbn; [reflexivity|]. intros H. apply andb_true_iff in H. destruct H as [H1 H2]. rewrite H1, IH by exact H2. reflexivity. }
  assert (R : forall l, Forall (fun p => every f p = true -> forallb (every f) (split_stmt p) = true) l ->
    forallb (every f) l = true -> forallb (every f) (flat_map split_stmt l) = true).
  { induction 1 as [|p l Hp _ IH]; cbn; [reflexivity|]. intros H. apply andb_true_iff in H. destruct H as [H1 H2]. rewrite forallb_app, Hp, IH by assumption. reflexivity. }
  induction p using stmt_ind'; cbn [every split_stmt]; intros E.
  - destruct l as [|m [|m' l]]; [reflexivity | cbn in *; rewrite E; reflexivity | apply L; exact E].
  - apply L; exact E.
  - apply andb_true_iff in E. destruct E. cbn. rewrite !R by assumption. reflexivity.
  - cbn. rewrite R by assumption. reflexivity.
  - cbn. rewrite R by assumption. reflexivity.
Qed.
Lemma preprocess_kept : forall {V U} (s : semantics V U) stable fuel, (forall k, stable k = true -> stable_kind s k) ->
  (forall o a b u, inplace s o a b u = apply s (Binary (binary_of o)) [a; b] u) ->
  forall l, no_temporaries l -> forallb (every (simple_augment stable)) l = true -> forallb (ordered_stmt stable) (mark_all (expand (split l))) = true ->
  forall st, same_end (run s fuel l st) (run s fuel (preprocess l) st).
Proof.
  intros V U s stable fuel Hs Hi l N A O st. unfold preprocess.
  eapply same_end_trans; [|apply isolate_all_kept with (stable := stable); [exact Hs | apply names_prepared; exact N | exact O]].
  rewrite mark_all_same. rewrite (expand_same s stable Hs Hi) by (clear - A; unfold split; induction l as [|p l IH]; [reflexivity|]; cbn in *; apply andb_true_iff in A; destruct A; rewrite forallb_app, every_split, IH by assumption; reflexivity).
  rewrite split_all_same. destruct (run s fuel l st); cbn; auto; split; auto using alike_refl.
Qed.
(** one statement per line *)
Lemma split_one : forall p, forallb one_per_line (split_stmt p) = true.
Proof.
  assert (L : forall l, forallb one_per_line (map (fun m => Line [m]) l) = true) by (induction l; auto).
  assert (R : forall l, Forall (fun p => forallb one_per_line (split_stmt p) = true) l -> forallb one_per_line (flat_map split_stmt l) = true).
  { induction 1 as [|p l Hp _ IH]; [reflexivity|]. cbn. rewrite forallb_app, Hp, IH. reflexivity. }
  induction p using stmt_ind'; cbn [split_stmt].
  - destruct l as [|m [|m' l]]; [reflexivity | reflexivity | apply L].
  - apply L.
  - cbn. rewrite !R by assumption. reflexivity.
  - cbn. rewrite !R by assumption. reflexivity.
  - cbn. rewrite !R by assumption. reflexivity.
Qed.
Lemma split_all_one : forall l, forallb one_per_line (split l) = true.
Proof. unfold split. induction l as [|p l IH]; [reflexivity|]. cbn. rewrite forallb_app, split_one, IH. reflexivity. Qed.
Lemma every_map : forall f g (a b : small -> bool), (forall m, a m = true -> b (f m) = true) -> forall p, every a p = true -> every b (map_stmt f g p) = true.
Proof.
  intros f g a b H.
  assert (L : forall l, forallb a l = true -> forallb b (map f l) = true).
  { induction l as [|m l IH]; cbn; [reflexivity|]. intros E. apply andb_true_iff in E. destruct E. rewrite H, IH by assumption. reflexivity. }
  assert (R : forall l, Forall (fun p => every a p = true -> every b (map_stmt f g p) = true) l -> forallb (every a) l = true -> forallb (every b) (map (map_stmt f g) l) = true).
  { induction 1 as [|p l Hp _ IH]; cbn; [reflexivity|]. intros E. apply andb_true_iff in E. destruct E. rewrite Hp, IH by assumption. reflexivity. }
  induction p using stmt_ind'; cbn [every map_stmt]; intros E; auto. apply andb_true_iff in E. destruct E. rewrite !R by assumption. reflexivity.
Qed.
Lemma expand_none : forall l, forallb (every (fun m => negb (augments m))) (expand l) = true.
Proof.
  unfold expand. induction l as [|p l IH]; [reflexivity|]. cbn [map forallb]. rewrite IH, andb_true_r.
  apply every_map with (a := fun _ => true); [|apply every_true].
  intros [] _; try reflexivity. destruct t; try reflexivity. destruct k; reflexivity.
Qed.
Lemma one_map : forall f g p, one_per_line (map_stmt f g p) = one_per_line p.
Proof.
  intros f g.
  assert (R : forall l, Forall (fun p => one_per_line (map_stmt f g p) = one_per_line p) l -> forallb one_per_line (map (map_stmt f g) l) = forallb one_per_line l).
  { induction 1 as [|p l Hp _ IH]; cbn; [reflexivity | rewrite Hp, IH; reflexivity]. }
  induction p using stmt_ind'; cbn [one_per_line map_stmt]; rewrite ?map_length, ?R by assumption; reflexivity.
Qed.
Lemma isolate_smalls_length : forall l n i l' n', isolate_smalls l n = (i, l', n') -> length l' = length l.
Proof.
  induction l as [|m l IH]; intros n i l' n' E; cbn in E; [injection E as <- <- <-; reflexivity|].
  destruct (isolate_small m n) as [[i1 m1] n1] eqn:E1. destruct (isolate_smalls l n1) as [[i2 l2] n2] eqn:E2. injection E as <- <- <-. cbn. rewrite (IH _ _ _ _ E2). reflexivity.
Qed.
Lemma one_isolate : forall p n, one_per_line p = true -> forallb one_per_line (fst (isolate_stmt p n)) = true.
Proof.
  assert (R : forall l, Forall (fun p => forall n, one_per_line p = true -> forallb one_per_line (fst (isolate_stmt p n)) = true) l -> forall n, forallb one_per_line l = true -> forallb one_per_line (fst (block l n)) = true).
  { induction 1 as [|p l Hp _ IH]; intros n E; [reflexivity|]. cbn in E. apply andb_true_iff in E. destruct E as [E1 E2]. cbn. specialize (Hp n E1). destruct (isolate_stmt p n) as [q n1].
    specialize (IH n1 E2). destruct (block l n1) as [r n2]. cbn in *. rewrite forallb_app, Hp, IH. reflexivity. }
  induction p using stmt_ind'; intros n E; cbn [one_per_line] in E.
  - cbn [isolate_stmt]. destruct (isolate_smalls l n) as [[i l1] n1] eqn:E1. cbn [fst]. rewrite forallb_app. cbn. rewrite (isolate_smalls_length _ _ _ _ _ E1), E.
    rewrite andb_true_r. clear. induction i; auto.
  - discriminate.
  - apply andb_true_iff in E. destruct E as [E1 E2]. rewrite isolate_if. pose proof (R b H (counted t n) E1) as R1. destruct (block b (counted t n)) as [b' n1].
    pose proof (R o H0 n1 E2) as R2. destruct (block o n1) as [o' n2]. cbn in *. rewrite R1, R2. reflexivity.
  - rewrite isolate_while. pose proof (R b H (counted t n) E) as R1. destruct (block b (counted t n)) as [b' n1]. cbn in *. rewrite R1. reflexivity.
  - rewrite isolate_for. pose proof (R b H (counted it (counted t n)) E) as R1. destruct (block b (counted it (counted t n))) as [b' n1]. cbn in *. rewrite R1. reflexivity.
Qed.
Lemma preprocess_one : forall l, forallb one_per_line (preprocess l) = true.
Proof.
  intros l. unfold preprocess, isolate_all. assert (H : forallb one_per_line (mark_all (expand (split l))) = true).
  { unfold mark_all, expand. pose proof (split_all_one l) as S. induction (split l) as [|p q IH]; [reflexivity|]. cbn in *. apply andb_true_iff in S. destruct S as [S1 S2].
    rewrite !one_map, S1, IH by exact S2. reflexivity. }
  revert H. generalize (mark_all (expand (split l))) 1. clear l. induction l as [|p l IH]; intros n H; [reflexivity|]. cbn in H. apply andb_true_iff in H. destruct H as [H1 H2].
  cbn. pose proof (one_isolate p n H1) as O. destruct (isolate_stmt p n) as [q n1]. specialize (IH n1 H2). destruct (isolate_block l n1) as [r n2]. cbn in *. rewrite forallb_app, O, IH. reflexivity.
Qed.
Lemma valid_prepared : forall l, forallb (every valid_targets) l = true ->
  forallb (every valid_targets) (mark_all (expand (split l))) = true.
Proof.
  intros l H. unfold mark_all, expand, split.
  assert (S : forallb (every valid_targets) (flat_map split_stmt l) = true).
  { induction l as [|p l IH]; [reflexivity|]. cbn in *. apply andb_true_iff in H. destruct H. rewrite forallb_app, every_split, IH by assumption. reflexivity. }
  induction (flat_map split_stmt l) as [|p q IH]; [reflexivity|]. cbn in *. apply andb_true_iff in S. destruct S as [S1 S2]. rewrite IH by exact S2. rewrite andb_true_r.
  apply every_map with (a := valid_targets).
  - assert (T : forall t, target t = true -> target (mark t) = true).
    { induction t using expr_ind'; cbn [target]; intros T; try discriminate; [reflexivity|]. destruct k; try discriminate; try reflexivity;
        (cbn [mark target]; clear - H0 T; induction H0 as [|e l He _ IH]; [reflexivity|]; cbn in *; apply andb_true_iff in T; destruct T; rewrite He, IH by assumption; reflexivity). }
    intros [] V; try reflexivity. cbn in *. clear - V T. induction ts as [|t ts IH]; [reflexivity|]. cbn in *. apply andb_true_iff in V. destruct V. rewrite T, IH by assumption. reflexivity.
  - apply every_map with (a := valid_targets); [|exact S1]. intros [] V; try exact V; try reflexivity. destruct t; try reflexivity. destruct k; reflexivity.
Qed.
Lemma preprocess_once : forall l, no_temporaries l -> forallb (every valid_targets) l = true ->
  forall x, temporary x -> count_occ string_dec (flat_map assigned (preprocess l)) x <= 1.
Proof.
  intros l N V. unfold preprocess. apply isolate_all_once; [apply names_prepared; exact N|]. apply valid_prepared; exact V.
Qed.
