(** Coarsening succeeds. *)
From Coq Require Import String Ascii DecimalString DecimalZ Relations Permutation Sorted.
From Verif Require Import Prelude GraphModel GraphSpec GraphProofs EngineModel EngineSpec EngineOptProofs EngineSchedProofs CoarseModel CoarseSpec CoarseValueProofs CoarseBaseProofs CoarseSubProofs CoarseProofs.
Local Open Scope nat_scope.
Local Open Scope list_scope.

(** ** The complement *)
Section Complement.
  Variable g : graph.
  Hypothesis T : tidy g.
  Variable targets : list nat.

  Definition has (p : nat) : Prop := exists n, In n (g_nodes g) /\ In (n_id n) targets /\ within g n p.
  Lemma has_iff p : has_target g targets p = true <-> has p.
  Proof.
    unfold has_target, has. rewrite existsb_exists. split; intros (n & Hn & H); exists n; (split; [exact Hn|]).
    - apply Bool.andb_true_iff in H. destruct H as [H1 H2]. apply nmem_in in H1. apply (encloses_iff g p n T Hn) in H2. now split.
    - destruct H as [H1 H2]. apply Bool.andb_true_iff. split; [now apply nmem_in|now apply encloses_iff].
  Qed.

  Lemma onat_eqb_iff a b : onat_eqb a b = true <-> a = b.
  Proof. destruct a, b; cbn; try rewrite Nat.eqb_eq; split; congruence. Qed.

  Lemma children_in p c : In c (map n_id (filter (fun n => onat_eqb (n_parent n) p) (g_nodes g))) <-> exists n, In n (g_nodes g) /\ n_id n = c /\ n_parent n = p.
  Proof.
    rewrite in_map_iff. split.
    - intros (n & <- & H). apply filter_In in H. destruct H as [H1 H2]. apply onat_eqb_iff in H2. now exists n.
    - intros (n & H1 & <- & H2). exists n. split; [reflexivity|]. apply filter_In. split; [exact H1|]. now apply onat_eqb_iff.
  Qed.

  (** position of a node in the list: parents come first *)
  Lemma parent_pos l1 n l2 p : g_nodes g = l1 ++ n :: l2 -> n_parent n = Some p -> exists a m b, l1 = a ++ m :: b /\ n_id m = p /\ In p (g_folds g).
  Proof.
    intros E Ep. destruct (tidy_parents g T l1 n l2 p E Ep) as [H F]. apply in_map_iff in H. destruct H as (m & Em & Hm). apply in_split in Hm. destruct Hm as (a & b & ->). exists a, m, b. now split.
  Qed.

  (** how far a fold is from the end of the list *)
  Definition room (p : option nat) (k : nat) : Prop :=
    match p with
    | None => length (g_nodes g) < k
    | Some q => exists l1 m l2, g_nodes g = l1 ++ m :: l2 /\ n_id m = q /\ length l2 < k
    end.
  Lemma room_child p k n : room p (S k) -> In n (g_nodes g) -> n_parent n = p -> room (Some (n_id n)) k.
  Proof.
    intros R Hn Ep. apply in_split in Hn. destruct Hn as (l1 & l2 & E). exists l1, n, l2. split; [exact E|]. split; [reflexivity|]. destruct p as [q|]; cbn in R.
    - destruct R as (a & m & b & Eg & Em & L). destruct (parent_pos l1 n l2 q E Ep) as (a' & m' & b' & -> & Em' & _).
      assert (length a = length a').
      { assert (N := tidy_ids g T). unfold graph_ok in N. apply (proj1 (NoDup_nth_error _)) with (i := length a) (j := length a') in N; [exact N| |].
        - rewrite map_length, Eg, app_length. cbn. lia.
        - rewrite !nth_error_map. rewrite Eg at 1. rewrite E, <- app_assoc. cbn [app]. rewrite !nth_error_app2 by lia. rewrite !Nat.sub_diag. cbn. congruence. }
      assert (Q := f_equal (@length _) Eg). rewrite E in Q. repeat rewrite app_length in Q. cbn [length] in Q. repeat rewrite app_length in Q. cbn [length] in Q. lia.
    - rewrite E, app_length in R. cbn in R. lia.
  Qed.


  (** folds that are opened on the way from [p] *)
  Inductive opened : option nat -> option nat -> Prop :=
  | op_here p : opened p p
  | op_down p m q : In m (g_nodes g) -> n_parent m = p -> In (n_id m) (g_folds g) -> ~ In (n_id m) targets -> has (n_id m) -> opened (Some (n_id m)) q -> opened p q.
  Lemma opened_trans p q r : opened p q -> opened q r -> opened p r.
  Proof. induction 1 as [p|p m q Hm Ep F Nt H O IH]; intros R; [exact R|]. apply (op_down p m r); auto. Qed.

  Lemma collect_ok : forall k p, room p k -> exists l, collect k g targets p = Ok l /\
    forall z, In z l <-> exists n, In n (g_nodes g) /\ n_id n = z /\ ~ In z targets /\ ~ (In z (g_folds g) /\ has z) /\ opened p (n_parent n).
  Proof.
    induction k as [|k IH]; intros p R; [exfalso; destruct p as [q|]; cbn in R; [destruct R as (? & ? & ? & _ & _ & L); lia|lia]|].
    cbn [collect]. set (children := map n_id (filter (fun n => onat_eqb (n_parent n) p) (g_nodes g))).
    destruct (rmapM_f2 (fun c => if nmem c targets then Ok [] else if nmem c (g_folds g) && has_target g targets c then collect k g targets (Some c) else Ok [c])
      (fun c l => forall z, In z l <-> ~ In c targets /\ (~ (In c (g_folds g) /\ has c) /\ z = c \/ (In c (g_folds g) /\ has c) /\ exists n, In n (g_nodes g) /\ n_id n = z /\ ~ In z targets /\ ~ (In z (g_folds g) /\ has z) /\ opened (Some c) (n_parent n))) children) as (ls & E & F).
    { intros c Hc. destruct (nmem c targets) eqn:Ct; [exists []; split; [reflexivity|]; apply nmem_in in Ct; intros z; cbn; tauto|].
      assert (Nt : ~ In c targets) by (intros I; apply nmem_in in I; congruence). destruct (nmem c (g_folds g) && has_target g targets c) eqn:Cf.
      - apply Bool.andb_true_iff in Cf. destruct Cf as [C1 C2]. apply nmem_in in C1. apply has_iff in C2. apply children_in in Hc. destruct Hc as (n & Hn & <- & Ep).
        destruct (IH (Some (n_id n)) (room_child p k n R Hn Ep)) as (l & El & Hl). exists l. split; [exact El|]. intros z. rewrite Hl. tauto.
      - exists [c]. split; [reflexivity|]. assert (Nf : ~ (In c (g_folds g) /\ has c)).
        { intros [F1 F2]. apply nmem_in in F1. apply has_iff in F2. rewrite F1, F2 in Cf. discriminate. }
        intros z. cbn. split; [intros [<-|[]]; split; [exact Nt|left; split; [exact Nf|reflexivity]]|]. intros [_ [[_ ->]|[B _]]]; [now left|contradiction]. }
    rewrite E. cbn [rbind]. exists (concat ls). split; [reflexivity|]. intros z. rewrite in_concat. split.
    - intros (l & Hl & Hz). destruct (Forall2_In_r _ _ _ _ F Hl) as (c & Hc & Hcl). apply Hcl in Hz. apply children_in in Hc. destruct Hc as (m & Hm & <- & Ep). destruct Hz as [Nt [[Nf ->]|[[F1 F2] (n & Hn & En & N1 & N2 & O)]]].
      + exists m. repeat split; try assumption. rewrite Ep. constructor.
      + exists n. repeat split; try assumption. apply (op_down p m (n_parent n)); assumption.
    - intros (n & Hn & <- & Nt & Nf & O). inversion O as [p' E1|p' m q' Hm Ep F1 Ntm F2 O']; subst.
      + assert (Hc : In (n_id n) children) by (apply children_in; exists n; now repeat split). destruct (Forall2_In_l _ _ _ _ F Hc) as (l & Hl & Hcl). exists l. split; [exact Hl|]. apply Hcl. tauto.
      + assert (Hc : In (n_id m) children) by (apply children_in; exists m; now repeat split). destruct (Forall2_In_l _ _ _ _ F Hc) as (l & Hl & Hcl). exists l. split; [exact Hl|]. apply Hcl. split; [exact Ntm|]. right. split; [now split|]. exists n. now repeat split.
  Qed.

  (** nothing on the way is a target *)
  Lemma opened_clean p q : opened p q -> forall m, In m (g_nodes g) -> q = Some (n_id m) ->
    (forall p', p = Some p' -> ~ In p' targets /\ has p' /\ forall m', In m' (g_nodes g) -> n_id m' = p' -> forall q', within g m' q' -> ~ In q' targets /\ has q') ->
    ~ In (n_id m) targets /\ has (n_id m) /\ forall q', within g m q' -> ~ In q' targets /\ has q'.
  Proof.
    induction 1 as [p|p m0 q Hm0 Ep F Nt H O IH]; intros m Hm Eq G.
    - destruct (G _ Eq) as (G1 & G2 & G3). split; [exact G1|]. split; [exact G2|]. exact (G3 m Hm eq_refl).
    - apply (IH m Hm Eq). intros p' E. injection E as <-. split; [exact Nt|]. split; [exact H|]. intros m' Hm' Em' q' W. assert (m' = m0) as -> by exact (node_unique g m' m0 (tidy_ids g T) Hm' Hm0 Em').
      inversion W as [? ? E1|? q1 m1 ? E1 Hm1 Em1 W1]; subst.
      + destruct (G q' E1) as (G1 & G2 & _). now split.
      + destruct (G (n_id m1) E1) as (_ & _ & G3). exact (G3 m1 Hm1 eq_refl q' W1).
  Qed.
  Lemma kept_clean n q : In n (g_nodes g) -> opened None (n_parent n) -> within g n q -> ~ In q targets /\ has q.
  Proof.
    intros Hn O W. assert (K : forall q0, n_parent n = Some q0 -> exists m, In m (g_nodes g) /\ n_id m = q0).
    { intros q0 E. apply in_split in Hn. destruct Hn as (l1 & l2 & Eg). destruct (parent_pos l1 n l2 q0 Eg E) as (a & m & b & -> & Em & _). exists m. split; [|exact Em]. rewrite Eg, !in_app_iff. left. right. now left. }
    inversion W as [? ? E1|? q1 m1 ? E1 Hm1 Em1 W1]; subst.
    - destruct (K q E1) as (m & Hm & <-). rewrite E1 in O. destruct (opened_clean None _ O m Hm eq_refl) as (G1 & G2 & _); [discriminate|]. now split.
    - rewrite E1 in O. destruct (opened_clean None _ O m1 Hm1 eq_refl) as (_ & _ & G3); [discriminate|]. now apply G3.
  Qed.

  (** every node is on the way, or in a target or in a fold that stays *)
  Lemma reached i : forall l1 n l2, g_nodes g = l1 ++ n :: l2 -> length l1 = i ->
    opened None (n_parent n) \/ exists z m, In m (g_nodes g) /\ n_id m = z /\ In z (g_folds g) /\ within g n z /\ (In z targets \/ ~ In z targets /\ ~ has z /\ opened None (n_parent m)).
  Proof.
    induction i as [i IH] using (well_founded_induction lt_wf). intros l1 n l2 E L. destruct (n_parent n) as [q|] eqn:Ep; [|left; constructor].
    destruct (parent_pos l1 n l2 q E Ep) as (a & m & b & -> & Em & Fq). assert (Eg : g_nodes g = a ++ m :: (b ++ n :: l2)) by (rewrite E, <- app_assoc; reflexivity).
    assert (Hm : In m (g_nodes g)) by (rewrite Eg; apply in_app_iff; right; now left). rewrite app_length in L. cbn in L.
    destruct (IH (length a) ltac:(lia) a m _ Eg eq_refl) as [O|(z & m' & Hm' & Em' & Fz & W & K)].
    - destruct (in_dec Nat.eq_dec q targets) as [It|Nt]; [right; exists q, m; repeat split; try assumption; [now constructor|now left]|].
      destruct (has_target g targets q) eqn:Hq.
      + left. apply has_iff in Hq. apply (opened_trans _ _ _ O). subst q. apply (op_down (n_parent m) m (Some (n_id m))); trivial. constructor.
      + right. exists q, m. repeat split; try assumption; [now constructor|]. right. split; [exact Nt|]. split; [intros H; apply has_iff in H; congruence|exact O].
    - right. exists z, m'. repeat split; try assumption. exact (within_up g n q m z Ep Hm Em W).
  Qed.

  Lemma complement_ok : exists l, coarse_complement g targets = Ok l /\
    (forall z, In z l -> exists n, In n (g_nodes g) /\ n_id n = z /\ ~ In z targets /\ (In z (g_folds g) -> ~ has z) /\ forall q, within g n q -> ~ In q targets /\ has q) /\
    (forall n, In n (g_nodes g) -> ~ In (n_id n) (g_folds g) ->
      In (n_id n) l \/ In (n_id n) targets \/ exists z, In z (g_folds g) /\ within g n z /\ (In z targets \/ In z l)).
  Proof.
    destruct (collect_ok (S (depth g)) None) as (l & E & H); [cbn; unfold depth; lia|]. exists l. split; [exact E|]. split.
    - intros z Hz. apply H in Hz. destruct Hz as (n & Hn & <- & Nt & Nf & O). exists n. repeat split; try assumption; try tauto; eapply kept_clean; eassumption.
    - intros n Hn Ln. destruct (in_split _ _ Hn) as (l1 & l2 & Eg). destruct (reached (length l1) l1 n l2 Eg eq_refl) as [O|(z & m & Hm & Em & Fz & W & K)].
      + destruct (in_dec Nat.eq_dec (n_id n) targets) as [It|Nt]; [right; now left|]. left. apply H. exists n. repeat split; try assumption. tauto.
      + right. right. exists z. split; [exact Fz|]. split; [exact W|]. destruct K as [It|(Nt & Nh & O)]; [now left|]. right. apply H. exists m. repeat split; try assumption. tauto.
  Qed.
End Complement.

(** ** Sorting *)
Lemma insert_perm k u l : Permutation (insert k u l) ((k, u) :: l).
Proof. induction l as [|[k' v] l IH]; cbn [insert]; [reflexivity|]. destruct (k' <=? k); [|reflexivity]. rewrite IH. apply perm_swap. Qed.
Lemma insert_sorted k u l : StronglySorted (fun a b => fst a <= fst b) l -> StronglySorted (fun a b => fst a <= fst b) (insert k u l).
Proof.
  induction 1 as [|[k' v] l S IH F]; cbn [insert]; [repeat constructor|]. destruct (Nat.leb_spec k' k) as [L|L].
  - constructor; [exact IH|]. rewrite (insert_perm k u l). constructor; [exact L|exact F].
  - constructor; [now constructor|]. constructor; [cbn; lia|]. eapply Forall_impl; [|exact F]. cbn. intros [a b]. cbn. lia.
Qed.
Lemma sort_ok l : exists sl, sort_units l = map snd sl /\ Permutation sl l /\ StronglySorted (fun a b => fst a <= fst b) sl.
Proof.
  unfold sort_units. eexists. split; [reflexivity|].
  assert (gen : forall l acc, StronglySorted (fun a b : nat * unit_ => fst a <= fst b) acc ->
    Permutation (fold_left (fun acc e => insert (fst e) (snd e) acc) l acc) (l ++ acc) /\ StronglySorted (fun a b => fst a <= fst b) (fold_left (fun acc e => insert (fst e) (snd e) acc) l acc)).
  { clear. induction l as [|[k u] l IH]; intros acc S; cbn [fold_left]; [now split|]. destruct (IH (insert k u acc) (insert_sorted k u acc S)) as [P Q]. split; [|exact Q].
    cbn [fst snd]. rewrite P. rewrite insert_perm. cbn [app]. symmetry. apply Permutation_middle. }
  destruct (gen l [] (SSorted_nil _)) as [P Q]. rewrite app_nil_r in P. now split.
Qed.
Lemma sorted_split {A} (R : A -> A -> Prop) l1 e l2 : StronglySorted R (l1 ++ e :: l2) -> forall e', In e' l2 -> R e e'.
Proof. induction l1 as [|a l1 IH]; cbn; intros S; inversion S as [|? ? S' F]; subst; [intros e' H; rewrite Forall_forall in F; now apply F|now apply IH]. Qed.

Lemma index_before l : forall a b i j, NoDup l -> before l a b -> index_of a l = Some i -> index_of b l = Some j -> i < j.
Proof.
  induction l as [|x l IH]; intros a b i j N (l1 & l2 & l3 & E) Ia Ib; [destruct l1; discriminate|]. inversion N as [|? ? Nx Nl]; subst. cbn [index_of] in Ia, Ib.
  destruct l1 as [|y l1]; cbn [app] in E; injection E as -> E.
  - rewrite Nat.eqb_refl in Ia. injection Ia as <-. destruct (Nat.eqb_spec b a) as [->|D]; [exfalso; apply Nx; rewrite E; apply in_app_iff; right; now left|].
    destruct (index_of b l) as [j'|]; [|discriminate]. injection Ib as <-. lia.
  - assert (B : before l a b) by now exists l1, l2, l3. assert (Ha : In a l) by (rewrite E; apply in_app_iff; right; now left).
    assert (Hb : In b l) by (rewrite E; apply in_app_iff; right; right; apply in_app_iff; right; now left).
    destruct (Nat.eqb_spec a y) as [->|]; [contradiction|]. destruct (Nat.eqb_spec b y) as [->|]; [contradiction|].
    destruct (index_of a l) as [i'|] eqn:Ea; [|discriminate]. destruct (index_of b l) as [j'|] eqn:Eb; [|discriminate]. injection Ia as <-. injection Ib as <-.
    assert (i' < j') by exact (IH a b i' j' Nl B Ea Eb). lia.
Qed.
Lemma index_some l : forall x, In x l -> exists i, index_of x l = Some i.
Proof.
  induction l as [|y l IH]; intros x; [intros []|]. intros H. cbn [index_of]. destruct (Nat.eqb_spec x y) as [->|D]; [eauto|]. destruct H as [->|H]; [contradiction|]. destruct (IH x H) as [i ->]. cbn. eauto.
Qed.
Lemma fold_max l : forall m, m <= fold_left Nat.max l m /\ (forall x, In x l -> x <= fold_left Nat.max l m) /\ (fold_left Nat.max l m = m \/ In (fold_left Nat.max l m) l).
Proof.
  induction l as [|x l IH]; intros m; cbn [fold_left]; [repeat split; [lia|intros ? []|now left]|]. destruct (IH (Nat.max m x)) as (H1 & H2 & H3). split; [lia|]. split.
  - intros y [->|Hy]; [lia|now apply H2].
  - destruct H3 as [->|H3]; [|right; now right]. destruct (Nat.max_spec m x) as [[_ ->]|[_ ->]]; [right; now left|now left].
Qed.

(** ** Remapping *)
Definition bound (cx : context) (k : string) : Prop := exists r, cget k cx = Some r.
Lemma bound_set cx k k' r : bound cx k -> bound (cset k' r cx) k.
Proof. intros [x E]. unfold bound. rewrite cget_cset. destruct (String.eqb k' k); eauto. Qed.
Lemma bound_set_here cx k r : bound (cset k r cx) k.
Proof. unfold bound. rewrite cget_cset, String.eqb_refl. eauto. Qed.
Lemma bound_all cx l k : bound cx k \/ In k (map fst l) -> bound (bind_all cx l) k.
Proof.
  unfold bind_all. revert cx. induction l as [|[k' r] l IH]; intros cx [B|H]; cbn [fold_left]; try (destruct H; fail); [exact B|apply IH; left; now apply bound_set|].
  cbn [map fst] in H. destruct H as [->|H]; apply IH; [left; apply bound_set_here|now right].
Qed.

Lemma remap_total cx g r : well_named g r -> (forall k i, In (k, i) (g_inputs g) -> bound cx k) ->
  (forall n, In n (g_nodes g) -> about r (n_id n) -> bound cx (n_name n)) -> exists r', remap cx [] "" r = Ok r'.
Proof.
  intros W Bi. induction W as [n Hn Ln|k i Hi|i|r a W IH]; intros Bn; cbn [remap smem existsb].
  - destruct (Bn n Hn (about_node _ _)) as [x E]. unfold clookup. rewrite E. eauto.
  - destruct (Bi k i Hi) as [x E]. unfold clookup. rewrite E. eauto.
  - eauto.
  - destruct (match match unwrap r with RNode _ n => Some (lifted_key n a) | RInput _ n => Some (lifted_key n a) | _ => None end with Some k => cget k cx | None => None end); [eauto|].
    destruct IH as [x E]; [intros n Hn A; apply Bn; [exact Hn|now constructor]|]. rewrite E. cbn. eauto.
Qed.

(** bindings of names that are not inputs are to nodes and items *)
Definition nodeish (r : ref) : Prop := match r with RNode _ _ | RAttr _ _ => True | _ => False end.
Definition node_ctx (g : graph) (cx : context) : Prop := forall k r, cget k cx = Some r -> In k (map fst (g_inputs g)) \/ nodeish r.
Lemma node_ctx_set g cx k r : node_ctx g cx -> nodeish r -> node_ctx g (cset k r cx).
Proof. intros C N k' r' E. rewrite cget_cset in E. destruct (String.eqb k k'); [injection E as <-; now right|now apply C]. Qed.
Lemma node_ctx_bind g l : forall cx, node_ctx g cx -> (forall e, In e l -> nodeish (snd e)) -> node_ctx g (bind_all cx l).
Proof. unfold bind_all. induction l as [|e l IH]; intros cx C H; cbn [fold_left]; [exact C|]. apply IH; [apply node_ctx_set; [exact C|apply H; now left]|]. intros e' He. apply H. now right. Qed.
Lemma output_refs_fst {A} r (l : list A) : map fst (output_refs r l) = l.
Proof.
  assert (G : forall k, map fst (map (fun e : A * nat => (fst e, RAttr r (AInt (Z.of_nat (snd e))))) (combine l (seq k (length l)))) = l).
  { intros k. rewrite map_map. cbn [fst]. change (fun x : A * nat => fst x) with (@fst A nat). apply combine_seq_fst. }
  destruct l as [|x [|y l]]; [reflexivity|reflexivity|]. apply G.
Qed.
Lemma output_refs_nodeish {A} r (l : list A) e : nodeish r -> In e (output_refs r l) -> nodeish (snd e).
Proof. intros N H. destruct e as [x r']. apply output_refs_in in H. destruct H as (i & _ & [[_ ->]|[_ ->]]); [exact N|exact I]. Qed.

(** ** Subgraphs *)
Section Sub.
  Variable g : graph.
  Variable ord ord' : list nat -> list nat.
  Hypothesis Hord : forall l x, In x (ord l) <-> In x l.
  Hypothesis Hord' : forall l x, In x (ord' l) <-> In x l.
  Hypothesis T : tidy g.

  Lemma path_nodes path sub x : create_subgraph ord ord' g path = Ok sub -> In x path -> exists n, In n (g_nodes g) /\ n_id n = x.
  Proof.
    unfold create_subgraph. destruct (nodes_of g (ord path)) as [ns|] eqn:E; [|discriminate]. intros _ H. apply Hord in H. apply rmapM_inv in E. destruct (Forall2_In_l _ _ _ _ E H) as (n & _ & En).
    destruct (get_node g x) as [m|] eqn:Em; [|discriminate]. apply get_node_some in Em. exists m. exact Em.
  Qed.
  Lemma sub_members path sub x : create_subgraph ord ord' g path = Ok sub -> (In x (map n_id (g_nodes sub)) <-> In x path).
  Proof.
    intros C. destruct (create_inv g ord ord' Hord Hord' T path sub C) as (ins & internal & _ & _ & _ & H4 & H5 & _). rewrite in_map_iff. split.
    - intros (m & <- & Hm). destruct (H4 m Hm) as (n & [Hn Pn] & E & _). now rewrite E.
    - intros Hx. destruct (path_nodes path sub x C Hx) as (n & Hn & <-). destruct (H5 n (conj Hn Hx)) as (m & Hm & E & _). now exists m.
  Qed.
  Lemma remap_internal cx internal r n : unwrap r = RNode (n_id n) (n_name n) -> In (n_name n) internal -> remap cx internal "" r = Ok r.
  Proof.
    intros E I. apply smem_in in I. induction r as [i nm|i nm|i|r IH a]; cbn [unwrap] in E; try discriminate.
    - injection E as -> ->. cbn [remap]. rewrite I. reflexivity.
    - cbn [remap]. rewrite E, I, (IH E). reflexivity.
  Qed.
  Lemma external_outputs_in path r : In r (external_outputs ord g path) -> exists n, In n (g_nodes g) /\ In (n_id n) path /\ ~ In (n_id n) (g_folds g) /\ unwrap r = RNode (n_id n) (n_name n) /\ seen g path (n_id n).
  Proof.
    unfold external_outputs. intros Hr. apply rdedup_incl in Hr. apply in_app_iff in Hr. destruct Hr as [Hr|Hr].
    - apply filter_In in Hr. destruct Hr as [Hr M]. destruct (tidy_outputs g T _ Hr) as [W _]. apply well_named_unwrap in W. destruct (unwrap r) as [i nm|? ?|?|? ?] eqn:Eu; try discriminate. apply nmem_in in M.
      inversion W as [n Hn Ln| | |]; subst. exists n. repeat split; try assumption; [now apply in_map|]. right. exists r. split; [exact Hr|]. apply about_unwrap. eauto.
    - apply in_flat_map in Hr. destruct Hr as (i & Hi & Hr). rewrite Hord in Hi. apply in_flat_map in Hr. destruct Hr as (d & Hd & Hr). destruct (nmem d path) eqn:Nd; [destruct Hr|].
      destruct (get_node g d) as [m|] eqn:Em; [|destruct Hr]. apply get_node_some in Em. destruct Em as [Hm <-]. apply in_flat_map in Hr. destruct Hr as (q & Hq & Hr).
      assert (W := well_named_unwrap _ _ (tidy_refs g T m q Hm Hq)). destruct (unwrap q) as [j nm|? ?|?|? ?]; try destruct Hr. destruct (Nat.eqb_spec j i) as [->|]; [|destruct Hr].
      destruct Hr as [<-|[]]. inversion W as [n Hn Ln| | |]; subst. exists n. repeat split; try assumption; [now apply in_map|]. left. exists (n_id m). split; [now apply in_map|]. split; [intros I; apply nmem_in in I; congruence|]. now apply outputs_feeds.
  Qed.
  Lemma ref_eqb_about a b i : ref_eqb a b = true -> about a i -> about b i.
  Proof.
    intros E A. revert b E. induction A as [j n|r x j A IH]; intros b E; destruct b as [| | |b y]; try discriminate; cbn in E.
    - apply Nat.eqb_eq in E. subst. constructor.
    - apply Bool.andb_true_iff in E. constructor. now apply IH.
  Qed.
  Lemma rdedup_about l : forall seen r i, In r l -> about r i -> (exists b, In b (rdedup seen l) /\ about b i) \/ exists b, In b seen /\ about b i.
  Proof.
    induction l as [|a l IH]; intros seen0 r i H A; [destruct H|]. cbn [rdedup]. destruct (rmem a seen0) eqn:M.
    - destruct H as [->|H]; [|now apply (IH seen0 r)]. right. unfold rmem in M. apply existsb_exists in M. destruct M as (b & Hb & E). exists b. split; [exact Hb|]. exact (ref_eqb_about r b i E A).
    - destruct H as [->|H]; [left; exists r; split; [now left|exact A]|]. destruct (IH (a :: seen0) r i H A) as [(b & Hb & Ab)|(b & [->|Hb] & Ab)]; [left; exists b; split; [now right|exact Ab]|left; exists b; split; [now left|exact Ab]|right; now exists b].
  Qed.
  Lemma external_outputs_seen path x : seen g path x -> exists r, In r (external_outputs ord g path) /\ about r x.
  Proof.
    intros (Px & Lx & H). unfold external_outputs. match goal with |- context [rdedup [] ?l] => set (all := l) end.
    assert (G : exists r, In r all /\ about r x).
    { destruct H as [(d & Nd & Pd & Fd)|(o & Ho & Ao)].
      - assert (Fd' := Fd). destruct Fd as (m & q & Hm & <- & Hq & Aq). assert (Aq' := Aq). apply about_unwrap in Aq. destruct Aq as [nm Eu]. exists (RNode x nm). split; [|constructor]. unfold all. apply in_app_iff. right. apply in_flat_map. exists x. split; [now apply Hord|]. apply in_flat_map. exists (n_id m). split; [now apply outputs_feeds|].
        destruct (nmem (n_id m) path) eqn:E; [apply nmem_in in E; contradiction|]. rewrite (get_node_in g (n_id m) m (tidy_ids g T) Hm eq_refl). apply in_flat_map. exists q. split; [now apply call_refs_in|]. rewrite Eu, Nat.eqb_refl. now left.
      - exists o. split; [|exact Ao]. unfold all. apply in_app_iff. left. apply filter_In. split; [exact Ho|]. apply about_unwrap in Ao. destruct Ao as [nm ->]. now apply nmem_in. }
    destruct G as (r & Hr & Ar). destruct (rdedup_about all [] r x Hr Ar) as [B|(b & [] & _)]. exact B.
  Qed.
  Lemma sub_outputs path sub : create_subgraph ord ord' g path = Ok sub -> g_outputs sub = external_outputs ord g path.
  Proof.
    intros C. destruct (create_inv g ord ord' Hord Hord' T path sub C) as (ins & internal & H1 & _ & _ & _ & _ & H6).
    assert (G : Forall2 (fun r r' => r' = r) (external_outputs ord g path) (g_outputs sub)).
    { refine (Forall2_in_imp _ _ _ _ _ H6). intros r r' Hr E. apply external_outputs_in in Hr. destruct Hr as (n & Hn & Pn & _ & Eu & _).
      rewrite (remap_internal _ internal r n Eu) in E; [now injection E as <-|]. apply H1. exists n. repeat split; assumption. }
    revert G. generalize (external_outputs ord g path), (g_outputs sub). intros l l' G. clear - G. induction G; congruence.
  Qed.
  Lemma sub_results path sub x : create_subgraph ord ord' g path = Ok sub -> (In x (base_ids (g_outputs sub)) <-> seen g path x).
  Proof.
    intros C. rewrite base_ids_in, (sub_outputs path sub C). split.
    - intros (r & Hr & A). apply external_outputs_in in Hr. destruct Hr as (n & Hn & Pn & _ & Eu & S). apply about_unwrap in A. destruct A as [nm E]. rewrite E in Eu. injection Eu as -> _. exact S.
    - apply external_outputs_seen.
  Qed.
End Sub.
