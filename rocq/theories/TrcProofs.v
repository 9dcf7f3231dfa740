(** Proofs about tracing: the graphs that are built. *)
From Coq Require Import String Ascii Relations Lia.
From Verif Require Import Prelude GraphModel GraphSpec EngineModel EngineSpec CoarseModel CoarseSpec CoarseValueProofs CoarseBaseProofs BuildModel BuildSpec BuildProofs NamModel TrcModel TrcSpec.
Local Open Scope nat_scope.
Local Open Scope list_scope.

Lemma rbind_inv {A B} (r : result A) (k : A -> result B) v : rbind r k = Ok v -> exists a, r = Ok a /\ k a = Ok v.
Proof. destruct r; cbn; [eauto|discriminate]. Qed.
Ltac binv H := match type of H with
  | rbind ?r ?k = Ok ?v => apply rbind_inv in H; destruct H as (? & ? & H)
  end.

(** ** Induction *)
Section Induction.
  Variable P : farg -> Prop.
  Hypothesis Hn : forall n, P (ANode n).
  Hypothesis Ha : forall c, P (AAtom c).
  Hypothesis Ht : forall names l, Forall P l -> P (ATuple names l).
  Hypothesis Hl : forall l, Forall P l -> P (AList l).
  Hypothesis Hs : forall a b c, P a -> P b -> P c -> P (ASlice a b c).
  Hypothesis Hd : forall l, Forall P (map snd l) -> P (ADict l).
  Fixpoint farg_rec' (x : farg) : P x :=
    match x with
    | ANode n => Hn n
    | AAtom c => Ha c
    | ATuple names l => Ht names l ((fix go l : Forall P l := match l with [] => Forall_nil _ | y :: l' => Forall_cons y (farg_rec' y) (go l') end) l)
    | AList l => Hl l ((fix go l : Forall P l := match l with [] => Forall_nil _ | y :: l' => Forall_cons y (farg_rec' y) (go l') end) l)
    | ASlice a b c => Hs a b c (farg_rec' a) (farg_rec' b) (farg_rec' c)
    | ADict l => Hd l ((fix go l : Forall P (map snd l) := match l with [] => Forall_nil _ | y :: l' => Forall_cons (snd y) (farg_rec' (snd y)) (go l') end) l)
    end.
End Induction.
Section ModInduction.
  Variable P : fmod -> Prop.
  Hypothesis H : forall self attrs g ch, Forall P (map snd ch) -> P (FMod self attrs g ch).
  Fixpoint fmod_rec' (m : fmod) : P m :=
    match m with
    | FMod self attrs g ch => H self attrs g ch ((fix go l : Forall P (map snd l) := match l with [] => Forall_nil _ | y :: l' => Forall_cons (snd y) (fmod_rec' (snd y)) (go l') end) ch)
    end.
End ModInduction.

(** ** Graphs under construction *)
Definition leaf_list (g : graph) : list gnode := filter (fun n => negb (nmem (n_id n) (g_folds g))) (g_nodes g).
(** references to inputs, leaves and constants *)
Definition simple (g : graph) (r : ref) : Prop :=
  match r with
  | RNode i k => exists m, In m (leaf_list g) /\ n_id m = i /\ n_name m = k
  | RInput i k => In (k, i) (g_inputs g)
  | RConst _ => True
  | RAttr _ _ => False
  end.
(** leaves refer to leaves before them *)
Definition ordered (l : list gnode) : Prop := forall l1 n l2 i k, l = l1 ++ n :: l2 -> In (RNode i k) (call_refs n) -> In i (map n_id l1).
Record wf (lo : nat) (g : graph) (next : nat) : Prop := mkWf {
  wf_le : lo <= next;
  wf_ids : NoDup (ids_of g);
  wf_range : forall i, In i (ids_of g) \/ In i (map snd (g_inputs g)) -> lo <= i < next;
  wf_folds : forall i, In i (g_folds g) -> In i (ids_of g);
  wf_names : NoDup (map fst (g_inputs g));
  wf_inputs : NoDup (map snd (g_inputs g));
  wf_refs : forall n r, In n (g_nodes g) -> In r (call_refs n) -> simple g r;
  wf_order : ordered (leaf_list g);
  wf_outs : forall r, In r (g_outputs g) -> simple g r /\ is_node_ref r = true }.
Definition env_ok (b : builder) : Prop := forall n r, aget Nat.eqb n (b_env b) = Some r -> simple (b_graph b) r.

(** the graph grows *)
Definition grows (g g' : graph) : Prop :=
  exists more mi ll, g_nodes g' = g_nodes g ++ more /\ g_inputs g' = g_inputs g ++ mi /\ leaf_list g' = leaf_list g ++ ll.
Lemma grows_refl g : grows g g.
Proof. exists [], [], []. now rewrite !app_nil_r. Qed.
Lemma grows_trans g1 g2 g3 : grows g1 g2 -> grows g2 g3 -> grows g1 g3.
Proof. intros (a & b & l & H1 & H2 & H3) (a' & b' & l' & K1 & K2 & K3). exists (a ++ a'), (b ++ b'), (l ++ l'). rewrite K1, K2, K3, H1, H2, H3, <- !app_assoc. auto. Qed.
Lemma simple_grows g g' r : grows g g' -> simple g r -> simple g' r.
Proof.
  intros (a & b & l & H1 & H2 & H3). destruct r as [i k|i k|i|r x]; cbn; auto.
  - intros (m & Hm & E). exists m. rewrite H3, in_app_iff. auto.
  - intros Hi. rewrite H2, in_app_iff. now left.
Qed.
Lemma leaf_in g n : In n (leaf_list g) -> In n (g_nodes g).
Proof. intros H. now apply filter_In in H. Qed.
Lemma nmem_in i l : nmem i l = true <-> In i l.
Proof. unfold nmem. rewrite existsb_exists. split; [intros (x & Hx & E); apply Nat.eqb_eq in E; now subst|intros H; exists i; split; [exact H|apply Nat.eqb_refl]]. Qed.
Lemma has_fresh g i : ~ In i (ids_of g) -> has_id g i = false.
Proof. intros H. destruct (has_id g i) eqn:E; [|reflexivity]. apply has_id_in in E. contradiction. Qed.

(** ** One more leaf *)
Definition with_leaf (g : graph) (n : gnode) : graph := mkGraph (g_nodes g ++ [n]) (g_inputs g) (g_outputs g) (g_folds g).
Lemma ordered_snoc l n : ordered l -> (forall i k, In (RNode i k) (call_refs n) -> In i (map n_id l)) -> ordered (l ++ [n]).
Proof.
  intros O H l1 m l2 i k E Hr. destruct l2 as [|z l2] using rev_ind.
  - apply app_inj_tail in E. destruct E as [-> ->]. now apply (H i k).
  - clear IHl2. rewrite app_comm_cons, app_assoc in E. apply app_inj_tail in E. destruct E as [-> ->]. now apply (O l1 m l2 i k).
Qed.
Lemma with_leaf_list lo g next n : wf lo g next -> ~ In (n_id n) (ids_of g) -> leaf_list (with_leaf g n) = leaf_list g ++ [n].
Proof.
  intros W F. unfold leaf_list, with_leaf. cbn [g_nodes g_folds]. rewrite filter_app. f_equal. cbn.
  destruct (nmem (n_id n) (g_folds g)) eqn:E; [|reflexivity]. apply nmem_in in E. destruct F. now apply (wf_folds _ _ _ W).
Qed.
Lemma with_leaf_wf lo g next n : wf lo g next -> n_id n = next -> (forall r, In r (call_refs n) -> simple g r) ->
  wf lo (with_leaf g n) (S next) /\ grows g (with_leaf g n) /\ simple (with_leaf g n) (RNode (n_id n) (n_name n)).
Proof.
  intros W En Hr. assert (F : ~ In (n_id n) (ids_of g)). { intros K. assert (lo <= n_id n < next) by (apply (wf_range _ _ _ W); now left). lia. }
  assert (L := with_leaf_list lo g next n W F).
  assert (G : grows g (with_leaf g n)). { exists [n], [], [n]. split; [reflexivity|]. split; [now rewrite app_nil_r|exact L]. }
  split; [|split; [exact G|]].
  - destruct W as [W1 W2 W3 W4 W5 W6 W7 W8 W9]. constructor; try assumption.
    + lia.
    + unfold ids_of, with_leaf. cbn [g_nodes]. rewrite map_app. apply NoDup_app_intro; [exact W2|constructor; [intros []|constructor]|]. intros x Hx [<-|[]]. contradiction.
    + intros i [K|K]; [|specialize (W3 i (or_intror K)); lia]. unfold ids_of, with_leaf in K. cbn [g_nodes] in K. rewrite map_app, in_app_iff in K. destruct K as [K|[<-|[]]]; [specialize (W3 i (or_introl K)); lia|lia].
    + intros i K. unfold ids_of, with_leaf. cbn [g_nodes]. rewrite map_app, in_app_iff. left. now apply W4.
    + intros m r Hm Hr'. unfold with_leaf in Hm. cbn [g_nodes] in Hm. rewrite in_app_iff in Hm. apply (simple_grows g _ r G). destruct Hm as [Hm|[<-|[]]]; [now apply (W7 m)|now apply Hr].
    + rewrite L. apply ordered_snoc; [exact W8|]. intros i k K. destruct (Hr _ K) as (m & Hm & <- & _). now apply in_map.
    + intros r K. destruct (W9 r K). split; [now apply (simple_grows g)|assumption].
  - unfold simple. exists n. rewrite L, in_app_iff. repeat split. right. now left.
Qed.

Section Wf.
  Variable o : origin.

  Lemma new_node_wf lo b name t args kwargs op b' r : wf lo (b_graph b) (b_next b) -> (forall x, In x (args ++ map snd kwargs) -> simple (b_graph b) x) ->
    new_node o b name t args kwargs op = Ok (b', r) ->
    let n := mkNode (b_next b) name (o_target o t) args op kwargs None None in
    b' = mkB (with_leaf (b_graph b) n) (b_env b) (S (b_next b)) /\ r = RNode (b_next b) name /\ wf lo (b_graph b') (b_next b') /\ grows (b_graph b) (b_graph b') /\ simple (b_graph b') r.
  Proof.
    intros W Hr E n. unfold new_node in E. cbv zeta in E. unfold add_node in E. cbn [n_id] in E. destruct (has_id (b_graph b) (b_next b)); [discriminate|]. cbn [rbind] in E. injection E as <- <-.
    destruct (with_leaf_wf lo (b_graph b) (b_next b) n W eq_refl Hr) as (A & B & C). split; [reflexivity|]. split; [reflexivity|]. auto.
  Qed.

  (** conversions only add leaves *)
  Definition steps_to (lo : nat) (b b' : builder) : Prop :=
    wf lo (b_graph b') (b_next b') /\ grows (b_graph b) (b_graph b') /\ b_env b' = b_env b /\ b_next b <= b_next b' /\ g_inputs (b_graph b') = g_inputs (b_graph b) /\ g_outputs (b_graph b') = g_outputs (b_graph b).
  Lemma steps_refl lo b : wf lo (b_graph b) (b_next b) -> steps_to lo b b.
  Proof. intros W. split; [exact W|]. split; [apply grows_refl|]. auto. Qed.
  Lemma steps_trans lo b1 b2 b3 : steps_to lo b1 b2 -> steps_to lo b2 b3 -> steps_to lo b1 b3.
  Proof. intros (A1 & A2 & A3 & A4 & A5 & A6) (B1 & B2 & B3 & B4 & B5 & B6). split; [exact B1|]. split; [eapply grows_trans; eassumption|]. repeat split; try congruence. lia. Qed.
  Lemma steps_env lo b b' : steps_to lo b b' -> env_ok b -> env_ok b'.
  Proof. intros (A1 & A2 & A3 & _) H n r E. rewrite A3 in E. apply (simple_grows (b_graph b)); [exact A2|]. now apply (H n). Qed.
  Lemma new_node_steps lo b name t args kwargs op b' r : wf lo (b_graph b) (b_next b) -> (forall x, In x (args ++ map snd kwargs) -> simple (b_graph b) x) ->
    new_node o b name t args kwargs op = Ok (b', r) -> steps_to lo b b' /\ simple (b_graph b') r.
  Proof.
    intros W Hr E. destruct (new_node_wf lo b name t args kwargs op b' r W Hr E) as (-> & -> & A & B & C). split; [|exact C]. split; [exact A|]. split; [exact B|]. cbn. repeat split; lia.
  Qed.

  Definition converts (lo : nat) (x : farg) : Prop := forall b name b' r, wf lo (b_graph b) (b_next b) -> env_ok b -> convert_arg o b x name = Ok (b', r) -> steps_to lo b b' /\ simple (b_graph b') r.
  Lemma elements_wf lo l : Forall (converts lo) l -> forall b name i b' rs, wf lo (b_graph b) (b_next b) -> env_ok b ->
    convert_elements (convert_arg o) b l name i = Ok (b', rs) -> steps_to lo b b' /\ forall r, In r rs -> simple (b_graph b') r.
  Proof.
    induction 1 as [|x l Hx _ IH]; intros b name i b' rs W He E; cbn [convert_elements] in E.
    - injection E as <- <-. split; [now apply steps_refl|intros r []].
    - binv E. destruct x0 as [b1 r1]. binv E. destruct x0 as [b2 rs2]. injection E as <- <-. destruct (Hx _ _ _ _ W He H) as [S1 Q1]. destruct (IH _ _ _ _ _ (proj1 S1) (steps_env _ _ _ S1 He) H0) as [S2 Q2].
      split; [now apply (steps_trans _ _ b1)|]. intros r [<-|K]; [|now apply Q2]. destruct S2 as (_ & G & _). now apply (simple_grows (b_graph b1)).
  Qed.
  Lemma items_wf lo l : Forall (converts lo) (map snd l) -> forall b name b' rs, wf lo (b_graph b) (b_next b) -> env_ok b ->
    convert_items (convert_arg o) b l name = Ok (b', rs) -> steps_to lo b b' /\ forall r, In r (map snd rs) -> simple (b_graph b') r.
  Proof.
    induction l as [|[k x] l IH]; intros F b name b' rs W He E; cbn [convert_items] in E.
    - injection E as <- <-. split; [now apply steps_refl|intros r []].
    - cbn [map snd] in F. assert (Hx := Forall_inv F). apply Forall_inv_tail in F. binv E. destruct x0 as [b1 r1]. binv E. destruct x0 as [b2 rs2]. injection E as <- <-. destruct (Hx _ _ _ _ W He H) as [S1 Q1]. destruct (IH F _ _ _ _ (proj1 S1) (steps_env _ _ _ S1 He) H0) as [S2 Q2].
      split; [now apply (steps_trans _ _ b1)|]. intros r [<-|K]; [|now apply Q2]. destruct S2 as (_ & G & _). now apply (simple_grows (b_graph b1)).
  Qed.
  Lemma convert_wf lo : forall x, converts lo x.
  Proof.
    apply farg_rec'; unfold converts.
    - intros n b name b' r W He E. cbn in E. destruct (aget Nat.eqb n (b_env b)) eqn:En; [|discriminate]. injection E as <- <-. split; [now apply steps_refl|now apply (He n)].
    - intros c b name b' r W He E. cbn in E. injection E as <- <-. split; [now apply steps_refl|exact I].
    - intros names l F b name b' r W He E. cbn -[contains_node convert_elements] in E. destruct (negb _).
      + injection E as <- <-. split; [now apply steps_refl|exact I].
      + binv E. destruct x as [b1 rs]. destruct (elements_wf lo l F _ _ _ _ _ W He H) as [S1 Q1]. edestruct (new_node_steps lo) as [S2 Q2]; [exact (proj1 S1)| |exact E|]; [cbn; rewrite app_nil_r; exact Q1|]. split; [now apply (steps_trans _ _ b1)|exact Q2].
    - intros l F b name b' r W He E. cbn -[contains_node convert_elements] in E. destruct (negb _).
      + injection E as <- <-. split; [now apply steps_refl|exact I].
      + binv E. destruct x as [b1 rs]. destruct (elements_wf lo l F _ _ _ _ _ W He H) as [S1 Q1]. edestruct (new_node_steps lo) as [S2 Q2]; [exact (proj1 S1)| |exact E|]; [cbn; rewrite app_nil_r; exact Q1|]. split; [now apply (steps_trans _ _ b1)|exact Q2].
    - intros x y z Hx Hy Hz b name b' r W He E. cbn -[contains_node] in E. destruct (negb _).
      + injection E as <- <-. split; [now apply steps_refl|exact I].
      + binv E. destruct x0 as [b1 r1]. binv E. destruct x0 as [b2 r2]. binv E. destruct x0 as [b3 r3]. destruct (Hx _ _ _ _ W He H) as [S1 Q1]. assert (He1 := steps_env _ _ _ S1 He). destruct (Hy _ _ _ _ (proj1 S1) He1 H0) as [S2 Q2]. assert (He2 := steps_env _ _ _ S2 He1).
        destruct (Hz _ _ _ _ (proj1 S2) He2 H1) as [S3 Q3]. assert (S13 := steps_trans _ _ _ _ S1 (steps_trans _ _ _ _ S2 S3)).
        assert (G2 : grows (b_graph b2) (b_graph b3)) by apply S3. assert (G1 : grows (b_graph b1) (b_graph b3)) by (eapply grows_trans; [apply S2|exact G2]).
        edestruct (new_node_steps lo) as [S4 Q4]; [exact (proj1 S3)| |exact E|]; [cbn; intros x0 [<-|[<-|[<-|[]]]]; [apply (simple_grows (b_graph b1))|apply (simple_grows (b_graph b2))|]; assumption|]. split; [now apply (steps_trans _ _ b3)|exact Q4].
    - intros l F b name b' r W He E. cbn -[contains_node convert_items] in E. destruct (negb _).
      + injection E as <- <-. split; [now apply steps_refl|exact I].
      + binv E. destruct x as [b1 rs]. destruct (items_wf lo l F _ _ _ _ W He H) as [S1 Q1]. edestruct (new_node_steps lo) as [S2 Q2]; [exact (proj1 S1)| |exact E|]; [cbn; exact Q1|]. split; [now apply (steps_trans _ _ b1)|exact Q2].
  Qed.
  Lemma convert_args_wf lo b n b' args kwargs : wf lo (b_graph b) (b_next b) -> env_ok b -> convert_args o b n = Ok (b', (args, kwargs)) ->
    steps_to lo b b' /\ forall r, In r (args ++ map snd kwargs) -> simple (b_graph b') r.
  Proof.
    intros W He E. unfold convert_args in E. binv E. destruct x as [b1 a]. binv E. destruct x as [b2 k]. injection E as <- <- <-.
    assert (A : forall l, Forall (converts lo) l) by (intros l; apply Forall_forall; intros; apply convert_wf).
    destruct (elements_wf lo _ (A _) _ _ _ _ _ W He H) as [S1 Q1]. destruct (items_wf lo _ (A _) _ _ _ _ (proj1 S1) (steps_env _ _ _ S1 He) H0) as [S2 Q2].
    split; [now apply (steps_trans _ _ b1)|]. intros r K. apply in_app_iff in K. destruct K as [K|K]; [|now apply Q2]. apply (simple_grows (b_graph b1)); [apply S2|now apply Q1].
  Qed.
End Wf.

(** ** Inlining *)
(** remapping references of the subgraph *)
Lemma remap_simple cx name sub r r' : name <> ""%string -> simple sub r -> remap cx (map n_name (g_nodes sub)) name r = Ok r' ->
  match r with
  | RNode i k => r' = RNode i (name ++ "." ++ k)%string
  | RInput i k => cget k cx = Some r'
  | _ => r' = r
  end.
Proof.
  intros Hn S E. destruct r as [i k|i k|i|r x]; cbn [remap] in E; [| | |destruct S].
  - destruct S as (m & Hm & _ & <-). assert (Q : smem (n_name m) (map n_name (g_nodes sub)) = true) by (apply smem_in, in_map; now apply leaf_in). rewrite Q in E. injection E as <-. unfold scoped. destruct (String.eqb_spec name ""); [contradiction|reflexivity].
  - unfold clookup in E. destruct (cget k cx); [|discriminate]. now injection E as <-.
  - now injection E as <-.
Qed.
Lemma inlined_refs cx name sub fold n n' : name <> ""%string -> inlined cx (map n_name (g_nodes sub)) name fold n n' -> (forall r, In r (call_refs n) -> simple sub r) ->
  forall r', In r' (call_refs n') -> exists r, In r (call_refs n) /\ remap cx (map n_name (g_nodes sub)) name r = Ok r'.
Proof.
  intros Hn (R1 & R2 & _) Hs r' K. unfold call_refs in *. apply in_app_iff in K. destruct K as [K|K].
  - unfold remap_args in R1. apply rmapM_Forall2 in R1. destruct (Forall2_In_r _ _ _ _ R1 K) as (r & Hr & E). exists r. rewrite in_app_iff. auto.
  - destruct (remapped_kwargs _ _ _ _ _ R2) as [_ R]. destruct (Forall2_In_r _ _ _ _ R K) as (r & Hr & E). exists r. rewrite in_app_iff. auto.
Qed.
Lemma Forall2_split_mid {A B} (R : A -> B -> Prop) l l' : Forall2 R l l' -> forall l1 y l2, l' = l1 ++ y :: l2 -> exists k1 x k2, l = k1 ++ x :: k2 /\ Forall2 R k1 l1 /\ R x y.
Proof.
  intros F l1 y l2 ->. apply Forall2_app_inv_r in F. destruct F as (k1 & k & F1 & F2 & ->). inversion F2 as [|x ? k2 ? Hx F3]; subst. exists k1, x, k2. auto.
Qed.
Lemma subgraph_wf lo slo shi next g sub name args kwargs t g' outs : wf lo g next -> wf slo sub shi -> lo <= slo -> shi <= next -> name <> ""%string ->
  (forall r, In r (args ++ map snd kwargs) -> simple g r) -> add_subgraph g next name sub args kwargs (Some t) = (g', Ok outs) ->
  wf lo g' (S next) /\ grows g g' /\ g_inputs g' = g_inputs g /\ g_outputs g' = g_outputs g /\ forall r, In r outs -> simple g' r /\ is_node_ref r = true.
Proof.
  intros W Ws Hlo Hhi Hn Ha E. destruct (add_subgraph_inv _ _ _ _ _ _ _ _ _ (wf_names _ _ _ Ws) E) as (cx & l' & Eb & El & G1 & F & Gi & Go & Gf & Nd & Eo).
  cbn [option_map fold_nodes] in *. set (fn := mkNode next name t args TorchModule kwargs None None) in *. set (internal := map n_name (g_nodes sub)) in *.
  assert (Fr : ~ In next (ids_of g)). { intros K. assert (lo <= next < next) by (apply (wf_range _ _ _ W); now left). lia. }
  assert (N' : NoDup (ids_of g')). { apply Nd. apply NoDup_app_intro; [apply W|constructor; [intros []|constructor]|]. intros x Hx [<-|[]]. contradiction. }
  assert (I' : ids_of g' = ids_of g ++ next :: map n_id l') by (unfold ids_of; rewrite G1, map_app; reflexivity).
  assert (Il : map n_id l' = map n_id (sorted_nodes sub)). { clear -F. induction F as [|a b l l' H F IH]; [reflexivity|]. cbn. f_equal; [apply H|exact IH]. }
  assert (Hx : forall k r, cget k cx = Some r -> simple g r).
  { intros k r Hk. apply (bound_cx _ _ _ _ (wf_names _ _ _ Ws) Eb) in Hk. apply Ha, in_app_iff. destruct Hk as [(i & _ & Hi)|Hk]; [left; exact (nth_error_In _ _ Hi)|right]. apply in_map_iff. now exists (k, r). }
  (* leaves *)
  unfold sorted_nodes in F. apply Forall2_app_inv_l in F. destruct F as (lf & ll & F1 & F2 & ->). fold (leaf_list sub) in F2.
  assert (Q1 : forall n', In n' lf -> In (n_id n') (g_folds g')).
  { intros n' K. destruct (Forall2_In_r _ _ _ _ F1 K) as (n & Hm & Hi). apply filter_In in Hm. destruct Hi as (_ & _ & -> & _). rewrite Gf, !in_app_iff. right. right. apply in_map_iff. exists n. split; [reflexivity|]. apply filter_In. split; [|apply Hm]. unfold sorted_nodes. apply in_app_iff. left. now apply filter_In. }
  assert (Fo : forall i, In i (g_folds g') <-> In i (g_folds g) \/ i = next \/ In i (map n_id lf)).
  { intros i. rewrite Gf, !in_app_iff. assert (X : In i (map n_id (filter (fun n => nmem (n_id n) (g_folds sub)) (sorted_nodes sub))) <-> In i (map n_id lf)).
    { assert (Y : map n_id lf = map n_id (filter (fun n => nmem (n_id n) (g_folds sub)) (g_nodes sub))). { clear -F1. induction F1 as [|a b l l' H F IH]; [reflexivity|]. cbn. f_equal; [apply H|exact IH]. } rewrite Y.
      rewrite !in_map_iff. split; intros (n & E1 & K); exists n; (split; [exact E1|]); rewrite filter_In in *; [rewrite sorted_in in K; exact K|rewrite sorted_in; exact K]. }
    rewrite X. cbn. intuition. }
  assert (Dis : forall i, In i (map n_id ll) -> ~ In i (g_folds g')).
  { intros i K. rewrite Fo. rewrite I', map_app in N'. intros [Q|[->|Q]].
    - apply (wf_folds _ _ _ W) in Q. clear -N' K Q. induction (ids_of g) as [|x l IH]; [destruct Q|]. inversion N' as [|? ? A B]; subst. destruct Q as [->|Q]; [|now apply IH]. apply A. rewrite in_app_iff. right. right. rewrite in_app_iff. now right.
    - apply NoDup_remove_2 in N'. apply N'. rewrite !in_app_iff. auto.
    - apply NoDup_remove_1 in N'. clear -N' K Q. induction (ids_of g) as [|x l IH]; [|inversion N'; subst; now apply IH]. cbn in N'. induction (map n_id lf) as [|y l IH]; [destruct Q|]. inversion N' as [|? ? A B]; subst. destruct Q as [->|Q]; [apply A; rewrite in_app_iff; now right|now apply IH]. }
  assert (Dg : forall i, In i (ids_of g) -> ~ In i (g_folds g) -> ~ In i (g_folds g')).
  { intros i K Q. rewrite Fo. intros [P|[->|P]]; [contradiction|contradiction|]. rewrite I', map_app in N'. clear -N' K P. induction (ids_of g) as [|x l IH]; [destruct K|]. inversion N' as [|? ? A B]; subst. destruct K as [->|K]; [|now apply IH]. apply A. rewrite in_app_iff. right. right. rewrite in_app_iff. now left. }
  assert (LL : leaf_list g' = leaf_list g ++ ll).
  { unfold leaf_list at 1. rewrite G1, !filter_app. cbn [filter app].
    assert (E1 : filter (fun n => negb (nmem (n_id n) (g_folds g'))) (g_nodes g) = leaf_list g).
    { unfold leaf_list. apply filter_ext_in. intros n K. f_equal. destruct (nmem (n_id n) (g_folds g)) eqn:Ex.
      - apply nmem_in. apply nmem_in in Ex. rewrite Fo. now left.
      - destruct (nmem (n_id n) (g_folds g')) eqn:Ey; [|reflexivity]. apply nmem_in in Ey. exfalso. refine (Dg _ _ _ Ey); [now apply in_map|]. intros Z. apply nmem_in in Z. congruence. }
    rewrite E1. f_equal. assert (E2 : nmem (n_id fn) (g_folds g') = true) by (apply nmem_in, Fo; right; now left). rewrite E2. cbn [negb].
    rewrite (filter_false _ lf), (filter_true _ ll); [reflexivity| |].
    - intros n K. apply negb_true_iff. destruct (nmem (n_id n) (g_folds g')) eqn:Ey; [|reflexivity]. apply nmem_in in Ey. destruct (Dis (n_id n)); [now apply in_map|exact Ey].
    - intros n K. apply negb_false_iff, nmem_in. now apply Q1. }
  assert (Gr : grows g g'). { exists (fn :: lf ++ ll), [], ll. rewrite app_nil_r. split; [exact G1|]. split; [exact Gi|exact LL]. }
  (* references *)
  assert (Rs : forall r r', simple sub r -> remap cx internal name r = Ok r' -> simple g' r').
  { intros r r' Hr Er. apply (remap_simple cx name sub r r' Hn Hr) in Er. destruct r as [i k|i k|i|r x]; [| | |destruct Hr].
    - subst r'. destruct Hr as (m & Hm & <- & <-). destruct (Forall2_In_l _ _ _ _ F2 Hm) as (m' & Hm' & _ & _ & E1 & E2 & _). exists m'. rewrite LL, in_app_iff. auto.
    - apply (simple_grows g g' r' Gr). exact (Hx _ _ Er).
    - subst r'. exact I. }
  split; [|split; [exact Gr|split; [exact Gi|split; [exact Go|]]]].
  - constructor.
    + pose proof (wf_le _ _ _ W). lia.
    + exact N'.
    + intros i [K|K].
      * rewrite I', in_app_iff in K. destruct K as [K|[<-|K]]; [|pose proof (wf_le _ _ _ W); lia|].
        -- assert (lo <= i < next) by (apply (wf_range _ _ _ W); now left). lia.
        -- rewrite Il in K. apply in_map_iff in K. destruct K as (n & <- & K). apply sorted_in in K. assert (slo <= n_id n < shi) by (apply (wf_range _ _ _ Ws); left; now apply in_map). lia.
      * rewrite Gi in K. assert (lo <= i < next) by (apply (wf_range _ _ _ W); now right). lia.
    + intros i K. rewrite I', in_app_iff. apply Fo in K. destruct K as [K|[->|K]]; [left; now apply (wf_folds _ _ _ W)|right; now left|right; right; rewrite map_app, in_app_iff; now left].
    + rewrite Gi. apply W.
    + rewrite Gi. apply W.
    + intros n r K Hr. rewrite G1 in K. change ([fn] ++ lf ++ ll) with (fn :: (lf ++ ll)) in K. apply in_app_or in K. destruct K as [K|[<-|K]].
      * apply (simple_grows g g' r Gr). now apply (wf_refs _ _ _ W n).
      * apply (simple_grows g g' r Gr). now apply Ha.
      * assert (exists m, In m (g_nodes sub) /\ inlined cx internal name (Some next) m n) as (m & Hm & Hi).
        { apply in_app_iff in K. destruct K as [K|K]; [destruct (Forall2_In_r _ _ _ _ F1 K) as (m & Hm & Hi)|destruct (Forall2_In_r _ _ _ _ F2 K) as (m & Hm & Hi)]; exists m; (split; [|exact Hi]); [now apply filter_In in Hm|now apply leaf_in]. }
        destruct (inlined_refs cx name sub (Some next) m n Hn Hi (fun r Hr => wf_refs _ _ _ Ws m r Hm Hr) r Hr) as (q & Hq & Eq). apply (Rs q r); [now apply (wf_refs _ _ _ Ws m)|exact Eq].
    + rewrite LL. intros l1 n l2 i k Es Hr. destruct (Nat.lt_ge_cases (length l1) (length (leaf_list g))) as [Lt|Ge].
      * assert (exists l3, leaf_list g = l1 ++ n :: l3) as (l3 & E3).
        { clear -Es Lt. revert l1 Es Lt. induction (leaf_list g) as [|x l IH]; intros [|y l1] Es Lt; cbn in *; try lia; injection Es as -> Es; [now exists l|]. destruct (IH l1 Es) as (l3 & ->); [lia|]. now exists l3. }
        exact (wf_order _ _ _ W l1 n l3 i k E3 Hr).
      * assert (exists l0, l1 = leaf_list g ++ l0 /\ ll = l0 ++ n :: l2) as (l0 & -> & E0).
        { clear -Es Ge. revert l1 Es Ge. induction (leaf_list g) as [|x l IH]; intros l1 Es Ge; [now exists l1|]. destruct l1 as [|y l1]; cbn in *; [lia|]. injection Es as -> Es. destruct (IH l1 Es) as (l0 & -> & E0); [lia|]. now exists l0. }
        destruct (Forall2_split_mid _ _ _ F2 l0 n l2 E0) as (k1 & m & k2 & Em & Fk & Hi). assert (Hm : In m (leaf_list sub)) by (rewrite Em, in_app_iff; right; now left).
        destruct (inlined_refs cx name sub (Some next) m n Hn Hi (fun r Hr => wf_refs _ _ _ Ws m r (leaf_in _ _ Hm) Hr) _ Hr) as (q & Hq & Eq).
        assert (Sq := wf_refs _ _ _ Ws m q (leaf_in _ _ Hm) Hq). apply (remap_simple cx name sub q _ Hn Sq) in Eq. rewrite map_app, in_app_iff. destruct q as [j w|j w|j|q x]; [| |discriminate|destruct Sq].
        -- injection Eq as -> ->. right. assert (Ik : map n_id l0 = map n_id k1). { clear -Fk. induction Fk as [|a b l l' H F IH]; [reflexivity|]. cbn. f_equal; [apply H|exact IH]. } rewrite Ik. exact (wf_order _ _ _ Ws k1 m k2 j w Em Hq).
        -- left. destruct (Hx _ _ Eq) as (p & Hp & <- & _). now apply in_map.
    + intros r K. rewrite Go in K. destruct (wf_outs _ _ _ W r K). split; [now apply (simple_grows g)|assumption].
  - intros r K. unfold remap_args in Eo. apply rmapM_Forall2 in Eo. destruct (Forall2_In_r _ _ _ _ Eo K) as (q & Hq & Eq). destruct (wf_outs _ _ _ Ws q Hq) as [Sq Nq]. split; [now apply (Rs q)|]. apply (remap_simple cx name sub q r Hn Sq) in Eq. destruct q; try discriminate Nq. subst r. reflexivity.
Qed.

(** ** Building *)
Section BuildWf.
  Variable o : origin.
  Definition sub_ok (sub : string -> nat -> result (graph * nat)) : Prop := forall p next g next', sub p next = Ok (g, next') -> wf next g next'.
  Definition subs_ok (subs : list (string * (fmod * (string -> nat -> result (graph * nat))))) : Prop := forall t m sub, aget String.eqb t subs = Some (m, sub) -> sub_ok sub.
  (** a step of the builder *)
  Definition moves (lo : nat) (b b' : builder) : Prop := wf lo (b_graph b') (b_next b') /\ env_ok b' /\ grows (b_graph b) (b_graph b') /\ b_next b <= b_next b'.

  Lemma record_env b n r : env_ok b -> simple (b_graph b) r -> env_ok (record_ref b n r).
  Proof. intros H S k q E. cbn in *. destruct (n =? k); [injection E as <-; exact S|now apply (H k)]. Qed.
  Lemma op_node_wf lo b n name t op b' : wf lo (b_graph b) (b_next b) -> env_ok b -> op_node o b n name t op = Ok b' -> moves lo b b'.
  Proof.
    intros W He E. unfold op_node in E. binv E. destruct x as [b1 [args kwargs]]. binv E. destruct x as [b2 r]. injection E as <-.
    destruct (convert_args_wf o lo _ _ _ _ _ W He H) as [S1 Q1]. destruct (new_node_steps o lo _ _ _ _ _ _ _ _ (proj1 S1) Q1 H0) as [S2 Q2]. assert (S := steps_trans lo b b1 b2 S1 S2).
    split; [exact (proj1 S2)|]. split; [|split; [apply S|apply S]]. apply record_env; [now apply (steps_env lo b)|exact Q2].
  Qed.
  Lemma refs_ok b l rs : env_ok b -> output_refs (b_env b) l = Ok rs -> forall r, In r rs -> simple (b_graph b) r.
  Proof.
    intros He. revert rs. induction l as [|x l IH]; intros rs E r K; cbn in E; [injection E as <-; destruct K|]. destruct x; try (now apply (IH rs E r K)).
    destruct (aget Nat.eqb n (b_env b)) as [q|] eqn:Eq; [|discriminate]. binv E. injection E as <-. destruct K as [<-|K]; [now apply (He n)|now apply (IH x)].
  Qed.
  Lemma add_output_inv l : forall g g', add_output g l = (g', Ok tt) -> g_nodes g' = g_nodes g /\ g_inputs g' = g_inputs g /\ g_folds g' = g_folds g /\ g_outputs g' = g_outputs g ++ l.
  Proof.
    induction l as [|r l IH]; intros g g' E; cbn in E; [injection E as <-; now rewrite app_nil_r|]. destruct (unwrap r); try discriminate. destruct (has_id g id); [|discriminate]. apply IH in E. cbn in E. destruct E as (-> & -> & -> & ->). now rewrite <- app_assoc.
  Qed.
  Lemma outputs_wf lo g next l g' : wf lo g next -> (forall r, In r l -> simple g r /\ is_node_ref r = true) -> add_output g l = (g', Ok tt) -> wf lo g' next /\ grows g g'.
  Proof.
    intros W Hl E. apply add_output_inv in E. destruct E as (E1 & E2 & E3 & E4). assert (L : leaf_list g' = leaf_list g) by (unfold leaf_list; now rewrite E1, E3).
    assert (G : grows g g') by (exists [], [], []; rewrite !app_nil_r; auto). split; [|exact G].
    destruct W as [W1 W2 W3 W4 W5 W6 W7 W8 W9]. constructor; unfold ids_of in *; rewrite ?E1, ?E2, ?E3, ?L; try assumption.
    - intros n r Hn Hr. apply (simple_grows g); [exact G|now apply (W7 n)].
    - intros r K. rewrite E4, in_app_iff in K. destruct K as [K|K]; [destruct (W9 r K)|destruct (Hl r K)]; (split; [now apply (simple_grows g)|assumption]).
  Qed.
  Lemma output_wf lo root b n b' : wf lo (b_graph b) (b_next b) -> env_ok b -> handle_output o root b n = Ok b' -> moves lo b b'.
  Proof.
    intros W He E. unfold handle_output in E. binv E. rename x into refs. assert (Hr := refs_ok _ _ _ He H). destruct (forallb is_node_ref refs) eqn:Ef; [|discriminate]. cbn [negb] in E. rewrite forallb_forall in Ef. destruct root.
    - binv E. destruct x as [b1 r]. destruct (add_output (b_graph b1) [r]) as [g e] eqn:Ea. binv E. injection E as <-. subst e. destruct x.
      edestruct (new_node_wf o lo b) as (Eb' & Er' & W1 & G1 & S1); [exact W| |exact H0|]; [cbn; rewrite app_nil_r; exact Hr|]. rewrite Eb', Er' in *. cbn [b_graph b_next b_env] in W1, G1, S1. 
      edestruct (outputs_wf lo) as [W2 G2]; [exact W1| |exact Ea|]; [intros r9 [<-|[]]; split; [exact S1|reflexivity]|].
      assert (G := grows_trans _ _ _ G1 G2). split; [exact W2|]. split; [|split; [exact G|cbn; lia]]. intros k q Eq. apply (simple_grows (b_graph b)); [exact G|now apply (He k)].
    - destruct (add_output (b_graph b) refs) as [g e] eqn:Ea. binv E. injection E as <-. subst e. destruct x.
      edestruct (outputs_wf lo) as [W2 G2]; [exact W| |exact Ea|]; [intros r K; split; [now apply Hr|now apply Ef]|]. split; [exact W2|]. split; [|split; [exact G2|cbn; lia]]. intros k q Eq. apply (simple_grows (b_graph b)); [exact G2|now apply (He k)].
  Qed.
  Lemma wf_raise lo g next next' : wf lo g next -> next <= next' -> wf lo g next'.
  Proof. intros [W1 W2 W3 W4 W5 W6 W7 W8 W9] L. constructor; try assumption; [lia|]. intros i K. specialize (W3 i K). lia. Qed.
  Lemma call_module_wf lo prefix subs b n t b' : subs_ok subs -> wf lo (b_graph b) (b_next b) -> env_ok b -> handle_call_module o prefix subs b n t = Ok b' -> moves lo b b'.
  Proof.
    intros Hs W He E. unfold handle_call_module in E. destruct (String.eqb_spec t ""); [discriminate|]. destruct (aget String.eqb t subs) as [[m sub]|] eqn:Es; [|discriminate]. destruct (non_leaf m).
    - binv E. destruct x as [g' next]. binv E. destruct x as [b1 [args kwargs]]. destruct (o_submodule o (absolute prefix t)) as [q|]; [|discriminate].
      destruct (add_subgraph _ _ _ _ _ _ _) as [g r] eqn:Ea. binv E. rename x into outs. subst r. assert (Ws := Hs _ _ _ Es _ _ _ _ H). assert (L := wf_le _ _ _ Ws).
      assert (W0 : wf lo (b_graph b) next) by (now apply (wf_raise lo _ (b_next b))).
      destruct (convert_args_wf o lo (mkB (b_graph b) (b_env b) next) n b1 args kwargs W0 He H0) as [(W1 & G1 & Ee & N1 & _) Q1]. cbn [b_graph b_env b_next] in *.
      destruct (subgraph_wf lo (b_next b) next (b_next b1) _ _ _ _ _ _ _ _ W1 Ws (wf_le _ _ _ W) N1 n0 Q1 Ea) as (W2 & G2 & _ & _ & So).
      set (b2 := mkB g (b_env b1) (S (b_next b1))) in *. assert (G := grows_trans _ _ _ G1 G2).
      assert (He2 : env_ok b2). { intros k x Ex. cbn in Ex. rewrite Ee in Ex. apply (simple_grows (b_graph b)); [exact G|now apply (He k)]. }
      assert (One : forall b3 r, new_node o b2 (t ++ "_pack_outputs") TTuple outs [] CallFunction = Ok (b3, r) -> moves lo b (record_ref b3 (x_id n) r)).
      { intros b3 r E3. edestruct (new_node_wf o lo b2) as (Eb' & Er' & W3 & G3 & S3); [exact W2| |exact E3|]; [cbn; rewrite app_nil_r; intros x K; now apply So|]. rewrite Eb', Er' in *. cbn [b_graph b_next b_env] in W3, G3, S3. split; [exact W3|]. split; [|split; [cbn in *; now apply (grows_trans _ g)|cbn; lia]].
        apply record_env; [|exact S3]. intros k x Ex. apply (simple_grows g); [exact G3|now apply (He2 k)]. }
      destruct outs as [|r [|r2 outs]].
      + binv E. destruct x as [b3 r]. injection E as <-. now apply One.
      + injection E as <-. split; [exact W2|]. split; [|split; [exact G|cbn; lia]]. apply record_env; [exact He2|]. apply So. now left.
      + binv E. destruct x as [b3 r']. injection E as <-. now apply One.
    - destruct (o_submodule o (absolute prefix t)); [|discriminate]. eapply op_node_wf; eassumption.
  Qed.
  Lemma input_wf lo g next name g' : wf lo g next -> add_input g name next = Ok g' -> wf lo g' (S next) /\ grows g g' /\ simple g' (RInput next name).
  Proof.
    intros W E. unfold add_input in E. destruct (existsb _ _) eqn:Ex; [discriminate|]. injection E as <-. set (g' := mkGraph _ _ _ _).
    assert (L : leaf_list g' = leaf_list g) by reflexivity. assert (G : grows g g') by (exists [], [(name, next)], []; rewrite !app_nil_r; auto). split; [|split; [exact G|cbn; rewrite in_app_iff; right; now left]].
    assert (F : ~ In next (map snd (g_inputs g))). { intros K. assert (lo <= next < next) by (apply (wf_range _ _ _ W); now right). lia. }
    destruct W as [W1 W2 W3 W4 W5 W6 W7 W8 W9]. constructor; try assumption.
    - lia.
    - intros i [K|K]; [specialize (W3 i (or_introl K)); lia|]. cbn in K. rewrite map_app, in_app_iff in K. destruct K as [K|[<-|[]]]; [specialize (W3 i (or_intror K)); lia|cbn; lia].
    - cbn. rewrite map_app. apply NoDup_app_intro; [exact W5|constructor; [intros []|constructor]|]. intros x K [Ek|[]]. apply in_map_iff in K. destruct K as ([k i] & Ek' & K). cbn in Ek, Ek'. subst x k.
      assert (existsb (fun e : string * nat => String.eqb (fst e) name) (g_inputs g) = true) by (apply existsb_exists; exists (name, i); split; [exact K|apply String.eqb_refl]). congruence.
    - cbn. rewrite map_app. apply NoDup_app_intro; [exact W6|constructor; [intros []|constructor]|]. intros x K [<-|[]]. contradiction.
    - intros n r Hn Hr. apply (simple_grows g); [exact G|now apply (W7 n)].
    - intros r K. destruct (W9 r K). split; [now apply (simple_grows g)|assumption].
  Qed.
  Lemma build_node_wf lo root prefix self attrs subs b n b' : subs_ok subs -> wf lo (b_graph b) (b_next b) -> env_ok b -> build_node o root prefix self attrs subs b n = Ok b' -> moves lo b b'.
  Proof.
    intros Hs W He E. unfold build_node in E. destruct (x_op n) as [|t|t|fn|m| |].
    - binv E. injection E as <-. destruct (input_wf lo _ _ _ _ W H) as (W1 & G1 & S1). split; [exact W1|]. split; [|split; [exact G1|cbn; lia]]. apply record_env; [|exact S1]. intros k q Eq. apply (simple_grows (b_graph b)); [exact G1|now apply (He k)].
    - destruct (smem t attrs && _).
      + injection E as <-. split; [exact W|]. split; [|split; [apply grows_refl|cbn; lia]]. now apply record_env.
      + binv E. destruct x as [b1 r]. injection E as <-. edestruct (new_node_wf o lo b) as (Eb' & Er' & W1 & G1 & S1); [exact W| |exact H|]; [intros x []|]. rewrite Eb', Er' in *. cbn [b_graph b_next b_env] in W1, G1, S1. split; [exact W1|]. split; [|split; [exact G1|cbn; lia]]. apply record_env; [|exact S1]. intros k q Eq. apply (simple_grows (b_graph b)); [exact G1|now apply (He k)].
    - eapply call_module_wf; eassumption.
    - destruct (o_skipped o fn); [injection E as <-; split; [exact W|]; split; [exact He|]; split; [apply grows_refl|lia]|]. eapply op_node_wf; eassumption.
    - eapply op_node_wf; eassumption.
    - eapply output_wf; eassumption.
    - discriminate.
  Qed.
  Lemma moves_trans lo b1 b2 b3 : moves lo b1 b2 -> moves lo b2 b3 -> moves lo b1 b3.
  Proof. intros (_ & _ & G1 & L1) (A & B & G2 & L2). split; [exact A|]. split; [exact B|]. split; [now apply (grows_trans _ (b_graph b2))|lia]. Qed.
  Lemma build_nodes_wf lo root prefix self attrs subs l : subs_ok subs -> forall b b', wf lo (b_graph b) (b_next b) -> env_ok b -> build_nodes (build_node o root prefix self attrs subs) b l = Ok b' -> moves lo b b'.
  Proof.
    intros Hs. induction l as [|n l IH]; intros b b' W He E; cbn in E; [injection E as <-; split; [exact W|]; split; [exact He|]; split; [apply grows_refl|lia]|]. binv E. assert (M := build_node_wf lo _ _ _ _ _ _ _ _ Hs W He H). apply (moves_trans lo b x); [exact M|]. apply IH; [apply M|apply M|exact E].
  Qed.
  Lemma empty_wf next : wf next empty_graph next.
  Proof. constructor; cbn; try constructor; try lia; try (intros; contradiction); try (intros i [[]|[]]). intros l1 n l2 i k E. destruct l1; discriminate. Qed.
  Lemma aget_map {A B} (f : A -> B) t (l : list (string * A)) : aget String.eqb t (map (fun e => (fst e, f (snd e))) l) = option_map f (aget String.eqb t l).
  Proof. induction l as [|[k a] l IH]; [reflexivity|]. cbn. destruct (String.eqb k t); [reflexivity|exact IH]. Qed.
  Lemma aget_in {A} t (l : list (string * A)) a : aget String.eqb t l = Some a -> In (t, a) l.
  Proof. induction l as [|[k x] l IH]; [discriminate|]. cbn. destruct (String.eqb_spec k t) as [->|]; [intros E; injection E as ->; now left|]. intros E. right. now apply IH. Qed.
  Lemma build_sub_wf : forall m, sub_ok (build_sub o m).
  Proof.
    apply fmod_rec'. intros self attrs g ch F p next g' next' E. cbn [build_sub] in E. binv E. rename x into b. injection E as <- <-.
    assert (Hs : subs_ok (map (fun e => (fst e, (snd e, build_sub o (snd e)))) ch)).
    { intros t m sub Es. rewrite (aget_map (fun m => (m, build_sub o m)) t ch) in Es. destruct (aget String.eqb t ch) as [m'|] eqn:Em; [|discriminate]. injection Es as -> <-. apply aget_in in Em. rewrite Forall_forall in F. apply F. apply in_map_iff. now exists (t, m). }
    edestruct (build_nodes_wf next) as (WW & _); [exact Hs| | |exact H|exact WW]; [apply empty_wf|intros ? ? X; discriminate X].
  Qed.
  Lemma build_root_wf m positional next g next' : build_root o m positional next = Ok (g, next') -> wf next g next'.
  Proof.
    destruct m as [self attrs gr ch]. intros E. cbn [build_root] in E. binv E. rename x into b. injection E as <- <-.
    assert (Hs : subs_ok (map (fun e => (fst e, (snd e, build_sub o (snd e)))) ch)).
    { intros t m sub Es. rewrite (aget_map (fun m => (m, build_sub o m)) t ch) in Es. destruct (aget String.eqb t ch) as [m'|]; [|discriminate]. injection Es as -> <-. apply build_sub_wf. }
    edestruct (build_nodes_wf next) as (WW & _); [exact Hs| | |exact H|exact WW]; [apply empty_wf|intros ? ? X; discriminate X].
  Qed.
End BuildWf.
