(** Proofs about bound data flows. *)
From Coq Require Import String Ascii Relations Permutation Sorting.
From Verif Require Import Prelude GraphModel GraphSpec GraphProofs GraphWalkProofs CoarseModel RegModel BndModel BndSpec.
Local Open Scope nat_scope.
Local Open Scope list_scope.

Definition key_le (a b : nat * nat) : Prop := fst a <= fst b.
Definition key_lt (a b : nat * nat) : Prop := fst a < fst b.

Lemma insert_perm e l : Permutation (insert_key e l) (e :: l).
Proof.
  induction l as [|x l IH]; cbn; [apply Permutation_refl|]. destruct (fst x <=? fst e).
  - rewrite IH. apply perm_swap.
  - apply Permutation_refl.
Qed.
Lemma insert_sorted e l : StronglySorted key_le l -> StronglySorted key_le (insert_key e l).
Proof.
  induction 1 as [|x l S IH F]; cbn; [repeat constructor|].
  destruct (Nat.leb_spec (fst x) (fst e)) as [L|L].
  - constructor; [exact IH|]. rewrite Forall_forall in *. intros y Hy.
    apply (Permutation_in _ (insert_perm e l)) in Hy as [<-|Hy]; [exact L|now apply F].
  - constructor; [now constructor|]. rewrite Forall_forall in *. intros y [<-|Hy]; [unfold key_le; lia|].
    specialize (F y Hy). unfold key_le in *. lia.
Qed.
Lemma sort_sorted l : Permutation (sort_keys l) l /\ StronglySorted key_le (sort_keys l).
Proof.
  enough (H : forall l acc, StronglySorted key_le acc ->
    Permutation (fold_left (fun acc e => insert_key e acc) l acc) (acc ++ l) /\
    StronglySorted key_le (fold_left (fun acc e => insert_key e acc) l acc)).
  { destruct (H l []) as [P S]; [constructor|]. now split. }
  clear l. induction l as [|e l IH]; intros acc S; cbn; [rewrite app_nil_r; now split|].
  destruct (IH (insert_key e acc) (insert_sorted e acc S)) as [P Q]. split; [|exact Q].
  rewrite P. rewrite (insert_perm e acc). cbn. apply Permutation_middle.
Qed.
Lemma sorted_unique l1 : forall l2, Permutation l1 l2 -> StronglySorted key_le l1 -> StronglySorted key_lt l2 -> l1 = l2.
Proof.
  induction l1 as [|b l1 IH]; intros [|a l2] P S1 S2; [reflexivity|now apply Permutation_nil_cons in P|now apply Permutation_sym, Permutation_nil_cons in P|].
  inversion S1 as [|? ? S1' F1]; subst. inversion S2 as [|? ? S2' F2]; subst. rewrite Forall_forall in *.
  assert (E : b = a).
  { assert (Hb : In b (a :: l2)) by (apply (Permutation_in _ P); now left).
    destruct Hb as [Hb|Hb]; [now symmetry|]. specialize (F2 b Hb).
    assert (Ha : In a (b :: l1)) by (apply (Permutation_in _ (Permutation_sym P)); now left).
    destruct Ha as [Ha|Ha]; [exact Ha|]. specialize (F1 a Ha). unfold key_le, key_lt in *. lia. }
  subst b. f_equal. apply IH; auto. now apply Permutation_cons_inv in P.
Qed.

Lemma index_split (x : nat) l1 l2 : ~ In x l1 -> index_of x (l1 ++ x :: l2) = Some (length l1).
Proof.
  induction l1 as [|y l1 IH]; cbn; intros H; [now rewrite Nat.eqb_refl|].
  destruct (Nat.eqb_spec x y) as [->|]; [exfalso; now apply H; left|]. rewrite IH; [reflexivity|intros K; apply H; now right].
Qed.
Lemma index_none (x : nat) l : ~ In x l -> index_of x l = None.
Proof.
  induction l as [|y l IH]; cbn; intros H; [reflexivity|]. destruct (Nat.eqb_spec x y) as [->|]; [exfalso; now apply H; left|].
  rewrite IH; [reflexivity|intros K; apply H; now right].
Qed.
(** places in the order *)
Definition place (topo : list nat) (x : nat) : nat := match index_of x topo with Some i => i | None => 0 end.
Lemma position_in topo x : NoDup topo -> In x topo -> position topo x = Ok (place topo x).
Proof.
  intros N H. unfold position, place. destruct (in_split _ _ H) as (l1 & l2 & E). subst topo.
  rewrite index_split; [reflexivity|]. apply NoDup_remove_2 in N. intros K. apply N, in_app_iff. now left.
Qed.
Lemma places_ok topo l : NoDup topo -> (forall x, In x l -> In x topo) ->
  rmapM (fun x => let? k := position topo x in Ok (k, x)) l = Ok (map (fun x => (place topo x, x)) l).
Proof.
  intros N. induction l as [|x l IH]; intros H; cbn [rmapM map]; [reflexivity|].
  rewrite (position_in topo x N (H x (or_introl eq_refl))). cbn [rbind]. rewrite IH; [reflexivity|]. intros y Hy. apply H. now right.
Qed.
Lemma places_missing topo l x : NoDup topo -> In x l -> ~ In x topo ->
  rmapM (fun x => let? k := position topo x in Ok (k, x)) l = Err KeyError.
Proof.
  intros N. induction l as [|y l IH]; intros Hx Hn; [destruct Hx|]. cbn [rmapM].
  destruct (in_dec Nat.eq_dec y topo) as [Hy|Hy].
  - rewrite (position_in topo y N Hy). cbn [rbind]. destruct Hx as [->|Hx]; [contradiction|]. now rewrite (IH Hx Hn).
  - unfold position. now rewrite (index_none y topo Hy).
Qed.
Lemma filter_places topo (h : nat -> bool) : NoDup topo -> forall l1 l2, topo = l1 ++ l2 ->
  StronglySorted key_lt (map (fun x => (place topo x, x)) (filter h l2)) /\
  forall e, In e (map (fun x => (place topo x, x)) (filter h l2)) -> length l1 <= fst e.
Proof.
  intros N l1 l2. revert l1. induction l2 as [|x l2 IH]; intros l1 E; cbn [filter]; [split; [constructor|intros e []]|].
  destruct (IH (l1 ++ [x])) as [S B]; [now rewrite <- app_assoc|]. rewrite app_length in B. cbn in B.
  assert (P : place topo x = length l1).
  { unfold place. rewrite E, index_split; [reflexivity|]. subst topo. apply NoDup_remove_2 in N. intros K. apply N, in_app_iff. now left. }
  destruct (h x).
  - cbn [map]. split.
    + constructor; [exact S|]. rewrite Forall_forall. intros e He. unfold key_lt. cbn. rewrite P. specialize (B e He). lia.
    + intros e [<-|He]; [cbn; lia|]. specialize (B e He). lia.
  - split; [exact S|]. intros e He. specialize (B e He). lia.
Qed.

(** The set, in topological order. *)
Lemma in_order_ok order topo nodes : (forall l, Permutation (order l) l) -> NoDup topo -> NoDup nodes -> (forall x, In x nodes -> In x topo) ->
  in_order order topo nodes = Ok (filter (fun x => existsb (Nat.eqb x) nodes) topo).
Proof.
  intros P N Nn H. unfold in_order. rewrite places_ok; [|exact N|intros x Hx; apply H; now apply (Permutation_in _ (P nodes))].
  cbn [rbind]. f_equal. set (h := fun x => existsb (Nat.eqb x) nodes).
  assert (E : sort_keys (map (fun x => (place topo x, x)) (order nodes)) = map (fun x => (place topo x, x)) (filter h topo)).
  { apply sorted_unique.
    - destruct (sort_sorted (map (fun x => (place topo x, x)) (order nodes))) as [Q _]. rewrite Q. apply Permutation_map.
      rewrite (P nodes). apply NoDup_Permutation; [exact Nn|now apply NoDup_filter|]. intros x. rewrite filter_In. unfold h. rewrite mem_in.
      split; [intros Hx; split; [now apply H|exact Hx]|now intros [_ Hx]].
    - now apply sort_sorted.
    - now apply (filter_places topo h N [] topo). }
  rewrite E, map_map. cbn. now rewrite map_id.
Qed.
Lemma in_order_missing order topo nodes x : (forall l, Permutation (order l) l) -> NoDup topo -> In x nodes -> ~ In x topo ->
  in_order order topo nodes = Err KeyError.
Proof.
  intros P N H K. unfold in_order. rewrite (places_missing topo (order nodes) x N); [reflexivity| |exact K].
  now apply (Permutation_in _ (Permutation_sym (P nodes))).
Qed.

Lemma upstream_leaf g a b : leaf_inputs g -> is_leaf g b -> clos_refl_trans nat (feeds g) a b -> is_leaf g a.
Proof.
  intros L Hb H. apply clos_rt_rt1n in H. induction H as [|x y z Hxy _ IH]; [exact Hb|]. exact (L x y (IH Hb) Hxy).
Qed.
Lemma rt_or {A} (R : A -> A -> Prop) x y : clos_refl_trans A R x y <-> x = y \/ clos_trans A R x y.
Proof. split; [apply rt_t|]. intros [->|H]; [apply rt_refl|]. induction H; [now apply rt_step|eapply rt_trans; eauto]. Qed.

Lemma trans_leaf g a b : leaf_inputs g -> (forall x, feeds g x b -> is_leaf g x) -> clos_trans nat (feeds g) a b -> is_leaf g a.
Proof.
  intros L Hb H. apply clos_trans_tn1 in H. inversion H as [? H'|y ? Hy H']; subst; [now apply Hb|].
  apply clos_tn1_trans in H'. apply (upstream_leaf g a y L (Hb y Hy)). apply rt_or. now right.
Qed.

Section Bound.
  Variables (order : list nat -> list nat) (g : graph) (region : gnode) (topo : list nat).
  Hypothesis Hperm : forall l, Permutation (order l) l.
  Hypothesis Hok : graph_ok g.
  Hypothesis Hknown : forall a b, feeds g a b -> node_in g a.
  Hypothesis Hregion : In region (g_nodes g).
  Hypothesis Htopo : topological_sort g None = Ok topo.

  Lemma runnable_filter nodes : (forall x, In x nodes -> is_leaf g x) -> (forall a b, feeds g a b -> In b nodes -> In a nodes) ->
    runnable g (filter (fun x => existsb (Nat.eqb x) nodes) topo) /\
    forall x, In x (filter (fun x => existsb (Nat.eqb x) nodes) topo) <-> In x nodes.
  Proof using Hok Htopo.
    intros Hl Hc. destruct (sort_order g topo Hok Htopo) as (N & I & B).
    assert (M : forall x, In x (filter (fun x => existsb (Nat.eqb x) nodes) topo) <-> In x nodes).
    { intros x. rewrite filter_In, mem_in, I. split; [now intros [_ K]|]. intros K. split; [now apply Hl|exact K]. }
    split; [|exact M]. split; [now apply NoDup_filter|]. split; [intros x Hx; now apply Hl, M|].
    intros a b Hb F. apply M in Hb. apply filter_before; [|apply mem_in; now apply (Hc a b)|now apply mem_in].
    apply B; [now apply Hl|exact F].
  Qed.

  Lemma bound_inputs : exists N, forall fuel, N <= fuel -> forall f r, fl_kind f = InputActivations ->
    ((forall x, feeds g x (n_id region) -> is_leaf g x) -> ~ clos_trans nat (feeds g) (n_id region) (n_id region) ->
      exists p, bind_flow order fuel g topo r (n_id region) region f = Ok p /\ p_flow p = f /\ gives_inputs g region p).
  Proof using Hperm Hok Hknown Hregion Htopo.
    destruct (ancestors_all g (n_id region) Hok Hknown (in_map n_id _ _ Hregion)) as (c & N & E & Nc & Hc).
    exists N. intros fuel Hf f r Hk Hl Ha. unfold bind_flow. rewrite Hk. unfold ancestors_of. rewrite (E fuel Hf). cbn [rbind].
    destruct (sort_acyclic g topo Hok Htopo) as [_ L].
    set (nodes := filter (fun x => negb (x =? n_id region)) c).
    assert (M : forall x, In x nodes <-> clos_trans nat (feeds g) x (n_id region)).
    { intros x. unfold nodes. rewrite filter_In, Hc, rt_or. destruct (Nat.eqb_spec x (n_id region)) as [->|Ne]; cbn.
      - split; [now intros [_ ?]|intros K; contradiction].
      - split; [intros [[K|K] _]; [contradiction|exact K]|intros K; split; [now right|reflexivity]]. }
    assert (Lf : forall x, In x nodes -> is_leaf g x) by (intros x Hx; apply M in Hx; now apply (trans_leaf g x (n_id region))).
    destruct (sort_order g topo Hok Htopo) as (Nt & It & _).
    rewrite in_order_ok; [|exact Hperm|exact Nt|now apply NoDup_filter|intros x Hx; apply It; now apply Lf]. cbn [rbind].
    destruct (runnable_filter nodes Lf) as [R I].
    { intros a b F Hb. apply M in Hb. apply M. apply (t_trans _ _ a b); [now apply t_step|exact Hb]. }
    eexists. split; [reflexivity|]. split; [reflexivity|]. split; [exact R|]. split; [|split; reflexivity].
    intros x. cbn [p_nodes]. rewrite I. apply M.
  Qed.

  Lemma bound_output : exists N, forall fuel, N <= fuel -> forall f name, fl_kind f = OutputActivations ->
    (is_leaf g (n_id region) -> exists p, bind_flow order fuel g topo (RNode (n_id region) name) (n_id region) region f = Ok p /\ p_flow p = f /\ gives_output g region p) /\
    (~ is_leaf g (n_id region) -> bind_flow order fuel g topo (RNode (n_id region) name) (n_id region) region f = Err KeyError).
  Proof using Hperm Hok Hknown Hregion Htopo.
    destruct (ancestors_all g (n_id region) Hok Hknown (in_map n_id _ _ Hregion)) as (c & N & E & Nc & Hc).
    exists N. intros fuel Hf f name Hk. unfold bind_flow. rewrite Hk. unfold ancestors_of. rewrite (E fuel Hf). cbn [rbind].
    destruct (sort_acyclic g topo Hok Htopo) as [_ L]. destruct (sort_order g topo Hok Htopo) as (Nt & It & _). split; intros Hr.
    - assert (Lf : forall x, In x c -> is_leaf g x) by (intros x Hx; apply Hc in Hx; now apply (upstream_leaf g x (n_id region))).
      rewrite in_order_ok; [|exact Hperm|exact Nt|exact Nc|intros x Hx; apply It; now apply Lf]. cbn [rbind].
      destruct (runnable_filter c Lf) as [R I].
      { intros a b F Hb. apply Hc in Hb. apply Hc. apply (rt_trans _ _ a b); [now apply rt_step|exact Hb]. }
      eexists. split; [reflexivity|]. split; [reflexivity|]. split; [exact R|]. split; [|split; [eexists; reflexivity|reflexivity]].
      intros x. cbn [p_nodes]. rewrite I. apply Hc.
    - rewrite (in_order_missing order topo c (n_id region)); [reflexivity|exact Hperm|exact Nt|apply Hc; apply rt_refl|now rewrite It].
  Qed.
End Bound.

Lemma leaf_acyclic g topo x : graph_ok g -> topological_sort g None = Ok topo -> is_leaf g x -> ~ clos_trans nat (feeds g) x x.
Proof. intros Hok Ht Hx K. destruct (sort_acyclic g topo Hok Ht) as [A _]. apply A. now exists x. Qed.

(** Every declared flow of a leaf. *)
Theorem flows_bound order g region topo : (forall l, Permutation (order l) l) -> graph_ok g -> (forall a b, feeds g a b -> node_in g a) ->
  In region (g_nodes g) -> is_leaf g (n_id region) -> topological_sort g None = Ok topo ->
  exists N, forall fuel, N <= fuel -> forall name flows, (forall f, In f flows -> fl_kind f <> OtherFlow) ->
    exists ps, bind_flows order fuel g (n_id region) name flows = Ok ps /\ Forall2 (answers g region) flows ps.
Proof.
  intros P Hok Hk Hr Hl Ht. destruct (bound_inputs order g region topo P Hok Hk Hr Ht) as (N1 & H1). destruct (bound_output order g region topo P Hok Hk Hr Ht) as (N2 & H2).
  destruct (sort_acyclic g topo Hok Ht) as [_ L].
  exists (max N1 N2). intros fuel Hf name flows Hflows. unfold bind_flows. rewrite Ht. cbn [rbind]. rewrite (get_node_in g _ region Hok Hr eq_refl).
  induction flows as [|f flows IH]; [exists []; split; [reflexivity|constructor]|].
  destruct IH as (ps & E & F); [intros f' Hf'; apply Hflows; now right|].
  assert (S : exists p, bind_flow order fuel g topo (RNode (n_id region) name) (n_id region) region f = Ok p /\ answers g region f p).
  { unfold answers. specialize (Hflows f (or_introl eq_refl)). destruct (fl_kind f) eqn:K; [| |congruence].
    - apply (H1 fuel ltac:(lia) f _ K); [intros x Hx; now apply (L x (n_id region))|]. now apply (leaf_acyclic g topo).
    - now apply (H2 fuel ltac:(lia) f name K). }
  destruct S as (p & Ep & A). exists (p :: ps). split; [|now constructor]. cbn [rmapM]. rewrite Ep. cbn [rbind]. now rewrite E.
Qed.
(** Folds. *)
Theorem fold_bound order g region topo : (forall l, Permutation (order l) l) -> graph_ok g -> (forall a b, feeds g a b -> node_in g a) ->
  In region (g_nodes g) -> ~ is_leaf g (n_id region) -> topological_sort g None = Ok topo ->
  exists N, forall fuel, N <= fuel -> forall name f,
    (fl_kind f = InputActivations -> (forall x, feeds g x (n_id region) -> is_leaf g x) ->
      exists p, bind_flows order fuel g (n_id region) name [f] = Ok [p] /\ answers g region f p) /\
    (fl_kind f = OutputActivations -> bind_flows order fuel g (n_id region) name [f] = Err KeyError).
Proof.
  intros P Hok Hk Hr Hl Ht. destruct (bound_inputs order g region topo P Hok Hk Hr Ht) as (N1 & H1). destruct (bound_output order g region topo P Hok Hk Hr Ht) as (N2 & H2).
  destruct (sort_acyclic g topo Hok Ht) as [_ L].
  exists (max N1 N2). intros fuel Hf name f. unfold bind_flows. rewrite Ht. cbn [rbind]. rewrite (get_node_in g _ region Hok Hr eq_refl). cbn [rmapM]. split.
  - intros K Hin. destruct (H1 fuel ltac:(lia) f (RNode (n_id region) name) K Hin) as (p & E & A).
    { intros C. apply Hl. now apply (trans_leaf g (n_id region) (n_id region) L). }
    exists p. rewrite E. cbn. split; [reflexivity|]. unfold answers. now rewrite K.
  - intros K. destruct (H2 fuel ltac:(lia) f name K) as [_ H]. now rewrite (H Hl).
Qed.
(** What is refused. *)
Theorem flows_refused order fuel g id name flows :
  (forall e, topological_sort g None = Err e -> bind_flows order fuel g id name flows = Err e) /\
  (forall topo, topological_sort g None = Ok topo -> get_node g id = None -> bind_flows order fuel g id name flows = Err KeyError) /\
  (forall ps, bind_flows order fuel g id name flows = Ok ps -> forall f, In f flows -> fl_kind f <> OtherFlow) /\
  (forall topo n f, topological_sort g None = Ok topo -> get_node g id = Some n -> fl_kind f = OtherFlow -> bind_flows order fuel g id name (f :: flows) = Err TypeError).
Proof.
  unfold bind_flows. split; [intros e ->; reflexivity|]. split; [intros topo ->; cbn; now intros ->|]. split.
  - destruct (topological_sort g None) as [topo|]; [cbn [rbind]|discriminate]. destruct (get_node g id) as [n|]; [|discriminate].
    induction flows as [|f0 flows IH]; intros ps E f [].
    + subst f0. cbn [rmapM] in E. intros K. unfold bind_flow in E. now rewrite K in E.
    + cbn [rmapM] in E. destruct (bind_flow _ _ _ _ _ _ _ f0); [|discriminate]. cbn [rbind] in E. destruct (rmapM _ flows) as [qs|]; [|discriminate]. now apply (IH qs).
  - intros topo n f -> -> K. cbn. unfold bind_flow. now rewrite K.
Qed.
