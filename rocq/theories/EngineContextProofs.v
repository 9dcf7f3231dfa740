(** Proofs about [_propagate_contexts]: nodes get exactly the contexts they are wanted in. *)
From Coq Require Import String Ascii Permutation Relations.
From Verif Require Import Prelude GraphModel GraphSpec GraphProofs EngineModel EngineSpec EngineBaseProofs EngineLifeProofs EngineOptProofs EngineInputProofs.
Local Open Scope nat_scope.
Local Open Scope list_scope.

Notation cxs := (list (nat * list nat)).

Lemma cx_of_add x y l (cx : cxs) : cx_of (cx_add x l cx) y = if x =? y then union l (cx_of cx x) else cx_of cx y.
Proof. unfold cx_add, cx_of. rewrite nget_aset. destruct (Nat.eqb_spec x y) as [->|]; reflexivity. Qed.
Definition cx_nodup (cx : cxs) : Prop := forall x, NoDup (cx_of cx x).
Lemma cx_add_nodup x l cx : cx_nodup cx -> cx_nodup (cx_add x l cx).
Proof. intros N y. rewrite cx_of_add. destruct (x =? y); [apply union_nodup; apply N|apply N]. Qed.
Lemma cx_add_in c x y l cx : In c (cx_of (cx_add x l cx) y) <-> In c (cx_of cx y) \/ (x = y /\ In c l).
Proof. rewrite cx_of_add. destruct (Nat.eqb_spec x y) as [->|D]; [rewrite union_in|]; tauto. Qed.

Definition delegate_cx (n : gnode) : list nat := match n_delegate n with Some d => d_contexts d | None => [] end.
Lemma cx_node_in c y n (cx : cxs) : ~ In (n_id n) (inputs_of n) ->
  In c (cx_of (cx_node n cx) y) <-> In c (cx_of cx y) \/ (In y (inputs_of n) /\ (In c (cx_of cx (n_id n)) \/ In c (delegate_cx n))).
Proof.
  intros N. unfold cx_node.
  assert (G : forall l cx, ~ In (n_id n) l ->
    In c (cx_of (fold_left (fun cx inp => let cx := cx_add inp (cx_of cx (n_id n)) cx in match n_delegate n with Some d => cx_add inp (union (d_contexts d) []) cx | None => cx end) l cx) y) <->
      In c (cx_of cx y) \/ (In y l /\ (In c (cx_of cx (n_id n)) \/ In c (delegate_cx n)))).
  { clear. induction l as [|x l IH]; intros cx N; [cbn; tauto|]. cbn [fold_left]. rewrite IH by (intros H; apply N; now right).
    assert (Dx : x <> n_id n) by (intros ->; apply N; now left).
    set (cx1 := match n_delegate n with Some d => _ | None => _ end).
    assert (E1 : forall z, In c (cx_of cx1 z) <-> In c (cx_of cx z) \/ (x = z /\ (In c (cx_of cx (n_id n)) \/ In c (delegate_cx n)))).
    { intros z. unfold cx1, delegate_cx. destruct (n_delegate n) as [d|]; rewrite !cx_add_in; [rewrite union_in|]; cbn; tauto. }
    rewrite !E1. cbn [In]. split; intros H; [intuition congruence|intuition congruence]. }
  now apply G.
Qed.
Lemma cx_node_nodup n (cx : cxs) : cx_nodup cx -> cx_nodup (cx_node n cx).
Proof.
  unfold cx_node. generalize (inputs_of n). intros l. revert cx. induction l as [|x l IH]; intros cx N; [exact N|]. cbn [fold_left]. apply IH.
  destruct (n_delegate n); repeat apply cx_add_nodup; exact N.
Qed.
Lemma seed_nodup g : cx_nodup (seed g).
Proof.
  unfold seed. assert (G : forall l cx, cx_nodup cx -> cx_nodup (fold_left (fun cx o => match unwrap o with RNode i _ => cx_add i [default_context] cx | _ => cx end) l cx)).
  { induction l as [|o l IH]; intros cx N; [exact N|]. cbn [fold_left]. apply IH. destruct (unwrap o); try exact N. now apply cx_add_nodup. }
  apply G. intros x. constructor.
Qed.
Lemma propagate_nodup g nodes : cx_nodup (propagate_contexts g nodes).
Proof.
  unfold propagate_contexts. generalize (rev nodes). intros l. generalize (seed_nodup g). generalize (seed g). induction l as [|n l IH]; intros cx N; [exact N|]. cbn [fold_left]. apply IH. now apply cx_node_nodup.
Qed.
Lemma seed_in g c x : In c (cx_of (seed g) x) <-> c = default_context /\ exists o, In o (g_outputs g) /\ about o x.
Proof.
  unfold seed. assert (G : forall l cx, In c (cx_of (fold_left (fun cx o => match unwrap o with RNode i _ => cx_add i [default_context] cx | _ => cx end) l cx) x) <->
      In c (cx_of cx x) \/ (c = default_context /\ exists o, In o l /\ about o x)).
  { induction l as [|o l IH]; intros cx; [cbn; split; [tauto|]; intros [H|(_ & o & [] & _)]; exact H|]. cbn [fold_left]. rewrite IH. clear IH.
    assert (E : In c (cx_of (match unwrap o with RNode i _ => cx_add i [default_context] cx | _ => cx end) x) <-> In c (cx_of cx x) \/ (c = default_context /\ about o x)).
    { rewrite about_unwrap. destruct (unwrap o) as [i nm|i nm|i|b a]; try (split; [tauto|intros [H|(_ & z & H)]; [exact H|discriminate]]).
      rewrite cx_add_in. cbn [In]. split.
      - intros [H|(-> & [->|[]])]; [now left|]. right. split; [reflexivity|eauto].
      - intros [H|(-> & z & [= -> _])]; [now left|]. right. split; [reflexivity|now left]. }
    rewrite E. cbn [In]. split.
    - intros [[H|[-> H]]|(-> & o' & H1 & H2)]; [now left| |]; right; (split; [reflexivity|]); eauto.
    - intros [H|(-> & o' & [<-|H1] & H2)]; [tauto|tauto|]. right. split; [reflexivity|eauto]. }
  rewrite G. cbn. tauto.
Qed.

Section Propagate.
  Variables (g : graph) (nodes : list gnode).
  Hypothesis Gok : graph_ok g.
  Hypothesis nodes_in : forall n, In n nodes <-> In n (g_nodes g) /\ is_leaf g (n_id n).
  Hypothesis nodes_nodup : NoDup (map n_id nodes).
  Hypothesis nodes_order : forall a b, is_leaf g b -> feeds g a b -> before (map n_id nodes) a b.

  Lemma self_free n : In n nodes -> ~ In (n_id n) (inputs_of n).
  Proof.
    intros Hn H. apply nodes_in in Hn as Hn'. destruct Hn' as [H1 H2].
    assert (F : feeds g (n_id n) (n_id n)) by (apply feeds_inputs; eauto). apply nodes_order in F; [|exact H2].
    destruct F as (l1 & l2 & l3 & E). rewrite E in nodes_nodup. apply NoDup_remove_2 in nodes_nodup. apply nodes_nodup. rewrite !in_app_iff. right. right. now left.
  Qed.
  Lemma split_order l1 y l2 : nodes = l1 ++ y :: l2 -> forall z, In z l1 -> ~ In (n_id y) (inputs_of z).
  Proof.
    intros E z Hz H. assert (Hn : In z nodes) by (rewrite E, in_app_iff; now left). apply nodes_in in Hn as Hn'. destruct Hn' as [H1 H2].
    assert (F : feeds g (n_id y) (n_id z)) by (apply feeds_inputs; eauto). apply nodes_order in F; [|exact H2].
    apply in_split in Hz. destruct Hz as (k1 & k2 & ->). clear -E F nodes_nodup.
    rewrite E, map_app in F, nodes_nodup. rewrite map_app in F, nodes_nodup. cbn [map] in *.
    destruct F as (a & b & c & F).
    (* the element y occurs before z and after z *)
    set (L := (map n_id k1 ++ n_id z :: map n_id k2) ++ n_id y :: map n_id l2) in *.
    assert (Iz : nth_error L (length k1) = Some (n_id z)).
    { unfold L. rewrite <- app_assoc, nth_error_app2; rewrite map_length; [|lia]. now rewrite Nat.sub_diag. }
    assert (Iy : nth_error L (length k1 + S (length k2)) = Some (n_id y)).
    { unfold L. rewrite nth_error_app2; rewrite app_length; cbn [length]; rewrite !map_length; [|lia]. now rewrite Nat.sub_diag. }
    assert (Jy : nth_error L (length a) = Some (n_id y)) by (rewrite F, nth_error_app2 by lia; now rewrite Nat.sub_diag).
    assert (Jz : nth_error L (length a + S (length b)) = Some (n_id z)).
    { rewrite F. rewrite nth_error_app2 by lia. replace (length a + S (length b) - length a) with (S (length b)) by lia. cbn [nth_error]. rewrite nth_error_app2 by lia. now rewrite Nat.sub_diag. }
    assert (Q1 : length k1 = length a + S (length b)) by (apply (proj1 (NoDup_nth_error L) nodes_nodup); [now apply nth_error_Some_lt in Iz|congruence]).
    assert (Q2 : length k1 + S (length k2) = length a) by (apply (proj1 (NoDup_nth_error L) nodes_nodup); [now apply nth_error_Some_lt in Iy|congruence]).
    lia.
  Qed.

  Definition cx := propagate_contexts g nodes.
  Lemma fold_sound l : (forall n, In n l -> In n nodes) -> forall cx, (forall c x, In c (cx_of cx x) -> wanted g c x) ->
    forall c x, In c (cx_of (fold_left (fun cx n => cx_node n cx) l cx) x) -> wanted g c x.
  Proof.
    induction l as [|n l IH]; intros Hl cx0 H; [exact H|]. cbn [fold_left]. apply IH; [intros m Hm; apply Hl; now right|].
    assert (Hn : In n nodes) by (apply Hl; now left). intros c x Hc. rewrite cx_node_in in Hc by now apply self_free. apply nodes_in in Hn. destruct Hn as [N1 N2].
    destruct Hc as [Hc|(Hx & Hc)]; [now apply H|]. assert (F : feeds g x (n_id n)) by (apply feeds_inputs; eauto).
    destruct Hc as [Hc|Hc]; [apply (want_input g c x (n_id n) N2 F); now apply H|]. unfold delegate_cx in Hc. destruct (n_delegate n) as [d|] eqn:D; [|destruct Hc].
    exact (want_delegate g c x n d N1 N2 F D Hc).
  Qed.
  Lemma fold_mono l : (forall n, In n l -> In n nodes) -> forall cx c x, In c (cx_of cx x) -> In c (cx_of (fold_left (fun cx n => cx_node n cx) l cx) x).
  Proof.
    induction l as [|n l IH]; intros Hl cx0 c x H; [exact H|]. cbn [fold_left]. apply IH; [intros m Hm; apply Hl; now right|]. rewrite cx_node_in by (apply self_free, Hl; now left). now left.
  Qed.
  Lemma fold_keep l y : (forall n, In n l -> In n nodes) -> (forall n, In n l -> ~ In y (inputs_of n)) -> forall cx c,
    In c (cx_of (fold_left (fun cx n => cx_node n cx) l cx) y) <-> In c (cx_of cx y).
  Proof.
    induction l as [|n l IH]; intros Hl Hy cx0 c; [tauto|]. cbn [fold_left]. rewrite IH; [|intros m Hm; apply Hl; now right|intros m Hm; apply Hy; now right].
    rewrite cx_node_in by (apply self_free, Hl; now left). specialize (Hy n (or_introl eq_refl)). tauto.
  Qed.
  Theorem contexts_wanted c x : In c (cx_of cx x) <-> wanted g c x.
  Proof.
    unfold cx, propagate_contexts. split.
    - apply fold_sound; [intros n Hn; now apply in_rev|]. intros c' x' H. apply seed_in in H. destruct H as (-> & o & H1 & H2). now apply (want_output g o).
    - intros W. assert (Step : forall y c, In y nodes -> (In c (cx_of (fold_left (fun cx n => cx_node n cx) (rev nodes) (seed g)) (n_id y)) \/ In c (delegate_cx y)) ->
        forall x, In x (inputs_of y) -> In c (cx_of (fold_left (fun cx n => cx_node n cx) (rev nodes) (seed g)) x)).
      { clear c x W. intros y c Hy Hc x Hx. apply in_split in Hy as Hs. destruct Hs as (l1 & l2 & E).
        assert (R : rev nodes = rev l2 ++ y :: rev l1). { rewrite E, rev_app_distr. cbn [rev]. now rewrite <- app_assoc. }
        rewrite R, fold_left_app in *. cbn [fold_left] in *.
        assert (S1 : forall n, In n (rev l1) -> In n nodes) by (intros n Hn; rewrite E, in_app_iff; left; now apply in_rev).
        assert (K1 : forall n, In n (rev l1) -> ~ In (n_id y) (inputs_of n)) by (intros n Hn; apply (split_order l1 y l2 E); now apply in_rev).
        apply fold_mono; [exact S1|]. rewrite cx_node_in by now apply self_free. right. split; [exact Hx|].
        destruct Hc as [Hc|Hc]; [|now right]. left. rewrite fold_keep in Hc by assumption. rewrite cx_node_in in Hc by now apply self_free.
        destruct Hc as [Hc|(Hx' & _)]; [exact Hc|]. now apply self_free in Hx'. }
      induction W as [o x Ho Ha|c x y Ly Fy Wy IH|c x n d Hn Ln Fn Dn Hc].
      + apply fold_mono; [intros n Hn; now apply in_rev|]. apply seed_in. eauto.
      + apply feeds_inputs in Fy. destruct Fy as (n & Hn & <- & Hx). apply (Step n c); [now apply nodes_in|now left|exact Hx].
      + apply feeds_inputs in Fn. destruct Fn as (n' & Hn' & E & Hx). assert (n' = n) as -> by exact (node_unique g n' n Gok Hn' Hn E).
        apply (Step n c); [now apply nodes_in| |exact Hx]. right. unfold delegate_cx. now rewrite Dn.
  Qed.
End Propagate.
