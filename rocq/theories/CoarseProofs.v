(** Coarsening preserves values. *)
From Coq Require Import String Ascii DecimalString DecimalZ Relations Permutation.
From Verif Require Import Prelude GraphModel GraphSpec GraphProofs EngineModel EngineSpec EngineOptProofs EngineSchedProofs CoarseModel CoarseSpec CoarseValueProofs CoarseBaseProofs CoarseSubProofs.
Local Open Scope nat_scope.
Local Open Scope list_scope.

Lemma output_refs_in {A} r (l : list A) x r' : In (x, r') (output_refs r l) ->
  exists i, nth_error l i = Some x /\ (l = [x] /\ r' = r \/ length l <> 1 /\ r' = RAttr r (AInt (Z.of_nat i))).
Proof.
  assert (gen : length l <> 1 -> In (x, r') (map (fun e : A * nat => (fst e, RAttr r (AInt (Z.of_nat (snd e))))) (combine l (seq 0 (length l)))) ->
    exists i, nth_error l i = Some x /\ (l = [x] /\ r' = r \/ length l <> 1 /\ r' = RAttr r (AInt (Z.of_nat i)))).
  { intros L H. apply in_map_iff in H. destruct H as ([y j] & E & H). cbn [fst snd] in E. injection E as -> <-. apply combine_seq_in in H. destruct H as (z & i & Ez & Hi).
    injection Ez as -> ->. exists i. split; [exact Hi|]. right. now split. }
  destruct l as [|y [|z l]]; [intros []| |apply gen; discriminate]. cbn. intros [E|[]]. injection E as -> ->. exists 0. split; [reflexivity|]. now left.
Qed.

Section Place.
  Context {X U : Type} (s : semantics X U).
  Variable f f' : nat -> nat -> list (val X) -> list (string * val X) -> result (val X).
  Variable g : graph.
  Variable subs : list (nat * graph).
  Variable inp inp' : nat -> val X -> Prop.
  Variable c : nat.
  Variable ord ord' : list nat -> list nat.
  Hypothesis Hord : forall l x, In x (ord l) <-> In x l.
  Hypothesis Hord' : forall l x, In x (ord' l) <-> In x l.
  Hypothesis T : tidy g.
  Hypothesis Hfun : functional inp.
  Hypothesis Ff : folds_faithful s f g inp c.
  Hypothesis Av : all_values s f g inp c.
  Hypothesis Ws : with_subgraphs s f g subs f'.
  Hypothesis Ti : tuple_items s.

  Definition newg (nodes : list gnode) : graph := mkGraph nodes [] [] [].
  Notation old := (value s f g inp c).
  Notation new nodes := (value s f' (newg nodes) inp' c).

  Lemma value_same (h : nat -> nat -> list (val X) -> list (string * val X) -> result (val X)) g1 g2 i1 : g_nodes g1 = g_nodes g2 -> forall r v, value s h g1 i1 c r v -> value s h g2 i1 c r v.
  Proof. intros E. apply value_more; [intros x; now rewrite E|reflexivity]. Qed.

  Definition carries (nodes : list gnode) (k : string) (r' : ref) : Prop :=
    ~ has_char "["%char k /\
    (forall i v, In (k, i) (g_inputs g) -> inp i v -> new nodes r' v) /\
    (forall n v, In n (g_nodes g) -> n_name n = k -> ~ In (n_id n) (g_folds g) -> old (RNode (n_id n) k) v -> new nodes r' v).
  Definition ctx_ok (cx : context) (nodes : list gnode) : Prop := forall k r', cget k cx = Some r' -> carries nodes k r'.

  Lemma new_more nodes more r v : new nodes r v -> new (nodes ++ more) r v.
  Proof. apply value_more; [|reflexivity]. cbn. intros x H. apply in_app_iff. now left. Qed.
  Lemma ctx_more cx nodes more : ctx_ok cx nodes -> ctx_ok cx (nodes ++ more).
  Proof.
    intros C k r' E. destruct (C k r' E) as (B & I & N). split; [exact B|]. split.
    - intros i v Hi Hv. apply new_more. exact (I i v Hi Hv).
    - intros n v Hn En Ln Hv. apply new_more. exact (N n v Hn En Ln Hv).
  Qed.
  Lemma ctx_set cx nodes k r : ctx_ok cx nodes -> carries nodes k r -> ctx_ok (cset k r cx) nodes.
  Proof. intros C H k' r' E. rewrite cget_cset in E. destruct (String.eqb_spec k k') as [<-|]; [injection E as <-; exact H|now apply C]. Qed.
  Lemma ctx_bind nodes l : forall cx, ctx_ok cx nodes -> (forall k r, In (k, r) l -> carries nodes k r) -> ctx_ok (bind_all cx l) nodes.
  Proof.
    unfold bind_all. induction l as [|[k r] l IH]; intros cx C H; cbn [fold_left]; [exact C|]. apply IH; [|intros; apply H; now right].
    cbn [fst snd]. apply ctx_set; [exact C|]. apply H. now left.
  Qed.

  Lemma remap_ok cx nodes : ctx_ok cx nodes -> forall r r' v, well_named g r -> remap cx [] "" r = Ok r' -> old r v -> new nodes r' v.
  Proof.
    intros C r. induction r as [i n|i n|i|r IH a]; intros r' v W E V.
    - cbn [remap smem existsb] in E. unfold clookup in E. destruct (cget n cx) as [q|] eqn:Eq; [|discriminate]. injection E as <-. inversion W as [m Hm Lm| | |]; subst.
      exact (proj2 (proj2 (C _ _ Eq)) m v Hm eq_refl Lm V).
    - cbn [remap] in E. unfold clookup in E. destruct (cget n cx) as [q|] eqn:Eq; [|discriminate]. injection E as <-. inversion W as [|? ? Hi| |]; subst. inversion V as [? ? ? Hv| | |]; subst.
      exact (proj1 (proj2 (C _ _ Eq)) i v Hi Hv).
    - injection E as <-. inversion V; subst. constructor.
    - inversion W as [| | |? ? W1]; subst. inversion V as [| |? ? u ? Vu Ua|]; subst. cbn [remap] in E.
      assert (none : match match unwrap r with RNode _ n => if smem n [] then None else Some (lifted_key n a) | RInput _ n => Some (lifted_key n a) | _ => None end with Some k => cget k cx | None => None end = None).
      { assert (L : forall n, cget (lifted_key n a) cx = None).
        { intros n. destruct (cget (lifted_key n a) cx) as [q|] eqn:Eq; [|reflexivity]. exfalso. apply (proj1 (C _ _ Eq)). apply lifted_bracket. }
        destruct (unwrap r); cbn [smem existsb]; auto. }
      rewrite none in E. destruct (remap cx [] "" r) as [x|] eqn:Ex; [|discriminate]. injection E as <-. econstructor; [exact (IH x u W1 eq_refl Vu)|exact Ua].
  Qed.
  Lemma remap_list cx nodes : ctx_ok cx nodes -> forall l l' vs, (forall r, In r l -> well_named g r) -> Forall2 (fun r r' => remap cx [] "" r = Ok r') l l' -> Forall2 old l vs -> Forall2 (new nodes) l' vs.
  Proof.
    intros C l l' vs W F. revert vs. induction F as [|r r' l l' E F IH]; intros vs G; inversion G as [|? v ? vs' Pv G']; subst; constructor.
    - apply (remap_ok cx nodes C r r' v); [apply W; now left|exact E|exact Pv].
    - apply IH; [|assumption]. intros q Hq. apply W. now right.
  Qed.

  (** a copy of a node has its value *)
  Lemma copy_value cx nodes n id a k v : ctx_ok cx nodes -> In n (g_nodes g) -> remap_args cx [] "" (n_args n) = Ok a -> remap_kwargs cx [] "" (n_kwargs n) = Ok k ->
    old (RNode (n_id n) (n_name n)) v -> new (nodes ++ [mkNode id (n_name n) (n_target n) a (n_op n) k None None]) (RNode id (n_name n)) v.
  Proof.
    intros C Hn Ea Ek V. inversion V as [| | |x nm xs ys v' Hx Fa Fk E]; subst. assert (x = n) as -> by (apply (node_unique g x n (tidy_ids g T)); assumption).
    apply rmapM_inv in Ea. apply remap_kwargs_inv in Ek. destruct Ek as [K1 K2].
    change id with (n_id (mkNode id (n_name n) (n_target n) a (n_op n) k None None)) at 2. eapply v_node; cbn [newg g_nodes n_args n_kwargs n_target].
    - apply in_app_iff. right. now left.
    - refine (Forall2_imp _ _ _ _ (fun r w H => new_more _ _ r w H) _). refine (remap_list cx nodes C (n_args n) a xs _ Ea Fa).
      intros r Hr. apply (tidy_refs g T n r Hn). unfold call_refs. apply in_app_iff. now left.
    - refine (Forall2_imp _ _ _ _ (fun r w H => new_more _ _ r w H) _). refine (remap_list cx nodes C (map snd (n_kwargs n)) (map snd k) ys _ K2 Fk).
      intros r Hr. apply (tidy_refs g T n r Hn). unfold call_refs. apply in_app_iff. now right.
    - rewrite K1, (proj1 Ws c n _ _ Hn). exact E.
  Qed.

  Lemma leaf_carries nodes n r v : In n (g_nodes g) -> old (RNode (n_id n) (n_name n)) v -> new nodes r v -> carries nodes (n_name n) r.
  Proof.
    intros Hn V N. split; [exact (node_bracket g n T Hn)|]. split.
    - intros i w Hi _. exfalso. exact (input_not_node g n _ i T Hn Hi eq_refl).
    - intros m w Hm Em Lm W. assert (m = n) as -> by exact (node_name_unique g m n T Hm Hn Em). now rewrite <- (value_det s f g inp c (tidy_ids g T) Hfun _ _ V _ W).
  Qed.
  Lemma fold_carries nodes n r : In n (g_nodes g) -> In (n_id n) (g_folds g) -> carries nodes (n_name n) r.
  Proof.
    intros Hn Fn. split; [exact (node_bracket g n T Hn)|]. split.
    - intros i w Hi _. exfalso. exact (input_not_node g n _ i T Hn Hi eq_refl).
    - intros m w Hm Em Lm W. assert (m = n) as -> by exact (node_name_unique g m n T Hm Hn Em). contradiction.
  Qed.

  Definition unit_ok (u : unit_) : Prop :=
    match u with
    | UNode _ => True
    | USub k sub => In (first_free g + k, sub) subs /\ (exists path, create_subgraph ord ord' g path = Ok sub) /\ flat_graph g /\ tensor_arguments s f g inp c
    end.

  Lemma resolve_input_ok cx nodes k r' v : ctx_ok cx nodes -> keyval s f g inp c k v -> resolve_input cx k = Ok r' -> new nodes r' v.
  Proof.
    intros C (r & W & F & O & E & V) Er. unfold resolve_input in Er.
    assert (base : forall n q u, match r with RAttr r0 _ => r0 | _ => r end = RNode q n \/ match r with RAttr r0 _ => r0 | _ => r end = RInput q n ->
      forall x, clookup n cx = Ok x -> old (match r with RAttr r0 _ => r0 | _ => r end) u -> new nodes x u).
    { intros n q u Hr x Hx Hu. apply (remap_ok cx nodes C _ x u) with (3 := Hu).
      - destruct r; try exact W. now inversion W.
      - destruct Hr as [-> | ->]; exact Hx. }
    assert (nb : forall a n i, well_named g a -> a = RNode i n \/ a = RInput i n -> ~ has_char "["%char n).
    { intros a n i Wa [-> | ->]; inversion Wa; subst; [now apply (node_bracket g n0 T)|now apply (input_bracket g n i T)]. }
    unfold key_of, outer in *. destruct r as [i n|i n|i|q a]; cbn [unwrap] in *; try contradiction.
    - subst k. rewrite (partition_none n) in Er by (apply (nb _ n i W); now left). exact (base n i v (or_introl eq_refl) r' Er V).
    - subst k. rewrite (partition_none n) in Er by (apply (nb _ n i W); now right). exact (base n i v (or_intror eq_refl) r' Er V).
    - assert (Nq : forall x y, q <> RAttr x y) by (intros ? ? ->; exact F). assert (Eq : unwrap q = q) by (destruct q; try reflexivity; exfalso; eapply Nq; reflexivity). rewrite Eq in *.
      assert (Ea : parse_attr (attr_text a) = a) by (apply parse_attr_text; destruct q, a; trivial; contradiction).
      inversion W as [| | |? ? W1]; subst. inversion V as [| |? ? u ? Vu Ua|]; subst.
      destruct q as [i n|i n|i|? ?]; try contradiction; (rewrite partition_lifted in Er by (apply (nb _ n i W1); tauto)); rewrite strip_app, Ea in Er;
        (destruct (clookup n cx) as [x|] eqn:Ex; [|discriminate]); injection Er as <-; (econstructor; [|exact Ua]);
        [exact (base n i u (or_introl eq_refl) x Ex Vu)|exact (base n i u (or_intror eq_refl) x Ex Vu)].
  Qed.

  Lemma place_ok cx nodes u cx' nodes' : ctx_ok cx nodes -> unit_ok u -> place g (cx, nodes) u = Ok (cx', nodes') -> ctx_ok cx' nodes'.
  Proof.
    intros C Hu E. destruct u as [i|k sub]; cbn [place] in E.
    - destruct (get_node g i) as [n|] eqn:En; [|discriminate]. apply get_node_some in En. destruct En as [Hn <-].
      destruct (remap_args cx [] "" (n_args n)) as [a|] eqn:Ea; [|discriminate]. cbn [rbind] in E. destruct (remap_kwargs cx [] "" (n_kwargs n)) as [kw|] eqn:Ek; [|discriminate]. cbn [rbind] in E.
      injection E as <- <-. destruct (Av n Hn) as [v V].
      assert (N := copy_value cx nodes n (length nodes) a kw v C Hn Ea Ek V). set (nodes' := nodes ++ _) in *. assert (C' : ctx_ok cx nodes') by now apply ctx_more.
      destruct (nmem (n_id n) (g_folds g)) eqn:Fn.
      + apply nmem_in in Fn. apply ctx_bind; [apply ctx_set; [exact C'|now apply fold_carries]|]. intros k r Hk. apply in_flat_map in Hk. destruct Hk as ([x r'] & Hx & Hk). cbn [fst snd] in Hk.
        destruct (get_node g x) as [m|] eqn:Em; [|destruct Hk]. destruct Hk as [Hk|[]]. injection Hk as <- <-. apply get_node_some in Em. destruct Em as [Hm <-].
        assert (L := fold_outputs_exposed g (n_id n) T). destruct (Forall2_choose (fun x v => old (RNode x "") v) (fold_outputs g (n_id n))) as [vs F].
        { intros y Hy. apply (proj1 (proj2 L)) in Hy. destruct Hy as ((z & Hz & <- & _) & _). destruct (Av z Hz) as [w W]. exists w. exact (value_name s f g inp c _ _ _ _ W). }
        destruct (Ff n _ vs Hn Fn L F) as (w & W & Hw). assert (w = v) as -> by exact (value_det s f g inp c (tidy_ids g T) Hfun _ _ W _ V).
        apply output_refs_in in Hx. destruct Hx as (j & Hj & Hx). destruct (Forall2_nth_l _ _ _ F _ _ Hj) as (w' & Hw' & W'). apply (value_name s f g inp c _ _ (n_name m)) in W'.
        apply (leaf_carries nodes' m r' w' Hm W'). assert (Len := Forall2_len _ _ _ F). destruct Hx as [[E1 ->]|[E1 ->]].
        * rewrite E1 in *. destruct vs as [|v1 [|]]; try discriminate. subst v1. destruct j as [|[|j]]; cbn in Hw'; try discriminate. injection Hw' as <-. exact N.
        * econstructor; [exact N|]. destruct vs as [|v1 [|v2 vs]]; try (apply Hw; exact Hw'). exfalso. apply E1. exact Len.
      + apply ctx_bind; [|intros k r []]. apply ctx_set; [exact C'|]. exact (leaf_carries nodes' n _ v Hn V N).
    - destruct Hu as (Hs & (path & Cr) & Flat & Ta). destruct (rmapM (resolve_input cx) (map fst (g_inputs sub))) as [a|] eqn:Ea; [|discriminate]. cbn [rbind] in E. injection E as <- <-.
      destruct (sub_call s f g inp c ord ord' Hord Hord' T Hfun Flat Av Ta path sub Cr) as (vs & outs & v & Kv & Gc & Ev & Fo).
      assert (Ha : Forall2 (new nodes) a vs).
      { apply rmapM_inv in Ea. clear - Ea Kv C T. revert vs Kv. induction Ea as [|k r' l l' E F IH]; intros vs G; inversion G as [|? v0 ? vs' Pv G']; subst; constructor; [|now apply IH]. now apply (resolve_input_ok cx nodes k r' v0). }
      set (nd := mkNode (length nodes) (sub_name k) (first_free g + k) a TorchModule [] None None).
      assert (N : new (nodes ++ [nd]) (RNode (length nodes) (sub_name k)) v).
      { change (length nodes) with (n_id nd). eapply v_node.
        - cbn. apply in_app_iff. right. now left.
        - refine (Forall2_imp _ _ _ _ (fun r w H => new_more _ _ r w H) Ha).
        - cbn. constructor.
        - cbn [nd n_target n_kwargs map combine]. exact (proj2 Ws _ sub c vs v Hs Gc). }
      apply ctx_bind; [now apply ctx_more|]. intros nm r Hk. apply in_flat_map in Hk. destruct Hk as ([x r'] & Hx & Hk). cbn [fst snd] in Hk.
      apply output_refs_in in Hx. destruct Hx as (j & Hj & Hx). destruct (Forall2_nth_l _ _ _ Fo _ _ Hj) as (w' & Hw' & (n & Hn & Ln & -> & W')). cbn [unwrap] in Hk. destruct Hk as [Hk|[]]. injection Hk as <- <-.
      apply (leaf_carries _ n r' w' Hn W'). assert (Len := Forall2_len _ _ _ Fo). destruct Hx as [[E1 ->]|[E1 ->]].
      + rewrite E1 in *. destruct outs as [|v1 [|]]; try discriminate. subst v1. destruct j as [|[|j]]; cbn in Hw'; try discriminate. injection Hw' as <-. exact N.
      + econstructor; [exact N|]. destruct outs as [|v1 [|v2 outs]]; [now destruct j| |].
        * exfalso. apply E1. exact Len.
        * rewrite Ev. constructor. apply Ti. exact Hw'.
  Qed.

  Lemma place_all us : (forall u, In u us -> unit_ok u) -> forall cx nodes cx' nodes', ctx_ok cx nodes -> rfold (place g) us (cx, nodes) = Ok (cx', nodes') -> ctx_ok cx' nodes'.
  Proof.
    induction us as [|u us IH]; intros Hu cx nodes cx' nodes' C E; [injection E as <- <-; exact C|].
    change (rfold (place g) (u :: us) (cx, nodes)) with (let? st := place g (cx, nodes) u in rfold (place g) us st) in E. destruct (place g (cx, nodes) u) as [[cx1 n1]|] eqn:Ep; [|discriminate]. cbn [rbind] in E.
    refine (IH _ cx1 n1 cx' nodes' _ E); [intros w Hw; apply Hu; now right|]. apply (place_ok cx nodes u); [exact C|apply Hu; now left|exact Ep].
  Qed.
End Place.

(** ** Ids of the new nodes *)
Lemma place_ids g us : forall cx nodes cx' nodes', map n_id nodes = seq 0 (length nodes) -> rfold (place g) us (cx, nodes) = Ok (cx', nodes') -> map n_id nodes' = seq 0 (length nodes').
Proof.
  induction us as [|u us IH]; intros cx nodes cx' nodes' N E; [injection E as <- <-; exact N|].
  change (rfold (place g) (u :: us) (cx, nodes)) with (let? st := place g (cx, nodes) u in rfold (place g) us st) in E. destruct (place g (cx, nodes) u) as [[cx1 n1]|] eqn:Ep; [|discriminate]. cbn [rbind] in E.
  refine (IH cx1 n1 cx' nodes' _ E). assert (H : exists n, n1 = nodes ++ [n] /\ n_id n = length nodes).
  { destruct u as [i|k sub]; cbn [place] in Ep.
    - destruct (get_node g i) as [n|]; [|discriminate]. destruct (remap_args cx [] "" (n_args n)) as [a|]; [|discriminate]. cbn [rbind] in Ep. destruct (remap_kwargs cx [] "" (n_kwargs n)) as [kw|]; [|discriminate]. cbn [rbind] in Ep.
      injection Ep as <- <-. eexists. split; [reflexivity|reflexivity].
    - destruct (rmapM _ _) as [a|] in Ep; [|discriminate]. cbn [rbind] in Ep. injection Ep as <- <-. eexists. split; [reflexivity|reflexivity]. }
  destruct H as (n & -> & E'). rewrite map_app, N, app_length. cbn [map length]. rewrite E', Nat.add_1_r, seq_S. reflexivity.
Qed.

(** ** Delegates do not matter *)
Definition alike (n m : gnode) : Prop := n_id m = n_id n /\ n_name m = n_name n /\ n_target m = n_target n /\ n_args m = n_args n /\ n_kwargs m = n_kwargs n.
Lemma set_delegate_alike t d l : forall l', set_delegate t d l = Ok l' -> Forall2 alike l l'.
Proof.
  induction l as [|n l IH]; intros l' E; [discriminate|]. cbn [set_delegate] in E. assert (R : forall k, Forall2 alike k k) by (induction k; constructor; [repeat split|assumption]). destruct (n_target n =? t).
  - injection E as <-. constructor; [repeat split|apply R].
  - destruct (set_delegate t d l) as [l1|]; [|discriminate]. injection E as <-. constructor; [repeat split|now apply IH].
Qed.
Lemma Forall2_alike_trans a : forall b d, Forall2 alike a b -> Forall2 alike b d -> Forall2 alike a d.
Proof.
  induction a as [|x a IH]; intros b d F G; inversion F; subst; inversion G; subst; constructor; [|eapply IH; eassumption].
  unfold alike in *. intuition congruence.
Qed.
Lemma delegates_alike (l : list (nat * subgraph_spec)) : forall nodes nodes', rfold (fun l e => set_delegate (fst e) (s_delegate (snd e)) l) l nodes = Ok nodes' -> Forall2 alike nodes nodes'.
Proof.
  induction l as [|e l IH]; intros nodes nodes' E; [injection E as <-; induction nodes; constructor; [repeat split|assumption]|].
  cbn [rfold] in E. destruct (set_delegate (fst e) (s_delegate (snd e)) nodes) as [n1|] eqn:E1; [|discriminate]. cbn [rbind] in E.
  exact (Forall2_alike_trans _ _ _ (set_delegate_alike _ _ _ _ E1) (IH _ _ E)).
Qed.
Lemma alike_value {X U} (s : semantics X U) f g g' inp c : Forall2 alike (g_nodes g) (g_nodes g') -> forall r v, value s f g inp c r v -> value s f g' inp c r v.
Proof.
  intros F. refine (value_rect' s f g inp c (value s f g' inp c) _ _ _ _); [intros i n v H|intros i|intros r a v w H IH E|intros x nm xs ys v Hx Fa Ia Fk Ik E].
  - now constructor.
  - constructor.
  - econstructor; eassumption.
  - destruct (Forall2_In_l _ _ _ _ F Hx) as (m & Hm & E1 & E2 & E3 & E4 & E5). rewrite <- E1. eapply v_node; [exact Hm|rewrite E4; exact Ia|rewrite E5; exact Ik|]. rewrite E3, E5. exact E.
Qed.
Lemma alike_ids l l' : Forall2 alike l l' -> map n_id l' = map n_id l.
Proof. induction 1 as [|x y l l' (E & _) F IH]; cbn; congruence. Qed.

(** ** The reduced graph *)
Lemma sort_units_in l u : In u (sort_units l) -> In u (map snd l).
Proof.
  unfold sort_units. intros H. apply in_map_iff in H. destruct H as ([k x] & <- & H). cbn [snd].
  assert (ins : forall k u l e, In e (insert k u l) -> e = (k, u) \/ In e l).
  { clear. intros k u l e. induction l as [|[k' v] l IH]; cbn [insert]; [intros [<-|[]]; now left|]. destruct (k' <=? k); [intros [<-|H]; [right; now left|destruct (IH H) as [->|I]; [now left|right; now right]]|].
    intros [<-|H]; [now left|now right]. }
  assert (gen : forall l acc e, In e (fold_left (fun acc e => insert (fst e) (snd e) acc) l acc) -> In e l \/ In e acc).
  { clear - ins. induction l as [|e0 l IH]; intros acc e; cbn [fold_left]; [now right|]. intros H. destruct (IH _ _ H) as [I|I]; [left; now right|]. apply ins in I. destruct I as [->|I]; [left; left; now destruct e0|now right]. }
  destruct (gen _ _ _ H) as [I|[]]. change x with (snd (k, x)). now apply in_map.
Qed.
Lemma node_order_in g us order u : node_order g us = Ok order -> In u order -> In u us.
Proof.
  unfold node_order. destruct (topological_sort g None) as [topo|]; [|discriminate]. cbn [rbind]. destruct (rmapM _ us) as [ks|] eqn:E; [|discriminate]. cbn [rbind]. intros H I. injection H as <-.
  apply sort_units_in in I. apply rmapM_inv in E. revert I. clear - E. induction E as [|a b l l' H F IH]; [intros []|]. destruct (sort_key g topo a) as [k|]; [|discriminate]. injection H as <-. cbn [map snd]. intros [<-|I]; [now left|right; now apply IH].
Qed.

Lemma resolve_all_subs ord ord' g specs : forall k seen targets subs ts, resolve_all ord ord' g k specs seen = Ok (targets, subs, ts) ->
  (forall nodes j sub, In (nodes, j, sub) subs -> create_subgraph ord ord' g nodes = Ok sub) /\ (modules_only specs -> subs = []) /\ length ts = length specs.
Proof.
  induction specs as [|sp specs IH]; intros k seen targets subs ts E; cbn [resolve_all] in E.
  - injection E as <- <- <-. repeat split. intros ? ? ? [].
  - destruct (resolve_spec ord ord' g sp) as [[nodes sub]|] eqn:Er; [|discriminate]. cbn [rbind] in E. destruct (existsb _ nodes); [discriminate|].
    assert (Hs : match sub with Some sub => create_subgraph ord ord' g nodes = Ok sub /\ forall t, s_region sp <> RModule t | None => True end).
    { unfold resolve_spec in Er. destruct (s_region sp) as [t|a b|l].
      - destruct (node_of_target g t); [|discriminate]. cbn [rbind] in Er. injection Er as <- <-. exact I.
      - destruct (node_of_target g a) as [na|]; [|discriminate]. destruct (node_of_target g b) as [nb|]; [|discriminate]. cbn [rbind] in Er.
        destruct (ancestors _ _ _ _ _) as [[path reached]|]; [|discriminate]. cbn [rbind] in Er. destruct reached; [|discriminate]. cbn [negb] in Er.
        destruct (create_subgraph ord ord' g path) as [sg|] eqn:Ec; [|discriminate]. cbn [rbind] in Er. injection Er as <- <-. split; [exact Ec|discriminate].
      - destruct (rmapM _ l) as [ns|]; [|discriminate]. cbn [rbind] in Er. destruct (siblings g ns); [|discriminate].
        destruct (create_subgraph _ _ _ _) as [sg|] eqn:Ec in Er; [|discriminate]. cbn [rbind] in Er. injection Er as <- <-. split; [exact Ec|discriminate]. }
    destruct sub as [sub|].
    + destruct (resolve_all ord ord' g (S k) specs (seen ++ nodes)) as [[[t1 s1] ts1]|] eqn:Ea; [|discriminate]. cbn [rbind] in E. injection E as <- <- <-.
      destruct (IH _ _ _ _ _ Ea) as (I1 & I2 & I3). split; [|split; [|cbn; now rewrite I3]].
      * intros ns j sg [H|H]; [injection H as <- <- <-; exact (proj1 Hs)|now apply (I1 ns j sg)].
      * intros M. destruct (M sp (or_introl eq_refl)) as [t Ht]. exfalso. exact (proj2 Hs t Ht).
    + destruct (resolve_all ord ord' g k specs (seen ++ nodes)) as [[[t1 s1] ts1]|] eqn:Ea; [|discriminate]. cbn [rbind] in E. injection E as <- <- <-.
      destruct (IH _ _ _ _ _ Ea) as (I1 & I2 & I3). split; [exact I1|]. split; [|cbn; now rewrite I3]. intros M. apply I2. intros sp' H. apply M. now right.
Qed.

Lemma positional_fun {X} g (vs : list (val X)) : tidy g -> functional (positional g vs).
Proof.
  intros T id v w (i & k & Ei & Vi) (j & k' & Ej & Vj). assert (i = j); [|congruence].
  assert (N := tidy_input_ids g T). apply (proj1 (NoDup_nth_error _)) with (i := i) (j := j) in N; [exact N| |].
  - rewrite map_length. apply nth_error_Some. congruence.
  - now rewrite !nth_error_map, Ei, Ej.
Qed.

Section Reduce.
  Context {X U : Type} (s : semantics X U).
  Variable f f' : nat -> nat -> list (val X) -> list (string * val X) -> result (val X).
  Variable g g' : graph.
  Variable specs : list subgraph_spec.
  Variable subs : list (nat * graph).
  Variable ts : list nat.
  Variable c : nat.
  Variable vs : list (val X).
  Variable ord ord' : list nat -> list nat.
  Hypothesis Hord : forall l, Permutation (ord l) l.
  Hypothesis Hord' : forall l, Permutation (ord' l) l.
  Hypothesis T : tidy g.
  Hypothesis Red : reduce_resolution ord ord' g specs = Ok (g', subs, ts).
  Hypothesis Ff : folds_faithful s f g (positional g vs) c.
  Hypothesis Av : all_values s f g (positional g vs) c.
  Hypothesis Ws : with_subgraphs s f g subs f'.
  Hypothesis Ti : tuple_items s.
  Hypothesis Kind : modules_only specs \/ flat_graph g /\ tensor_arguments s f g (positional g vs) c.

  Lemma perm_in (o : list nat -> list nat) : (forall l, Permutation (o l) l) -> forall l x, In x (o l) <-> In x l.
  Proof. intros H l x. split; apply Permutation_in; [apply H|apply Permutation_sym, H]. Qed.

  Lemma reduce_value : map fst (g_inputs g') = map fst (g_inputs g) /\ graph_ok g' /\ g_folds g' = [] /\
    Forall2 (fun o o' => forall v, value s f g (positional g vs) c o v -> value s f' g' (positional g' vs) c o' v) (g_outputs g) (g_outputs g').
  Proof.
    assert (H := Red). unfold reduce_resolution in H. destruct (resolve_all ord ord' g 0 specs []) as [[[targets sb] ts0]|] eqn:Ea; [|discriminate]. cbn [rbind] in H.
    destruct (coarse_complement g targets) as [comp|]; [|discriminate]. cbn [rbind] in H. set (us := map UNode _ ++ _) in H. destruct (node_order g us) as [order|] eqn:Eo; [|discriminate]. cbn [rbind] in H.
    set (inputs := combine (map fst (g_inputs g)) (seq 0 (length (g_inputs g)))) in *. set (cx0 := map _ inputs) in H.
    destruct (rfold (place g) order (cx0, [])) as [[cx nodes]|] eqn:Ep; [|discriminate]. cbn [rbind] in H.
    destruct (remap_args cx [] "" (g_outputs g)) as [outs|] eqn:Er; [|discriminate]. cbn [rbind] in H. destruct (existsb _ outs); [discriminate|].
    destruct (rfold _ (combine ts0 specs) nodes) as [nodes'|] eqn:Ed in H; [|discriminate]. cbn [rbind] in H. injection H as <- Esubs _.
    assert (Ei : inputs = combine (map fst (g_inputs g)) (seq 0 (length (map fst (g_inputs g))))) by (unfold inputs; now rewrite map_length).
    split; [cbn [g_inputs]; rewrite Ei; apply combine_seq_fst|]. apply delegates_alike in Ed. split; [|split; [reflexivity|]].
    { unfold graph_ok. cbn [g_nodes]. rewrite (alike_ids _ _ Ed), (place_ids g order cx0 [] cx nodes eq_refl Ep). apply seq_NoDup. }
    set (inp' := positional (mkGraph nodes' inputs outs []) vs).
    assert (Hinp : forall i k id v, nth_error (g_inputs g) i = Some (k, id) -> nth_error vs i = Some v -> inp' i v).
    { intros i k id v E V. exists i, k. split; [|exact V]. cbn [g_inputs]. rewrite Ei. apply combine_seq_nth. exists k. split; [reflexivity|]. rewrite nth_error_map, E. reflexivity. }
    assert (C0 : ctx_ok s f f' g (positional g vs) inp' c cx0 []).
    { intros k r' E. apply cget_in in E. unfold cx0 in E. apply in_map_iff in E. destruct E as ([k' i] & E & I). cbn [fst snd] in E. injection E as -> <-. rewrite Ei in I. apply combine_seq_in in I.
      destruct I as (x & j & Ex & Hj). injection Ex as <- ->. cbn [plus]. rewrite nth_error_map in Hj. destruct (nth_error (g_inputs g) j) as [[k0 id]|] eqn:Ej; [|discriminate]. injection Hj as <-. cbn [fst].
      assert (Ij := nth_error_In _ _ Ej). split; [exact (input_bracket g k0 id T Ij)|]. split.
      - intros id' v Hi (i2 & k2 & E2 & V2). constructor. assert (id' = id) as -> by exact (input_name_unique g k0 id' id T Hi Ij).
        assert (i2 = j) as ->; [|exact (Hinp j k0 id v Ej V2)]. assert (N := tidy_input_ids g T). apply (proj1 (NoDup_nth_error _)) with (i := i2) (j := j) in N; [exact N| |].
        + rewrite map_length. apply nth_error_Some. congruence.
        + now rewrite !nth_error_map, Ej, E2.
      - intros n v Hn En _ _. exfalso. exact (input_not_node g n k0 id T Hn Ij En). }
    destruct (resolve_all_subs ord ord' g specs 0 [] targets sb ts0 Ea) as (R1 & R2 & _).
    assert (Uok : forall u, In u order -> unit_ok s f g subs (positional g vs) c ord ord' u).
    { intros u Hu. apply (node_order_in g us order u Eo) in Hu. unfold us in Hu. rewrite !in_app_iff in Hu. destruct Hu as [Hu|[Hu|Hu]]; try (apply in_map_iff in Hu; destruct Hu as (x & <- & _); exact I).
      destruct Kind as [M|[Fl Ta]]; [rewrite (R2 M) in Hu; destruct Hu|]. apply in_map_iff in Hu. destruct Hu as ([[path k] sub] & <- & Hu). cbn [fst snd]. split; [|split; [|split; assumption]].
      - rewrite <- Esubs. apply in_map_iff. exists (path, k, sub). split; [reflexivity|exact Hu].
      - exists path. exact (R1 path k sub Hu). }
    assert (C := place_all s f f' g subs (positional g vs) inp' c ord ord' (perm_in ord Hord) (perm_in ord' Hord') T (positional_fun g vs T) Ff Av Ws Ti order Uok cx0 [] cx nodes C0 Ep).
    cbn [g_outputs]. apply rmapM_inv in Er. refine (Forall2_in_imp _ _ _ _ _ Er). intros o o' Ho E v V. destruct (tidy_outputs g T o Ho) as [W _].
    assert (V' := remap_ok s f f' g (positional g vs) inp' c cx nodes C o o' v W E V). revert V'. apply alike_value. exact Ed.
  Qed.
End Reduce.
