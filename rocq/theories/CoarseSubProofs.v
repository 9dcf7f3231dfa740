(** Calling a subgraph computes what its nodes compute in the graph. *)
From Coq Require Import String Ascii DecimalString DecimalZ Relations Permutation.
From Verif Require Import Prelude GraphModel GraphSpec GraphProofs EngineModel EngineSpec EngineOptProofs EngineSchedProofs CoarseModel CoarseSpec CoarseValueProofs CoarseBaseProofs.
Local Open Scope nat_scope.
Local Open Scope list_scope.

Lemma sdedup_in l : forall seen x, In x (sdedup seen l) <-> In x l /\ ~ In x seen.
Proof.
  induction l as [|a l IH]; intros seen x; cbn [sdedup]; [cbn; tauto|]. destruct (smem a seen) eqn:E.
  - apply smem_in in E. rewrite IH. cbn. split; [tauto|]. intros [[->|H] N]; [contradiction|tauto].
  - assert (Na : ~ In a seen) by (intros I; apply smem_in in I; congruence). cbn [In]. rewrite IH. cbn [In]. split.
    + intros [->|[H N]]; [tauto|]. tauto.
    + intros [[->|H] N]; [now left|]. destruct (String.eqb_spec a x) as [->|D]; [now left|]. right. tauto.
Qed.
Lemma rdedup_incl l : forall seen x, In x (rdedup seen l) -> In x l.
Proof.
  induction l as [|a l IH]; intros seen x; cbn [rdedup]; [tauto|]. destruct (rmem a seen); [intros H; right; now apply (IH seen)|]. intros [->|H]; [now left|right; now apply (IH (a :: seen))].
Qed.
Lemma combine_seq_nth {A} (l : list A) : forall k i a, nth_error (combine l (seq k (length l))) i = Some a <-> exists x, a = (x, k + i) /\ nth_error l i = Some x.
Proof.
  induction l as [|x l IH]; intros k i a; cbn [length seq combine].
  - split; [destruct i; discriminate|]. intros (y & _ & E). destruct i; discriminate.
  - destruct i as [|i]; cbn [nth_error].
    + rewrite Nat.add_0_r. split; [intros E; injection E as <-; now exists x|]. intros (y & -> & E). congruence.
    + rewrite IH. replace (S k + i) with (k + S i) by lia. reflexivity.
Qed.
Lemma combine_seq_fst {A} (l : list A) : forall k, map fst (combine l (seq k (length l))) = l.
Proof. induction l as [|x l IH]; intros k; cbn; [reflexivity|]. now rewrite IH. Qed.
Lemma combine_seq_in {A} (l : list A) k a : In a (combine l (seq k (length l))) <-> exists x i, a = (x, k + i) /\ nth_error l i = Some x.
Proof.
  split.
  - intros H. apply In_nth_error in H. destruct H as [i H]. apply combine_seq_nth in H. destruct H as (x & -> & H). eauto.
  - intros (x & i & -> & H). apply nth_error_In with i. apply combine_seq_nth. eauto.
Qed.

(** the name under which a reference from outside enters a subgraph *)
Definition key_of (r : ref) : string :=
  match unwrap r with
  | RInput _ n | RNode _ n => match r with RAttr _ a => lifted_key n a | _ => n end
  | _ => ""
  end.
Definition outer (r : ref) : Prop := match unwrap r with RNode _ _ | RInput _ _ => True | _ => False end.

Lemma well_named_unwrap g r : well_named g r -> well_named g (unwrap r).
Proof. induction 1; cbn; try (constructor; assumption). assumption. Qed.
Lemma unwrap_idem r : forall r' a, unwrap r <> RAttr r' a.
Proof. induction r; cbn; intros; try discriminate. apply IHr. Qed.

Lemma key_inj g r r' : tidy g -> well_named g r -> well_named g r' -> flat r -> flat r' -> outer r -> outer r' -> key_of r = key_of r' -> r = r'.
Proof.
  intros T W W' F F' O O' E. unfold key_of, outer in *.
  assert (base : forall a b, well_named g a -> well_named g b -> (forall r a', a <> RAttr r a') -> (forall r a', b <> RAttr r a') ->
    match a with RNode _ n | RInput _ n => match b with RNode _ m | RInput _ m => n = m | _ => False end | _ => False end -> a = b).
  { intros a b Wa Wb Na Nb H. destruct Wa as [n Hn Ln|k i Hi|i|]; destruct Wb as [m Hm Lm|k' j Hj|j|]; try contradiction.
    - now rewrite (node_name_unique g n m T Hn Hm H).
    - now apply (input_not_node g n k' j T Hn Hj) in H.
    - symmetry in H. now apply (input_not_node g m k i T Hm Hi) in H.
    - subst k'. now rewrite (input_name_unique g k i j T Hi Hj). }
  assert (nb : forall a, well_named g a -> match a with RNode _ n | RInput _ n => ~ has_char "["%char n | _ => True end).
  { intros a Wa. destruct Wa; trivial; [now apply (node_bracket g n T)|now apply (input_bracket g k i T)]. }
  destruct r as [i n|i n|i|r a], r' as [j m|j m|j|r' a']; cbn [unwrap] in *; try contradiction;
    try (apply base; try assumption; try (intros; discriminate); exact E).
  - exfalso. apply nb in W. cbn in W. apply W. rewrite E. destruct (unwrap r'); try contradiction; apply lifted_bracket.
  - exfalso. apply nb in W. cbn in W. apply W. rewrite E. destruct (unwrap r'); try contradiction; apply lifted_bracket.
  - exfalso. apply nb in W'. cbn in W'. apply W'. rewrite <- E. destruct (unwrap r); try contradiction; apply lifted_bracket.
  - exfalso. apply nb in W'. cbn in W'. apply W'. rewrite <- E. destruct (unwrap r); try contradiction; apply lifted_bracket.
  - inversion W as [| | |? ? W1]; subst. inversion W' as [| | |? ? W1']; subst.
    assert (Nr : forall x y, r <> RAttr x y) by (intros x y ->; exact F). assert (Nr' : forall x y, r' <> RAttr x y) by (intros x y ->; exact F').
    assert (Er : unwrap r = r) by (destruct r; try reflexivity; exfalso; eapply Nr; reflexivity).
    assert (Er' : unwrap r' = r') by (destruct r'; try reflexivity; exfalso; eapply Nr'; reflexivity). rewrite Er, Er' in *.
    assert (B := nb r W1). assert (B' := nb r' W1').
    assert (Ea : parse_attr (attr_text a) = a) by (apply parse_attr_text; destruct r, a; trivial; contradiction).
    assert (Ea' : parse_attr (attr_text a') = a') by (apply parse_attr_text; destruct r', a'; trivial; contradiction).
    assert (G : r = r' /\ attr_text a = attr_text a').
    { destruct r as [i n|i n|i|? ?]; try contradiction; destruct r' as [j m|j m|j|? ?]; try contradiction; apply lifted_inj in E; try assumption; destruct E as [-> Et]; (split; [|exact Et]);
        apply base; trivial; intros; discriminate. }
    destruct G as [-> Et]. rewrite <- Ea, <- Ea', Et. reflexivity.
Qed.

Section Sub.
  Context {X U : Type} (s : semantics X U).
  Variable f : nat -> nat -> list (val X) -> list (string * val X) -> result (val X).
  Variable g : graph.
  Variable inp : nat -> val X -> Prop.
  Variable c : nat.
  Variable ord ord' : list nat -> list nat.
  Hypothesis Hord : forall l x, In x (ord l) <-> In x l.
  Hypothesis Hord' : forall l x, In x (ord' l) <-> In x l.
  Hypothesis T : tidy g.
  Hypothesis Hfun : functional inp.
  Hypothesis Flat : flat_graph g.
  Hypothesis Av : all_values s f g inp c.
  Hypothesis Ta : tensor_arguments s f g inp c.

  Definition keyval (k : string) (v : val X) : Prop := exists r, well_named g r /\ flat r /\ outer r /\ key_of r = k /\ value s f g inp c r v.
  Lemma keyval_fun k v w : keyval k v -> keyval k w -> v = w.
  Proof.
    intros (r & W & F & O & E & V) (r' & W' & F' & O' & E' & V'). assert (r = r') as <- by (apply (key_inj g r r' T); try assumption; congruence).
    exact (value_det s f g inp c (tidy_ids g T) Hfun r v V w V').
  Qed.

  Lemma nodes_of_in (l : list nat) ns : nodes_of g l = Ok ns -> forall n, In n ns <-> In n (g_nodes g) /\ In (n_id n) l.
  Proof.
    intros E n. apply rmapM_inv in E. split.
    - intros H. destruct (Forall2_In_r _ _ _ _ E H) as (i & Hi & Ei). destruct (get_node g i) as [m|] eqn:Em; [|discriminate]. injection Ei as ->.
      apply get_node_some in Em. destruct Em as [Hm <-]. now split.
    - intros [Hn Hi]. destruct (Forall2_In_l _ _ _ _ E Hi) as (m & Hm & Em). rewrite (get_node_in g (n_id n) n (tidy_ids g T) Hn eq_refl) in Em. now injection Em as ->.
  Qed.

  Variable path : list nat.
  Variable sub : graph.
  Hypothesis Create : create_subgraph ord ord' g path = Ok sub.

  Definition in_path (n : gnode) : Prop := In n (g_nodes g) /\ In (n_id n) path.

  Definition the_context (ins : list string) : context := map (fun e => (fst e, RInput (snd e) (fst e))) (combine ins (seq 0 (length ins))).
  Lemma the_context_get ins k : In k ins -> exists j, cget k (the_context ins) = Some (RInput j k) /\ nth_error ins j = Some k.
  Proof.
    intros H. destruct (cget_some k (the_context ins)) as [r Hr].
    { unfold the_context. rewrite map_map. cbn [fst]. change (fun x : string * nat => fst x) with (@fst string nat). now rewrite combine_seq_fst. }
    assert (I := cget_in _ _ _ Hr). unfold the_context in I. apply in_map_iff in I. destruct I as ([k' j] & E & I). cbn [fst snd] in E. injection E as -> <-.
    apply combine_seq_in in I. destruct I as (x & i & Ex & Hi). injection Ex as -> ->. exists i. split; [exact Hr|exact Hi].
  Qed.
  Lemma the_context_keys ins k r : cget k (the_context ins) = Some r -> In k ins.
  Proof.
    intros H. apply cget_in in H. unfold the_context in H. apply in_map_iff in H. destruct H as ([k' j] & E & I). cbn [fst snd] in E. injection E as -> <-.
    apply combine_seq_in in I. destruct I as (x & i & Ex & Hi). injection Ex as -> ->. now apply nth_error_In in Hi.
  Qed.

  Definition same_node (ins : list string) (internal : list string) (n m : gnode) : Prop :=
    n_id m = n_id n /\ n_name m = n_name n /\ n_target m = n_target n /\ map fst (n_kwargs m) = map fst (n_kwargs n) /\
    Forall2 (fun r r' => remap (the_context ins) internal "" r = Ok r') (n_args n) (n_args m) /\
    Forall2 (fun r r' => remap (the_context ins) internal "" r = Ok r') (map snd (n_kwargs n)) (map snd (n_kwargs m)).

  Lemma remap_kwargs_inv cx internal l l' : remap_kwargs cx internal "" l = Ok l' ->
    map fst l' = map fst l /\ Forall2 (fun r r' => remap cx internal "" r = Ok r') (map snd l) (map snd l').
  Proof.
    unfold remap_kwargs. intros E. apply rmapM_inv in E. induction E as [|[k r] e l l' H F [I1 I2]]; [split; [reflexivity|constructor]|].
    cbn [snd fst] in H. destruct (remap cx internal "" r) as [r'|] eqn:Er; [|discriminate]. injection H as <-. cbn [map fst snd]. split; [now rewrite I1|]. now constructor.
  Qed.

  Lemma create_inv : exists ins internal,
    (forall k, In k internal <-> exists n, in_path n /\ n_name n = k) /\
    (forall k, In k ins <-> exists n r, in_path n /\ In r (call_refs n) /\ In k (external_dependency path r)) /\
    g_inputs sub = combine ins (seq 0 (length ins)) /\
    (forall m, In m (g_nodes sub) -> exists n, in_path n /\ same_node ins internal n m) /\
    (forall n, in_path n -> exists m, In m (g_nodes sub) /\ same_node ins internal n m) /\
    Forall2 (fun r r' => remap (the_context ins) internal "" r = Ok r') (external_outputs ord g path) (g_outputs sub).
  Proof.
    assert (H := Create). unfold create_subgraph in H. destruct (nodes_of g (ord path)) as [ns|] eqn:En; [|discriminate]. cbn [rbind] in H.
    destruct (nodes_of g (ord' path)) as [ns'|] eqn:En'; [|discriminate]. cbn [rbind] in H.
    set (ins := external_inputs path ns) in *. set (internal := map n_name ns) in *. fold (the_context ins) in H.
    destruct (rmapM _ ns') as [nodes|] eqn:Em; [|discriminate]. cbn [rbind] in H.
    destruct (remap_args _ _ _ _) as [outs|] eqn:Eo in H; [|discriminate]. cbn [rbind] in H. injection H as <-.
    assert (I := nodes_of_in _ _ En). assert (I' := nodes_of_in _ _ En').
    apply rmapM_inv in Em. exists ins, internal. split; [|split; [|split; [|split; [|split]]]].
    - intros k. unfold internal. rewrite in_map_iff. unfold in_path. split; [intros (n & <- & Hn); exists n; apply I in Hn; rewrite Hord in Hn; tauto|].
      intros (n & Hn & <-). exists n. split; [reflexivity|]. apply I. now rewrite Hord.
    - intros k. unfold ins, external_inputs. rewrite sdedup_in, in_flat_map. split.
      + intros [(n & Hn & Hk) _]. apply in_flat_map in Hk. destruct Hk as (r & Hr & Hk). exists n, r. apply I in Hn. rewrite Hord in Hn. now split.
      + intros (n & r & Hn & Hr & Hk). split; [|tauto]. exists n. split; [apply I; now rewrite Hord|]. apply in_flat_map. now exists r.
    - reflexivity.
    - cbn [g_nodes]. intros m Hm. destruct (Forall2_In_r _ _ _ _ Em Hm) as (n & Hn & E). exists n. split; [apply I' in Hn; rewrite Hord' in Hn; exact Hn|].
      destruct (remap_args _ _ _ (n_args n)) as [a|] eqn:Ea; [|discriminate]. destruct (remap_kwargs _ _ _ _) as [k|] eqn:Ek; [|discriminate]. injection E as <-.
      apply remap_kwargs_inv in Ek. destruct Ek as [K1 K2]. apply rmapM_inv in Ea. unfold same_node. cbn. tauto.
    - cbn [g_nodes]. intros n Hn. assert (Hi : In n ns') by (apply I'; now rewrite Hord'). destruct (Forall2_In_l _ _ _ _ Em Hi) as (m & Hm & E). exists m. split; [exact Hm|].
      destruct (remap_args _ _ _ (n_args n)) as [a|] eqn:Ea; [|discriminate]. destruct (remap_kwargs _ _ _ _) as [k|] eqn:Ek; [|discriminate]. injection E as <-.
      apply remap_kwargs_inv in Ek. destruct Ek as [K1 K2]. apply rmapM_inv in Ea. unfold same_node. cbn. tauto.
    - cbn [g_outputs]. apply rmapM_inv in Eo. exact Eo.
  Qed.

  Section Inner.
    Variable ins internal : list string.
    Hypothesis Hint : forall k, In k internal <-> exists n, in_path n /\ n_name n = k.
    Hypothesis Hins : forall k, In k ins <-> exists n r, in_path n /\ In r (call_refs n) /\ In k (external_dependency path r).
    Hypothesis Gi : g_inputs sub = combine ins (seq 0 (length ins)).
    Hypothesis Nodes1 : forall m, In m (g_nodes sub) -> exists n, in_path n /\ same_node ins internal n m.
    Hypothesis Nodes2 : forall n, in_path n -> exists m, In m (g_nodes sub) /\ same_node ins internal n m.
    Hypothesis Outs : Forall2 (fun r r' => remap (the_context ins) internal "" r = Ok r') (external_outputs ord g path) (g_outputs sub).
    Variable vs : list (val X).
    Hypothesis Hvs : Forall2 keyval ins vs.

    Lemma internal_iff n : In n (g_nodes g) -> (smem (n_name n) internal = true <-> In (n_id n) path).
    Proof.
      intros Hn. rewrite smem_in, Hint. split.
      - intros (m & [Hm Pm] & E). now rewrite <- (node_name_unique g m n T Hm Hn E).
      - intros P. exists n. repeat split; assumption.
    Qed.

    Lemma input_value k v : In k ins -> keyval k v -> exists j, cget k (the_context ins) = Some (RInput j k) /\ value s f sub (positional sub vs) c (RInput j k) v.
    Proof.
      intros Hk Kv. destruct (the_context_get ins k Hk) as (j & Ej & Nj). exists j. split; [exact Ej|]. apply v_input.
      destruct (Forall2_nth_l _ _ _ Hvs _ _ Nj) as (w & Nw & Kw). assert (w = v) as -> by exact (keyval_fun k w v Kw Kv).
      exists j, k. split; [|exact Nw]. rewrite Gi. apply combine_seq_nth. now exists k.
    Qed.

    (** references into the path stay; others become inputs *)
    Lemma sub_remap r r' v x : in_path x -> In r (call_refs x) -> remap (the_context ins) internal "" r = Ok r' -> value s f g inp c r v ->
      (forall i, about r i -> In i path -> value s f sub (positional sub vs) c r v) -> value s f sub (positional sub vs) c r' v.
    Proof.
      intros Px Hr E V I. assert (W := tidy_refs g T x r (proj1 Px) Hr). assert (F := proj1 Flat x r (proj1 Px) Hr).
      assert (ext : outer r -> (forall i, about r i -> ~ In i path) -> In (key_of r) ins /\ keyval (key_of r) v).
      { intros O N. split; [|exists r; repeat split; assumption]. apply Hins. exists x, r. split; [exact Px|]. split; [exact Hr|]. unfold external_dependency, key_of, outer in *.
        destruct (unwrap r) as [i n|i n|i|q a] eqn:Eu; try contradiction.
        - destruct (nmem i path) eqn:M; [apply nmem_in in M; exfalso; apply (N i); [apply about_unwrap; eauto|exact M]|]. now left.
        - now left.
      }
      destruct r as [i n|i n|i|q a].
      - inversion W as [m Hm Lm| | |]; subst. cbn [remap] in E. destruct (smem (n_name m) internal) eqn:Es.
        + apply (internal_iff m Hm) in Es. injection E as <-. apply (I (n_id m)); [constructor|exact Es].
        + destruct ext as [Hk Kv]; [exact Logic.I|intros j Aj; inversion Aj; subst; intros P; apply (internal_iff m Hm) in P; congruence|].
          destruct (input_value _ v Hk Kv) as (j & Ej & Vj). unfold clookup in E. change (key_of (RNode (n_id m) (n_name m))) with (n_name m) in *. rewrite Ej in E. injection E as <-. exact Vj.
      - cbn [remap] in E. destruct ext as [Hk Kv]; [exact Logic.I|intros j Aj; inversion Aj|].
        destruct (input_value _ v Hk Kv) as (j & Ej & Vj). unfold clookup in E. change (key_of (RInput i n)) with n in *. rewrite Ej in E. injection E as <-. exact Vj.
      - injection E as <-. inversion V; subst. constructor.
      - assert (Nq : forall x y, q <> RAttr x y) by (intros ? ? ->; exact F).
        inversion W as [| | |? ? W1]; subst. destruct q as [i n|i n|i|q' b]; [| | |exfalso; eapply Nq; reflexivity].
        + inversion W1 as [m Hm Lm| | |]; subst. cbn [remap unwrap] in E. destruct (smem (n_name m) internal) eqn:Es.
          * apply (internal_iff m Hm) in Es. cbn [rbind scoped] in E. injection E as <-. apply (I (n_id m)); [repeat constructor|exact Es].
          * destruct ext as [Hk Kv]; [exact Logic.I|intros j Aj; inversion Aj as [|? ? ? Aj']; subst; inversion Aj'; subst; intros P; apply (internal_iff m Hm) in P; congruence|].
            destruct (input_value _ v Hk Kv) as (j & Ej & Vj). change (key_of (RAttr (RNode (n_id m) (n_name m)) a)) with (lifted_key (n_name m) a) in *.
            rewrite Ej in E. injection E as <-. exact Vj.
        + cbn [remap unwrap] in E. destruct ext as [Hk Kv]; [exact Logic.I|intros j Aj; inversion Aj as [|? ? ? Aj']; subst; inversion Aj'|].
          destruct (input_value _ v Hk Kv) as (j & Ej & Vj). change (key_of (RAttr (RInput i n) a)) with (lifted_key n a) in *. rewrite Ej in E. injection E as <-. exact Vj.
        + cbn in E. injection E as <-. inversion V as [| |? ? u ? Vu Ua|]; subst. inversion Vu; subst. econstructor; [constructor|exact Ua].
    Qed.

    Lemma sub_list x (P : ref -> val X -> Prop) : in_path x ->
      (forall r v, P r v -> value s f g inp c r v /\ forall i, about r i -> In i path -> value s f sub (positional sub vs) c r v) ->
      forall l l' xs, (forall r, In r l -> In r (call_refs x)) -> Forall2 (fun r r' => remap (the_context ins) internal "" r = Ok r') l l' ->
      Forall2 P l xs -> Forall2 (value s f sub (positional sub vs) c) l' xs.
    Proof.
      intros Px HP l l' xs Hl F. revert xs. induction F as [|r r' l l' E F IH]; intros xs G; inversion G as [|? v ? vs' Pv G']; subst; constructor.
      - destruct (HP r v Pv) as [V I]. apply (sub_remap r r' v x Px); try assumption. apply Hl. now left.
      - apply IH; [|assumption]. intros q Hq. apply Hl. now right.
    Qed.

    Lemma sub_value : forall r v, value s f g inp c r v -> forall i, about r i -> In i path -> value s f sub (positional sub vs) c r v.
    Proof.
      refine (value_rect' s f g inp c (fun r v => forall i, about r i -> In i path -> value s f sub (positional sub vs) c r v) _ _ _ _);
        [intros i n v H|intros i|intros r a v w H IH E|intros x nm xs ys v Hx Fa Ia Fk Ik E]; intros j A P.
      - inversion A.
      - inversion A.
      - inversion A as [|? ? ? A']; subst. econstructor; [exact (IH j A' P)|exact E].
      - inversion A; subst. assert (Px : in_path x) by now split. destruct (Nodes2 x Px) as (m & Hm & E1 & E2 & E3 & E4 & Ra & Rk). rewrite <- E1.
        assert (both : forall l zs, Forall2 (value s f g inp c) l zs ->
          Forall2 (fun r v => forall i, about r i -> In i path -> value s f sub (positional sub vs) c r v) l zs ->
          Forall2 (fun r v => value s f g inp c r v /\ forall i, about r i -> In i path -> value s f sub (positional sub vs) c r v) l zs).
        { intros l zs F1 F2. induction F1; inversion F2; subst; constructor; auto. }
        eapply v_node; [exact Hm| | |rewrite E3, E4; exact E].
        + refine (sub_list x _ Px (fun r v H => H) (n_args x) (n_args m) xs _ Ra (both _ _ Fa Ia)). intros r Hr. unfold call_refs. apply in_app_iff. now left.
        + refine (sub_list x _ Px (fun r v H => H) (map snd (n_kwargs x)) (map snd (n_kwargs m)) ys _ Rk (both _ _ Fk Ik)). intros r Hr. unfold call_refs. apply in_app_iff. now right.
    Qed.

    (** outputs of the subgraph are leaves on the path *)
    Lemma outs_inv : Forall2 (fun r r' => r' = r /\ exists n, in_path n /\ ~ In (n_id n) (g_folds g) /\ r = RNode (n_id n) (n_name n)) (external_outputs ord g path) (g_outputs sub).
    Proof.
      refine (Forall2_in_imp _ _ _ _ _ Outs). intros r r' Hr E.
      assert (H : exists n, in_path n /\ ~ In (n_id n) (g_folds g) /\ r = RNode (n_id n) (n_name n)).
      { unfold external_outputs in Hr. apply rdedup_incl in Hr. apply in_app_iff in Hr. destruct Hr as [Hr|Hr].
        - apply filter_In in Hr. destruct Hr as [Hr M]. destruct (proj2 Flat r Hr) as (i & nm & ->). destruct (tidy_outputs g T _ Hr) as [W _]. inversion W as [n Hn Ln| | |]; subst.
          cbn [unwrap] in M. apply nmem_in in M. exists n. repeat split; assumption.
        - apply in_flat_map in Hr. destruct Hr as (i & Hi & Hr). rewrite Hord in Hi. apply in_flat_map in Hr. destruct Hr as (d & Hd & Hr). destruct (nmem d path); [destruct Hr|].
          destruct (get_node g d) as [m|] eqn:Em; [|destruct Hr]. apply get_node_some in Em. destruct Em as [Hm _]. apply in_flat_map in Hr. destruct Hr as (q & Hq & Hr).
          assert (W := well_named_unwrap _ _ (tidy_refs g T m q Hm Hq)). destruct (unwrap q) as [j nm|? ?|?|? ?]; try destruct Hr. destruct (Nat.eqb_spec j i) as [->|]; [|destruct Hr].
          destruct Hr as [<-|[]]. inversion W as [n Hn Ln| | |]; subst. exists n. repeat split; assumption. }
      split; [|exact H]. destruct H as (n & [Hn Pn] & _ & ->). cbn [remap] in E. apply (internal_iff n Hn) in Pn. rewrite Pn in E. injection E as <-. reflexivity.
    Qed.

    Lemma inner_call : exists outs v, graph_call s f sub c vs v /\ v = (match outs with [w] => w | _ => Tup [] outs end) /\
      Forall2 (fun o w => exists n, In n (g_nodes g) /\ ~ In (n_id n) (g_folds g) /\ o = RNode (n_id n) (n_name n) /\ value s f g inp c o w) (g_outputs sub) outs.
    Proof.
      assert (O : forall o, In o (g_outputs sub) -> exists n, in_path n /\ ~ In (n_id n) (g_folds g) /\ o = RNode (n_id n) (n_name n)).
      { intros o Ho. destruct (Forall2_In_r _ _ _ _ outs_inv Ho) as (r & _ & -> & n & H). eauto. }
      destruct (Forall2_choose (fun o w => exists n, In n (g_nodes g) /\ ~ In (n_id n) (g_folds g) /\ o = RNode (n_id n) (n_name n) /\ value s f g inp c o w) (g_outputs sub)) as [outs F].
      { intros o Ho. destruct (O o Ho) as (n & [Hn Pn] & Ln & ->). destruct (Av n Hn) as [w Hw]. exists w, n. repeat split; assumption. }
      exists outs, (match outs with [w] => w | _ => Tup [] outs end). split; [|split; [reflexivity|exact F]]. split; [|split; [|split]].
      - rewrite Gi, combine_length, seq_length, Nat.min_id. symmetry. exact (Forall2_len _ _ _ Hvs).
      - intros w Hw. destruct (Forall2_In_r _ _ _ _ Hvs Hw) as (k & Hk & (r & Wr & Fr & Or & Er & Vr)). apply Hins in Hk. destruct Hk as (n & q & [Hn Pn] & Hq & Hk).
        assert (Wq := tidy_refs g T n q Hn Hq). assert (Fq := proj1 Flat n q Hn Hq).
        assert (Oq : outer q). { unfold outer, external_dependency in *. destruct (unwrap q); trivial. }
        assert (Eq : key_of q = k). { unfold key_of, external_dependency in *. destruct (unwrap q) as [i nm|i nm|i|? ?] eqn:Eu; [destruct (nmem i path); [destruct Hk|]| | |]; try (destruct Hk as [Hk|[]]; exact Hk); contradiction. }
        assert (r = q) as -> by (apply (key_inj g r q T); try assumption; congruence). apply (Ta n q w Hn Hq); [|exact Vr]. intros i Ei. unfold outer in Oq. now rewrite Ei in Oq.
      - intros m Hm. destruct (Nodes1 m Hm) as (n & [Hn Pn] & E1 & E2 & _). destruct (Av n Hn) as [w Hw]. exists w. rewrite E1. apply (value_name s f sub _ c _ (n_name n)).
        apply (sub_value _ _ Hw (n_id n)); [constructor|exact Pn].
      - exists outs. split; [|reflexivity]. refine (Forall2_in_imp _ _ _ _ _ F). intros o w Ho (n & Hn & Ln & -> & V). destruct (O _ Ho) as (n' & [Hn' Pn'] & _ & E). injection E as Ei En.
        apply (sub_value _ _ V (n_id n)); [constructor|]. now rewrite Ei.
    Qed.
  End Inner.

  Lemma sub_call : exists vs outs v, Forall2 keyval (map fst (g_inputs sub)) vs /\ graph_call s f sub c vs v /\ v = (match outs with [w] => w | _ => Tup [] outs end) /\
    Forall2 (fun o w => exists n, In n (g_nodes g) /\ ~ In (n_id n) (g_folds g) /\ o = RNode (n_id n) (n_name n) /\ value s f g inp c o w) (g_outputs sub) outs.
  Proof.
    destruct create_inv as (ins & internal & H1 & H2 & H3 & H4 & H5 & H6).
    destruct (Forall2_choose keyval ins) as [vs Hvs].
    { intros k Hk. apply H2 in Hk. destruct Hk as (n & q & [Hn Pn] & Hq & Hk). destruct (Av n Hn) as [v Hv]. inversion Hv as [| | |x nm xs ys v' Hx Fa Fk E]; subst.
      assert (x = n) as -> by (apply (node_unique g x n (tidy_ids g T)); assumption).
      assert (W : exists w, value s f g inp c q w).
      { unfold call_refs in Hq. apply in_app_iff in Hq. destruct Hq as [Hq|Hq]; [destruct (Forall2_In_l _ _ _ _ Fa Hq) as (w & _ & W)|destruct (Forall2_In_l _ _ _ _ Fk Hq) as (w & _ & W)]; eauto. }
      destruct W as [w W]. exists w, q. split; [exact (tidy_refs g T n q Hn Hq)|]. split; [exact (proj1 Flat n q Hn Hq)|].
      unfold outer, key_of, external_dependency in *. destruct (unwrap q) as [i nm'|i nm'|i|? ?] eqn:Eu; [destruct (nmem i path); [destruct Hk|]| | |]; try contradiction; try (destruct Hk as [Hk|[]]); repeat split; assumption. }
    destruct (inner_call ins internal H1 H2 H3 H4 H5 H6 vs Hvs) as (outs & v & G & Ev & F). exists vs, outs, v. split; [|now split]. rewrite H3, combine_seq_fst. exact Hvs.
  Qed.
End Sub.
