(** Proofs about tracing: what the graphs compute. *)
From Coq Require Import String Ascii Relations Lia.
From Verif Require Import Prelude GraphModel GraphSpec EngineModel EngineSpec CoarseModel CoarseSpec CoarseValueProofs CoarseBaseProofs BuildModel BuildSpec BuildProofs NamModel TrcModel TrcSpec TrcProofs.
Local Open Scope nat_scope.
Local Open Scope list_scope.

Section Values.
  Context {X U : Type} (s : semantics X U).
  Variable f : nat -> nat -> list (val X) -> list (string * val X) -> result (val X).
  Variable c : nat.

  Lemma value_grows g g' (inp inp' : nat -> val X -> Prop) : grows g g' -> (forall i v, inp i v -> inp' i v) -> forall r v, value s f g inp c r v -> value s f g' inp' c r v.
  Proof.
    intros (more & mi & ll & H1 & _) Hi. refine (value_rect' s f g inp c (value s f g' inp' c) _ _ _ _); [intros i n v H|intros i|intros r a v w H IH E|intros x nm xs ys v Hx Fa Ia Fk Ik E].
    - constructor. now apply Hi.
    - constructor.
    - econstructor; eassumption.
    - econstructor; try eassumption. rewrite H1, in_app_iff. now left.
  Qed.
  Lemma positional_grows g g' (vs : list (val X)) : grows g g' -> forall i v, positional g vs i v -> positional g' vs i v.
  Proof. intros (more & mi & ll & _ & H & _) i v (j & k & E1 & E2). exists j, k. split; [|exact E2]. rewrite H, nth_error_app1; [exact E1|]. apply nth_error_Some. congruence. Qed.
  Lemma value_grows' g g' vs r v : grows g g' -> value s f g (positional g vs) c r v -> value s f g' (positional g' vs) c r v.
  Proof. intros G. apply value_grows; [exact G|now apply positional_grows]. Qed.

  Lemma inlined_value' g fid name sub args kwargs original g' outs inp vs slo shi : wf slo sub shi -> name <> ""%string -> add_subgraph g fid name sub args kwargs original = (g', Ok outs) ->
    argument_values s f g inp c (map fst (g_inputs sub)) args kwargs vs ->
    Forall2 (fun o o' => forall v, value s f sub (positional sub vs) c o v -> value s f g' inp c o' v) (g_outputs sub) outs.
  Proof.
    intros Ts Hnm E Av. assert (Nn := wf_names _ _ _ Ts).
    destruct (add_subgraph_inv _ _ _ _ _ _ _ _ _ Nn E) as (cx & l' & Eb & El & G1 & F & _ & _ & _ & _ & Eo).
    set (internal := map n_name (g_nodes sub)) in *.
    assert (More : forall r v, value s f g inp c r v -> value s f g' inp c r v). { intros r v. apply value_more; [|reflexivity]. intros x Hx. rewrite G1, in_app_iff. now left. }
    assert (Bx := bound_cx _ _ _ _ Nn Eb).
    assert (Main : forall r v, value s f sub (positional sub vs) c r v -> simple sub r -> forall r', remap cx internal name r = Ok r' -> value s f g' inp c r' v).
    { refine (value_rect' s f sub (positional sub vs) c (fun r v => simple sub r -> forall r', remap cx internal name r = Ok r' -> value s f g' inp c r' v) _ _ _ _); [intros i n v H|intros i|intros r a v w H IH Ea|intros x nm xs ys v Hx Fa Ia Fk Ik Ef]; intros W r' Er;
        [| |destruct W|]; apply (remap_simple cx name sub _ r' Hnm W) in Er.
      - destruct H as (p & k & Hp & Hv). cbn in W. assert (k = n) as ->.
        { assert (Ni := wf_inputs _ _ _ Ts). clear -Ni W Hp. apply nth_error_In in Hp. induction (g_inputs sub) as [|[a b] l IH]; [destruct W|]. inversion Ni as [|? ? N1 N2]; subst. destruct W as [Hi|Hi], Hp as [Hp|Hp]; try congruence.
          - injection Hi as -> ->. destruct N1. apply in_map_iff. now exists (k, i).
          - injection Hp as -> ->. destruct N1. apply in_map_iff. now exists (n, i).
          - now apply IH. }
        apply More. destruct (Forall2_nth_l _ _ _ Av p n) as (v' & Hv' & r & Hr & Vr); [now rewrite nth_error_map, Hp|]. rewrite Hv in Hv'. injection Hv' as <-. apply Bx in Hr. rewrite Er in Hr. injection Hr as ->. exact Vr.
      - subst. constructor.
      - subst r'. assert (In x (sorted_nodes sub)) as Hs by now apply sorted_in. destruct (Forall2_In_l _ _ _ _ F Hs) as (x' & Hx' & R1 & R2 & Ri & Rn & Rt & _ & _).
        unfold remap_args in R1. apply rmapM_Forall2 in R1. destruct (remapped_kwargs _ _ _ _ _ R2) as [K1 K2]. rewrite <- Ri.
        assert (Go : forall l l1 us, (forall r, In r l -> simple sub r) -> Forall2 (fun r v => simple sub r -> forall r', remap cx internal name r = Ok r' -> value s f g' inp c r' v) l us -> Forall2 (fun r r' => remap cx internal name r = Ok r') l l1 -> Forall2 (value s f g' inp c) l1 us).
        { clear. intros l l1 us Hw Fv Fr. revert us Fv. induction Fr as [|r r1 l l1 H Fr IH]; intros us Fv; inversion Fv as [|? u ? us' Hu Fv']; subst; constructor; [apply Hu; [apply Hw; now left|exact H]|]. apply IH; [|exact Fv']. intros y Hy. apply Hw. now right. }
        apply (v_node s f g' inp c x' _ xs ys v).
        + rewrite G1, !in_app_iff. right. now right.
        + refine (Go _ _ _ _ Ia R1). intros r Hr. apply (wf_refs _ _ _ Ts x); [exact Hx|]. unfold call_refs. apply in_app_iff. now left.
        + refine (Go _ _ _ _ Ik K2). intros r Hr. apply (wf_refs _ _ _ Ts x); [exact Hx|]. unfold call_refs. apply in_app_iff. now right.
        + rewrite Rt, K1. exact Ef. }
    unfold remap_args in Eo. apply rmapM_Forall2 in Eo. refine (Forall2_in_imp _ _ _ _ _ Eo). intros o o' Ho Er v V. apply (Main o v V); [|exact Er]. exact (proj1 (wf_outs _ _ _ Ts o Ho)).
  Qed.
End Values.

(** ** Constants *)
Lemma contains_occurs : forall x, contains_node x = false -> forall n, ~ occurs n x.
Proof.
  assert (E : forall (l : list farg), Forall (fun x => contains_node x = false -> forall n, ~ occurs n x) l -> existsb contains_node l = false -> forall x n, In x l -> ~ occurs n x).
  { induction 1 as [|y l Hy F IH]; intros E x n Hx; [destruct Hx|]. cbn in E. apply orb_false_iff in E. destruct E as [E1 E2]. destruct Hx as [<-|Hx]; [now apply Hy|now apply IH]. }
  refine (farg_rec' (fun x => contains_node x = false -> forall n, ~ occurs n x) _ _ _ _ _ _).
  - discriminate.
  - intros a _ n H. inversion H.
  - intros names l F Ex n H. inversion H as [|? ? ? x Hx Ho| | |]; subst. exact (E l F Ex x n Hx Ho).
  - intros l F Ex n H. inversion H as [| |? ? x Hx Ho| |]; subst. exact (E l F Ex x n Hx Ho).
  - intros x y z Hx Hy Hz Ex n H. cbn in Ex. apply orb_false_iff in Ex. destruct Ex as [Ex E3]. apply orb_false_iff in Ex. destruct Ex as [E1 E2]. inversion H as [| | |? ? ? ? w Hw Ho|]; subst. destruct Hw as [<-|[<-|[<-|[]]]]; [exact (Hx E1 n Ho)|exact (Hy E2 n Ho)|exact (Hz E3 n Ho)].
  - intros l F Ex n H. inversion H as [| | | |? ? k x Hx Ho]; subst. refine (E (map snd l) F _ x n _ Ho).
    + cbn in Ex. clear -Ex. induction l as [|[k x] l IH]; [reflexivity|]. cbn in *. apply orb_false_iff in Ex. destruct Ex as [-> Ex]. now apply IH.
    + apply in_map_iff. now exists (k, x).
Qed.
Lemma occurs_contains : forall x, contains_node x = true -> exists n, occurs n x.
Proof.
  assert (E : forall (l : list farg), Forall (fun x => contains_node x = true -> exists n, occurs n x) l -> existsb contains_node l = true -> exists x n, In x l /\ occurs n x).
  { intros l F E. apply existsb_exists in E. destruct E as (x & Hx & E). rewrite Forall_forall in F. destruct (F x Hx E) as (n & Hn). eauto. }
  refine (farg_rec' (fun x => contains_node x = true -> exists n, occurs n x) _ _ _ _ _ _).
  - intros n _. exists n. constructor.
  - discriminate.
  - intros names l F Ex. destruct (E l F Ex) as (x & n & Hx & Ho). exists n. econstructor; eassumption.
  - intros l F Ex. destruct (E l F Ex) as (x & n & Hx & Ho). exists n. econstructor; eassumption.
  - intros x y z Hx Hy Hz Ex. cbn in Ex. apply orb_true_iff in Ex. destruct Ex as [Ex|Ex]; [apply orb_true_iff in Ex; destruct Ex as [Ex|Ex]|].
    + destruct (Hx Ex) as (n & Hn). exists n. apply (occ_slice n x y z x); [cbn; auto|exact Hn].
    + destruct (Hy Ex) as (n & Hn). exists n. apply (occ_slice n x y z y); [cbn; auto|exact Hn].
    + destruct (Hz Ex) as (n & Hn). exists n. apply (occ_slice n x y z z); [cbn; auto|exact Hn].
  - intros l F Ex. destruct (E (map snd l) F) as (x & n & Hx & Ho).
    + cbn in Ex. clear -Ex. induction l as [|[k x] l IH]; [discriminate|]. cbn in *. apply orb_true_iff in Ex. apply orb_true_iff. destruct Ex as [Ex|Ex]; [now left|right; now apply IH].
    + apply in_map_iff in Hx. destruct Hx as ([k w] & <- & Hx). exists n. econstructor; eassumption.
Qed.
(** the value of an argument without nodes does not depend on results *)
Lemma closed_value {X} (h : host X) atom env : forall x, contains_node x = false -> arg_value h atom env x = arg_value h atom [] x.
Proof.
  assert (E : forall (l : list farg), Forall (fun x => contains_node x = false -> arg_value h atom env x = arg_value h atom [] x) l -> existsb contains_node l = false -> each (arg_value h atom env) l = each (arg_value h atom []) l).
  { induction 1 as [|y l Hy F IH]; intros E; [reflexivity|]. cbn in E. apply orb_false_iff in E. destruct E as [E1 E2]. cbn [each]. now rewrite (Hy E1), (IH E2). }
  refine (farg_rec' (fun x => contains_node x = false -> arg_value h atom env x = arg_value h atom [] x) _ _ _ _ _ _).
  - discriminate.
  - reflexivity.
  - intros names l F Ex. cbn [arg_value]. now rewrite (E l F Ex).
  - intros l F Ex. cbn [arg_value]. now rewrite (E l F Ex).
  - intros x y z Hx Hy Hz Ex. cbn in Ex. apply orb_false_iff in Ex. destruct Ex as [Ex E3]. apply orb_false_iff in Ex. destruct Ex as [E1 E2]. cbn [arg_value]. now rewrite (Hx E1), (Hy E2), (Hz E3).
  - intros l F Ex. cbn [arg_value]. f_equal. cbn in Ex. induction l as [|[k x] l IH]; [reflexivity|]. cbn in *. apply orb_false_iff in Ex. destruct Ex as [E1 E2]. rewrite (Forall_inv F E1), (IH (Forall_inv_tail F) E2). reflexivity.
Qed.
Lemma no_named_part x y : part y x -> no_named x -> no_named y.
Proof.
  intros Hp Hn n names l P Ho. apply (Hn n names l); [|exact Ho]. clear -Hp P. induction Hp; [exact P| | | |]; econstructor; eassumption.
Qed.
Definition fine (root : fmod) (x : farg) : Prop := no_named x /\ argument_of root x.
Lemma part_trans x y z : part x y -> part y z -> part x z.
Proof. intros P Q. induction Q; [exact P| | | |]; econstructor; eassumption. Qed.
Lemma fine_part root x y : part y x -> fine root x -> fine root y.
Proof. intros P [N (p & m & n & z & H1 & H2 & H3 & H4)]. split; [now apply (no_named_part x)|]. exists p, m, n, z. repeat split; try assumption. now apply (part_trans y x). Qed.

(** ** Inputs and outputs of the graph under construction *)
Section Ends.
  Variable o : origin.
  Definition input_name (root : option (list string)) (n : fxnode) : string := match root with Some positional => unmangle (x_name n) positional | None => x_name n end.
  Lemma op_node_ends lo b n name t op b' : wf lo (b_graph b) (b_next b) -> env_ok b -> op_node o b n name t op = Ok b' -> g_inputs (b_graph b') = g_inputs (b_graph b) /\ g_outputs (b_graph b') = g_outputs (b_graph b).
  Proof.
    intros W He E. unfold op_node in E. binv E. destruct x as [b1 [args kwargs]]. binv E. destruct x as [b2 r]. injection E as <-.
    destruct (convert_args_wf o lo _ _ _ _ _ W He H) as [S1 Q1]. destruct (new_node_steps o lo _ _ _ _ _ _ _ _ (proj1 S1) Q1 H0) as [S2 Q2]. assert (S := steps_trans lo b b1 b2 S1 S2). cbn. split; apply S.
  Qed.
  Lemma new_node_ends b name t args kwargs op b' r : new_node o b name t args kwargs op = Ok (b', r) -> g_inputs (b_graph b') = g_inputs (b_graph b) /\ g_outputs (b_graph b') = g_outputs (b_graph b) /\ b_env b' = b_env b.
  Proof. intros E. unfold new_node, add_node in E. cbn in E. destruct (has_id _ _); [discriminate|]. injection E as <- _. auto. Qed.
  Lemma build_node_ends lo root prefix self attrs subs b n b' : subs_ok subs -> wf lo (b_graph b) (b_next b) -> env_ok b -> build_node o root prefix self attrs subs b n = Ok b' ->
    map fst (g_inputs (b_graph b')) = map fst (g_inputs (b_graph b)) ++ (if is_placeholder n then [input_name root n] else []) /\
    (x_op n <> FOutput -> g_outputs (b_graph b') = g_outputs (b_graph b)).
  Proof.
    intros Hs W He E. unfold build_node in E. unfold is_placeholder. destruct (x_op n) as [|t|t|fn|m| |]; rewrite ?app_nil_r.
    - binv E. injection E as <-. unfold add_input in H. destruct (existsb _ _); [discriminate|]. injection H as <-. cbn. rewrite map_app. auto.
    - destruct (smem t attrs && _); [injection E as <-; auto|]. binv E. destruct x as [b1 r]. injection E as <-. destruct (new_node_ends _ _ _ _ _ _ _ _ H) as (Q1 & Q2 & _). cbn. rewrite Q1, Q2. auto.
    - unfold handle_call_module in E. destruct (String.eqb_spec t ""); [discriminate|]. destruct (aget String.eqb t subs) as [[m sub]|] eqn:Es; [|discriminate]. destruct (non_leaf m).
      + binv E. destruct x as [g' next]. binv E. destruct x as [b1 [args kwargs]]. destruct (o_submodule o (absolute prefix t)) as [q|]; [|discriminate].
        destruct (add_subgraph _ _ _ _ _ _ _) as [g r] eqn:Ea. binv E. rename x into outs. subst r. assert (Ws := Hs _ _ _ Es _ _ _ _ H). assert (L := wf_le _ _ _ Ws).
        assert (W0 : wf lo (b_graph b) next) by (now apply (wf_raise lo _ (b_next b))).
        destruct (convert_args_wf o lo (mkB (b_graph b) (b_env b) next) n b1 args kwargs W0 He H0) as [(W1 & G1 & Ee & N1 & I1 & O1) Q1]. cbn [b_graph b_env b_next] in *.
        destruct (subgraph_wf lo (b_next b) next (b_next b1) _ _ _ _ _ _ _ _ W1 Ws (wf_le _ _ _ W) N1 n0 Q1 Ea) as (W2 & G2 & I2 & O2 & So).
        assert (Q : g_inputs g = g_inputs (b_graph b) /\ g_outputs g = g_outputs (b_graph b)) by (split; congruence). destruct Q as [Qi Qo].
        destruct outs as [|r [|r2 outs]]; [|injection E as <-; cbn; rewrite Qi; auto|]; binv E; destruct x as [b3 r']; injection E as <-; destruct (new_node_ends _ _ _ _ _ _ _ _ H1) as (Q3 & Q4 & _); cbn in Q3, Q4 |- *; rewrite Q3, Q4, Qi; auto.
      + destruct (o_submodule o (absolute prefix t)); [|discriminate]. destruct (op_node_ends lo _ _ _ _ _ _ W He E) as [-> ->]. auto.
    - destruct (o_skipped o fn); [injection E as <-; auto|]. destruct (op_node_ends lo _ _ _ _ _ _ W He E) as [-> ->]. auto.
    - destruct (op_node_ends lo _ _ _ _ _ _ W He E) as [-> ->]. auto.
    - unfold handle_output in E. binv E. destruct (negb _); [discriminate|]. split; [|intros []; reflexivity]. destruct root.
      + binv E. destruct x0 as [b1 r]. destruct (add_output (b_graph b1) [r]) as [g e] eqn:Ea. binv E. injection E as <-. subst e. destruct x0. apply add_output_inv in Ea. destruct (new_node_ends _ _ _ _ _ _ _ _ H0) as (Ei & _). destruct Ea as (_ & Ea & _). cbn. now rewrite Ea, Ei.
      + destruct (add_output (b_graph b) x) as [g e] eqn:Ea. binv E. injection E as <-. subst e. destruct x0. apply add_output_inv in Ea. destruct Ea as (_ & Ea & _). cbn. now rewrite Ea.
    - discriminate.
  Qed.
  Lemma build_nodes_inputs lo root prefix self attrs subs l : subs_ok subs -> forall b b', wf lo (b_graph b) (b_next b) -> env_ok b -> build_nodes (build_node o root prefix self attrs subs) b l = Ok b' ->
    map fst (g_inputs (b_graph b')) = map fst (g_inputs (b_graph b)) ++ map (input_name root) (filter is_placeholder l).
  Proof.
    intros Hs. induction l as [|n l IH]; intros b b' W He E; cbn in E; [injection E as <-; cbn; now rewrite app_nil_r|]. binv E.
    destruct (build_node_wf o lo _ _ _ _ _ _ _ _ Hs W He H) as (W1 & He1 & _). destruct (build_node_ends lo _ _ _ _ _ _ _ _ Hs W He H) as [E1 _]. rewrite (IH _ _ W1 He1 E), E1, <- app_assoc. f_equal. cbn. destruct (is_placeholder n); reflexivity.
  Qed.
End Ends.
Lemma children_subs o ch t m sub : aget String.eqb t (map (fun e => (fst e, (snd e, build_sub o (snd e)))) ch) = Some (m, sub) -> aget String.eqb t ch = Some m /\ sub = build_sub o m.
Proof. rewrite (aget_map (fun m => (m, build_sub o m)) t ch). destruct (aget String.eqb t ch); [|discriminate]. intros E. injection E as -> <-. auto. Qed.
Lemma children_ok o ch : subs_ok (map (fun e => (fst e, (snd e, build_sub o (snd e)))) ch).
Proof. intros t m sub E. apply children_subs in E. destruct E as [_ ->]. apply build_sub_wf. Qed.
Lemma sub_inputs o m p next g next' : build_sub o m p next = Ok (g, next') -> map fst (g_inputs g) = input_names m.
Proof.
  destruct m as [self attrs gr ch]. intros E. cbn [build_sub] in E. binv E. injection E as <- <-. assert (Q := build_nodes_inputs o next None p self attrs _ match gr with Some l => l | None => [] end (children_ok o ch) (mkB empty_graph [] next) x (empty_wf next) ltac:(intros ? ? Q; discriminate Q) H). cbn in Q. rewrite Q. reflexivity.
Qed.
Lemma root_inputs o m positional next g next' : build_root o m positional next = Ok (g, next') -> map fst (g_inputs g) = map (fun k => unmangle k positional) (input_names m).
Proof.
  destruct m as [self attrs gr ch]. intros E. cbn [build_root] in E. binv E. injection E as <- <-. assert (Q := build_nodes_inputs o next (Some positional) "" self attrs _ match gr with Some l => l | None => [] end (children_ok o ch) (mkB empty_graph [] next) x (empty_wf next) ltac:(intros ? ? Q; discriminate Q) H). cbn in Q. rewrite Q. unfold input_names, m_fx. rewrite map_map. reflexivity.
Qed.

(** ** Values of references *)
Section Main.
  Context {X U : Type} (h : host X) (s : semantics X U) (f : nat -> nat -> list (val X) -> list (string * val X) -> result (val X)).
  Variables (atom : nat -> val X) (attribute : nat -> string -> result (val X)) (o : origin) (root : fmod) (c : nat).
  Hypothesis Ht : targets_called h f o.
  Hypothesis Hc : constants_held h s atom attribute o root.
  Notation V := (val X).
  Notation value g vs := (value s f g (positional g vs) c).

  Definition agrees (b : builder) (env : list (nat * V)) (vs : list V) : Prop :=
    forall n r, aget Nat.eqb n (b_env b) = Some r -> exists v, aget Nat.eqb n env = Some v /\ value (b_graph b) vs r v.
  Lemma agrees_steps lo b b' env vs : steps_to lo b b' -> agrees b env vs -> agrees b' env vs.
  Proof. intros (_ & G & Ee & _) A n r E. rewrite Ee in E. destruct (A n r E) as (v & E1 & E2). exists v. split; [exact E1|]. now apply (value_grows' s f c (b_graph b)). Qed.
  Lemma values_grow g g' vs l xs : grows g g' -> Forall2 (value g vs) l xs -> Forall2 (value g' vs) l xs.
  Proof. intros G F. induction F; constructor; [now apply (value_grows' s f c g)|assumption]. Qed.

  Lemma new_node_value b name t args kwargs op b' r vs xs ys v : Forall2 (value (b_graph b) vs) args xs -> Forall2 (value (b_graph b) vs) (map snd kwargs) ys ->
    call_target h t xs (combine (map fst kwargs) ys) = Ok v -> new_node o b name t args kwargs op = Ok (b', r) -> grows (b_graph b) (b_graph b') -> value (b_graph b') vs r v.
  Proof.
    intros Fa Fk Et E G. unfold new_node, add_node in E. cbn [n_id] in E. destruct (has_id _ _); [discriminate|]. cbn [rbind] in E. injection E as <- <-. cbn [b_graph] in *.
    refine (v_node s f _ _ c (mkNode (b_next b) name (o_target o t) args op kwargs None None) name xs ys v _ _ _ _).
    - cbn. rewrite in_app_iff. right. now left.
    - eapply values_grow; [exact G|exact Fa].
    - eapply values_grow; [exact G|exact Fk].
    - cbn. rewrite Ht. exact Et.
  Qed.

  Definition conv_ok (x : farg) : Prop := fine root x -> forall lo b name b' r env vs v, wf lo (b_graph b) (b_next b) -> env_ok b -> agrees b env vs ->
    convert_arg o b x name = Ok (b', r) -> arg_value h atom env x = Ok v -> value (b_graph b') vs r v.
  Lemma elements_value l : Forall conv_ok l -> (forall x, In x l -> fine root x) -> forall lo b name i b' rs env vs ws, wf lo (b_graph b) (b_next b) -> env_ok b -> agrees b env vs ->
    convert_elements (convert_arg o) b l name i = Ok (b', rs) -> each (arg_value h atom env) l = Ok ws -> Forall2 (value (b_graph b') vs) rs ws.
  Proof.
    induction 1 as [|x l Hx F IH]; intros Hn lo b name i b' rs env vs ws W He A E Ev; cbn [convert_elements each] in E, Ev.
    - injection E as <- <-. injection Ev as <-. constructor.
    - binv E. destruct x0 as [b1 r1]. binv E. destruct x0 as [b2 rs2]. injection E as <- <-. binv Ev. rename x0 into v. binv Ev. rename x0 into ws2. injection Ev as <-.
      destruct (convert_wf o lo x _ _ _ _ W He H) as [S1 Q1]. assert (He1 := steps_env _ _ _ S1 He). assert (A1 := agrees_steps _ _ _ _ _ S1 A).
      assert (F2 : Forall (converts o lo) l) by (apply Forall_forall; intros; apply convert_wf). destruct (elements_wf o lo l F2 _ _ _ _ _ (proj1 S1) He1 H0) as [S2 _].
      constructor; [|exact (IH (fun x K => Hn x (or_intror K)) lo _ _ _ _ _ _ _ _ (proj1 S1) He1 A1 H0 H2)]. apply (value_grows' s f c (b_graph b1)); [apply S2|]. exact (Hx (Hn x (or_introl eq_refl)) lo _ _ _ _ _ _ _ W He A H H1).
  Qed.
  Lemma items_value l : Forall conv_ok (map snd l) -> (forall x, In x (map snd l) -> fine root x) -> forall lo b name b' rs env vs ws, wf lo (b_graph b) (b_next b) -> env_ok b -> agrees b env vs ->
    convert_items (convert_arg o) b l name = Ok (b', rs) -> each_item (arg_value h atom env) l = Ok ws -> Forall2 (value (b_graph b') vs) (map snd rs) (map snd ws) /\ map fst rs = map fst l /\ map fst ws = map fst l.
  Proof.
    induction l as [|[k x] l IH]; intros F Hn lo b name b' rs env vs ws W He A E Ev; cbn [convert_items each_item] in E, Ev.
    - injection E as <- <-. injection Ev as <-. repeat split. constructor.
    - cbn [map snd] in F, Hn. assert (Hx := Forall_inv F). apply Forall_inv_tail in F. binv E. destruct x0 as [b1 r1]. binv E. destruct x0 as [b2 rs2]. injection E as <- <-. binv Ev. rename x0 into v. binv Ev. rename x0 into ws2. injection Ev as <-.
      destruct (convert_wf o lo x _ _ _ _ W He H) as [S1 Q1]. assert (He1 := steps_env _ _ _ S1 He). assert (A1 := agrees_steps _ _ _ _ _ S1 A).
      assert (F2 : Forall (converts o lo) (map snd l)) by (apply Forall_forall; intros; apply convert_wf). destruct (items_wf o lo l F2 _ _ _ _ (proj1 S1) He1 H0) as [S2 _].
      destruct (IH F (fun x K => Hn x (or_intror K)) lo _ _ _ _ _ _ _ (proj1 S1) He1 A1 H0 H2) as (R1 & R2 & R3). cbn. rewrite R2, R3. split; [|auto]. constructor; [|exact R1].
      apply (value_grows' s f c (b_graph b1)); [apply S2|]. exact (Hx (Hn x (or_introl eq_refl)) lo _ _ _ _ _ _ _ W He A H H1).
  Qed.
  Lemma combine_split {A B} (l : list (A * B)) : combine (map fst l) (map snd l) = l.
  Proof. induction l as [|[a b] l IH]; [reflexivity|]. cbn. now rewrite IH. Qed.
  Lemma const_value x env vs g v : fine root x -> contains_node x = false -> arg_value h atom env x = Ok v -> value g vs (RConst (o_const o x)) v.
  Proof. intros [_ Hx] E Ev. rewrite closed_value in Ev by exact E. rewrite <- (proj1 Hc x v Hx (contains_occurs x E) Ev). constructor. Qed.
  Lemma convert_value : forall x, conv_ok x.
  Proof.
    apply farg_rec'; unfold conv_ok.
    - intros n _ lo b name b' r env vs v W He A E Ev. cbn in E, Ev. destruct (aget Nat.eqb n (b_env b)) as [q|] eqn:En; [|discriminate]. injection E as <- <-. destruct (A n q En) as (w & E1 & Vw). rewrite E1 in Ev. injection Ev as <-. exact Vw.
    - intros a Hn lo b name b' r env vs v W He A E Ev. cbn in E. injection E as <- <-. now apply (const_value (AAtom a) env).
    - intros names l F Hn lo b name b' r env vs v W He A E Ev. cbn -[contains_node convert_elements] in E. destruct (contains_node (ATuple names l)) eqn:Ec; cbn [negb] in E; [|injection E as <- <-; now apply (const_value (ATuple names l) env)].
      assert (names = []) as -> by (destruct (occurs_contains _ Ec) as (n & Hn'); exact (proj1 Hn n names l (part_here _) Hn')).
      cbn [arg_value] in Ev. binv Ev. rename x into ws. injection Ev as <-. binv E. destruct x as [b1 rs].
      assert (F2 : Forall (converts o lo) l) by (apply Forall_forall; intros; apply convert_wf). destruct (elements_wf o lo l F2 _ _ _ _ _ W He H0) as [S1 Q1].
      assert (Fv : Forall2 (value (b_graph b1) vs) rs ws). { refine (elements_value l F _ lo _ _ _ _ _ _ _ _ W He A H0 H). intros x K. apply (fine_part root (ATuple [] l)); [|exact Hn]. eapply part_tuple; [exact K|constructor]. }
      edestruct (new_node_steps o lo) as [S2 _]; [exact (proj1 S1)| |exact E|]; [cbn; rewrite app_nil_r; exact Q1|]. refine (new_node_value _ _ _ _ _ _ _ _ _ ws [] _ Fv _ _ E _); [constructor|reflexivity|apply S2].
    - intros l F Hn lo b name b' r env vs v W He A E Ev. cbn -[contains_node convert_elements] in E. destruct (contains_node (AList l)) eqn:Ec; cbn [negb] in E; [|injection E as <- <-; now apply (const_value (AList l) env)].
      cbn [arg_value] in Ev. binv Ev. rename x into ws. injection Ev as <-. binv E. destruct x as [b1 rs].
      assert (F2 : Forall (converts o lo) l) by (apply Forall_forall; intros; apply convert_wf). destruct (elements_wf o lo l F2 _ _ _ _ _ W He H0) as [S1 Q1].
      assert (Fv : Forall2 (value (b_graph b1) vs) rs ws). { refine (elements_value l F _ lo _ _ _ _ _ _ _ _ W He A H0 H). intros x K. apply (fine_part root (AList l)); [|exact Hn]. eapply part_list; [exact K|constructor]. }
      edestruct (new_node_steps o lo) as [S2 _]; [exact (proj1 S1)| |exact E|]; [cbn; rewrite app_nil_r; exact Q1|]. refine (new_node_value _ _ _ _ _ _ _ _ _ ws [] _ Fv _ _ E _); [constructor|reflexivity|apply S2].
    - intros x y z Hx Hy Hz Hn lo b name b' r env vs v W He A E Ev. cbn -[contains_node] in E. destruct (contains_node (ASlice x y z)) eqn:Ec; cbn [negb] in E; [|injection E as <- <-; now apply (const_value (ASlice x y z) env)].
      cbn [arg_value] in Ev. binv Ev. rename x0 into va. binv Ev. rename x0 into vb. binv Ev. rename x0 into vc. injection Ev as <-.
      binv E. destruct x0 as [b1 r1]. binv E. destruct x0 as [b2 r2]. binv E. destruct x0 as [b3 r3].
      destruct (convert_wf o lo x _ _ _ _ W He H2) as [S1 Q1]. assert (He1 := steps_env _ _ _ S1 He). assert (A1 := agrees_steps _ _ _ _ _ S1 A).
      destruct (convert_wf o lo y _ _ _ _ (proj1 S1) He1 H3) as [S2 Q2]. assert (He2 := steps_env _ _ _ S2 He1). assert (A2 := agrees_steps _ _ _ _ _ S2 A1).
      destruct (convert_wf o lo z _ _ _ _ (proj1 S2) He2 H4) as [S3 Q3].
      assert (G2 : grows (b_graph b2) (b_graph b3)) by apply S3. assert (G1 : grows (b_graph b1) (b_graph b3)) by (eapply grows_trans; [apply S2|exact G2]).
      assert (Nx : forall w, In w [x; y; z] -> fine root w) by (intros w K; apply (fine_part root (ASlice x y z)); [eapply part_slice; [exact K|constructor]|exact Hn]).
      assert (V1 : value (b_graph b3) vs r1 va) by (apply (value_grows' s f c (b_graph b1)); [exact G1|exact (Hx (Nx x ltac:(cbn; auto)) lo _ _ _ _ _ _ _ W He A H2 H)]).
      assert (V2 : value (b_graph b3) vs r2 vb) by (apply (value_grows' s f c (b_graph b2)); [exact G2|exact (Hy (Nx y ltac:(cbn; auto)) lo _ _ _ _ _ _ _ (proj1 S1) He1 A1 H3 H0)]).
      assert (V3 : value (b_graph b3) vs r3 vc) by exact (Hz (Nx z ltac:(cbn; auto)) lo _ _ _ _ _ _ _ (proj1 S2) He2 A2 H4 H1).
      edestruct (new_node_steps o lo) as [S4 _]; [exact (proj1 S3)| |exact E|]; [cbn; intros x0 [<-|[<-|[<-|[]]]]; [apply (simple_grows (b_graph b1))|apply (simple_grows (b_graph b2))|]; assumption|].
      refine (new_node_value _ _ _ _ _ _ _ _ _ [] [va; vb; vc] _ (Forall2_nil _) _ _ E _); [repeat constructor; assumption|reflexivity|apply S4].
    - intros l F Hn lo b name b' r env vs v W He A E Ev. cbn -[contains_node convert_items] in E. destruct (contains_node (ADict l)) eqn:Ec; cbn [negb] in E; [|injection E as <- <-; now apply (const_value (ADict l) env)].
      cbn [arg_value] in Ev. binv Ev. rename x into ws. injection Ev as <-. binv E. destruct x as [b1 rs].
      assert (F2 : Forall (converts o lo) (map snd l)) by (apply Forall_forall; intros; apply convert_wf). destruct (items_wf o lo l F2 _ _ _ _ W He H0) as [S1 Q1].
      destruct (items_value l F) with (lo := lo) (b := b) (name := name) (b' := b1) (rs := rs) (env := env) (vs := vs) (ws := ws) as (R1 & R2 & R3); try assumption.
      { intros x K. apply (fine_part root (ADict l)); [|exact Hn]. apply in_map_iff in K. destruct K as ([k w] & <- & K). eapply part_dict; [exact K|constructor]. }
      edestruct (new_node_steps o lo) as [S2 _]; [exact (proj1 S1)| |exact E|]; [cbn; exact Q1|]. refine (new_node_value _ _ _ _ _ _ _ _ _ [] (map snd ws) _ (Forall2_nil _) R1 _ E _); [|apply S2]. cbn. rewrite R2, <- R3, combine_split. reflexivity.
  Qed.
  Lemma join_absolute p t : absolute p t = join p t.
  Proof. unfold absolute. destruct p; reflexivity. Qed.
  Lemma each_length {A B} (ev : A -> result B) l ws : each ev l = Ok ws -> length ws = length l.
  Proof. revert ws. induction l as [|x l IH]; intros ws E; cbn in E; [now injection E as <-|]. binv E. binv E. injection E as <-. cbn. now rewrite (IH _ H0). Qed.
  Lemma each_item_length {A B} (ev : A -> result B) l ws : each_item ev l = Ok ws -> length ws = length l.
  Proof. revert ws. induction l as [|[k x] l IH]; intros ws E; cbn in E; [now injection E as <-|]. binv E. binv E. injection E as <-. cbn. now rewrite (IH _ H0). Qed.

  Definition plain_args (n : fxnode) : Prop := forall x, In x (x_args n ++ map snd (x_kwargs n)) -> fine root x.
  Lemma convert_args_value lo b n b' args kwargs env vs xs kvs : plain_args n -> wf lo (b_graph b) (b_next b) -> env_ok b -> agrees b env vs -> convert_args o b n = Ok (b', (args, kwargs)) ->
    each (arg_value h atom env) (x_args n) = Ok xs -> each_item (arg_value h atom env) (x_kwargs n) = Ok kvs ->
    Forall2 (value (b_graph b') vs) args xs /\ Forall2 (value (b_graph b') vs) (map snd kwargs) (map snd kvs) /\ map fst kwargs = map fst kvs.
  Proof.
    intros Hp W He A E E1 E2. unfold convert_args in E. binv E. destruct x as [b1 rs]. binv E. destruct x as [b2 ks]. injection E as <- <- <-.
    assert (Fa : Forall (converts o lo) (x_args n)) by (apply Forall_forall; intros; apply convert_wf). assert (Fk : Forall (converts o lo) (map snd (x_kwargs n))) by (apply Forall_forall; intros; apply convert_wf).
    destruct (elements_wf o lo _ Fa _ _ _ _ _ W He H) as [S1 _]. assert (He1 := steps_env _ _ _ S1 He). assert (A1 := agrees_steps _ _ _ _ _ S1 A). destruct (items_wf o lo _ Fk _ _ _ _ (proj1 S1) He1 H0) as [S2 _].
    assert (Q : Forall2 (value (b_graph b1) vs) rs xs) by (refine (elements_value _ _ _ lo _ _ _ _ _ _ _ _ W He A H E1); [apply Forall_forall; intros; apply convert_value|intros x K; apply Hp; apply in_app_iff; now left]).
    destruct (items_value (x_kwargs n)) with (lo := lo) (b := b1) (name := x_name n) (b' := b2) (rs := ks) (env := env) (vs := vs) (ws := kvs) as (R1 & R2 & R3); try assumption; [apply Forall_forall; intros; apply convert_value|intros x K; apply Hp; apply in_app_iff; now right|apply S1|].
    split; [eapply values_grow; [apply S2|exact Q]|]. split; [exact R1|congruence].
  Qed.
  Lemma op_node_value lo b n name t op b' env vs xs kvs v : plain_args n -> wf lo (b_graph b) (b_next b) -> env_ok b -> agrees b env vs -> op_node o b n name t op = Ok b' ->
    each (arg_value h atom env) (x_args n) = Ok xs -> each_item (arg_value h atom env) (x_kwargs n) = Ok kvs -> call_target h t xs kvs = Ok v ->
    exists r, b_env b' = (x_id n, r) :: b_env b /\ value (b_graph b') vs r v.
  Proof.
    intros Hp W He A E E1 E2 Et. unfold op_node in E. binv E. destruct x as [b1 [args kwargs]]. binv E. destruct x as [b2 r]. injection E as <-.
    destruct (convert_args_value lo _ _ _ _ _ _ _ _ _ Hp W He A H E1 E2) as (R1 & R2 & R3). destruct (convert_args_wf o lo _ _ _ _ _ W He H) as [S1 Q1]. destruct (new_node_steps o lo _ _ _ _ _ _ _ _ (proj1 S1) Q1 H0) as [S2 Q2].
    exists r. split; [cbn; f_equal; transitivity (b_env b1); [apply S2|apply S1]|]. cbn. refine (new_node_value _ _ _ _ _ _ _ _ _ _ _ _ R1 R2 _ H0 _); [|apply S2]. now rewrite R3, combine_split.
  Qed.

  Lemma index_of_key (k : string) (kwargs : list (string * ref)) (kvs : list (string * V)) g inp w : Forall2 (CoarseSpec.value s f g inp c) (map snd kwargs) (map snd kvs) -> map fst kwargs = map fst kvs -> aget String.eqb k kvs = Some w ->
    exists r, In (k, r) kwargs /\ CoarseSpec.value s f g inp c r w.
  Proof.
    revert kvs. induction kwargs as [|[a r] kwargs IH]; intros [|[a' w'] kvs] F E Ek; cbn in *; try discriminate. injection E as -> E. inversion F; subst. destruct (String.eqb_spec a' k) as [->|N].
    - injection Ek as <-. exists r. auto.
    - destruct (IH kvs H4 E Ek) as (q & Q1 & Q2). exists q. auto.
  Qed.
  Lemma call_values g inp names args kwargs xs kvs rest : Forall2 (CoarseSpec.value s f g inp c) args xs -> Forall2 (CoarseSpec.value s f g inp c) (map snd kwargs) (map snd kvs) -> map fst kwargs = map fst kvs ->
    length xs <= length names -> each (fun n => known (aget String.eqb n kvs)) (skipn (length xs) names) = Ok rest -> argument_values s f g inp c names args kwargs (xs ++ rest).
  Proof.
    intros Fa Fk Ek L Er. unfold argument_values.
    enough (Gen : forall l, l = firstn (length xs) names ++ skipn (length xs) names -> Forall2 (fun n v => exists r, bound names args kwargs n r /\ CoarseSpec.value s f g inp c r v) l (xs ++ rest)) by (apply Gen; symmetry; apply firstn_skipn).
    intros l0 ->. apply Forall2_app.
    - assert (G : forall pre names args xs, Forall2 (CoarseSpec.value s f g inp c) args xs -> length xs <= length names -> forall all, (forall i a, nth_error args i = Some a -> nth_error all (pre + i) = Some a) -> forall ns, (forall i a, nth_error names i = Some a -> nth_error ns (pre + i) = Some a) ->
        Forall2 (fun n v => exists r, bound ns all kwargs n r /\ CoarseSpec.value s f g inp c r v) (firstn (length xs) names) xs).
      { clear. intros pre names args xs F. revert pre names. induction F as [|a x args xs Ha F IH]; intros pre names L all Hall ns Hns; [constructor|]. destruct names as [|k names]; [cbn in L; lia|]. cbn. constructor.
        - exists a. split; [|exact Ha]. left. exists (pre + 0). split; [now apply Hns|now apply Hall].
        - apply (IH (S pre)); [cbn in L; lia| |]; intros i w K; replace (S pre + i) with (pre + S i) by lia; [apply Hall|apply Hns]; exact K. }
      apply (G 0 names args xs Fa L); auto.
    - revert Er. generalize (skipn (length xs) names). intros l Er. revert rest Er. induction l as [|k l IH]; intros rest Er; cbn in Er; [injection Er as <-; constructor|]. binv Er. binv Er. injection Er as <-. constructor; [|now apply IH].
      unfold known in H. destruct (aget String.eqb k kvs) as [w|] eqn:E; [|discriminate]. injection H as <-. destruct (index_of_key _ _ _ _ _ _ Fk Ek E) as (r & Q1 & Q2). exists r. split; [now right|exact Q2].
  Qed.

  (** ** Modules *)
  Hypothesis Ha : attributes_shared h attribute o root.
  Hypothesis Hcap : captured_run h atom attribute root.
  Hypothesis Horig : originals_run h atom attribute o root.
  Hypothesis Hreg : forall p m t c, at_path root p m -> t <> ""%string -> In (t, c) (m_children m) -> regular o false (join p t) c.

  Definition returns (g : graph) (vs : list V) (v : V) : Prop :=
    (exists r, g_outputs g = [r] /\ value g vs r v) \/ exists ws, v = Tup [] ws /\ length ws <> 1 /\ Forall2 (value g vs) (g_outputs g) ws.
  Definition sub_value (p : string) (m : fmod) : Prop := forall next g next' vs v, build_sub o m p next = Ok (g, next') -> run h atom attribute m vs = Ok v -> returns g vs v.

  Lemma one_result_of p m n : regular o false p m -> match find is_output (m_fx m) with Some q => match x_args q with ATuple _ l :: _ | AList l :: _ => negb (1 <? length l) | _ => true end | None => n end = true -> one_result m.
  Proof.
    intros [_ (body & out & Eb & Ho & Hb & Hs) _ _ _] E q Hq Hqo x l Hx Hl.
    assert (q = out) as ->. { rewrite Eb, in_app_iff in Hq. destruct Hq as [Hq|[<-|[]]]; [now destruct (Hb q Hq)|reflexivity]. }
    assert (Ef : find is_output (m_fx m) = Some out).
    { rewrite Eb. clear - Ho Hb. induction body as [|y body IH]; cbn; [unfold is_output; now rewrite Ho|]. assert (is_output y = false) as ->; [|apply IH; intros; apply Hb; now right]. specialize (Hb y (or_introl eq_refl)). unfold is_output. destruct (x_op y); try reflexivity. now destruct Hb. }
    rewrite Ef in E. assert (L : forall l, negb (1 <? length l) = true -> @length farg l <= 1) by (intros l0 K; destruct (Nat.ltb_spec 1 (length l0)); [discriminate|lia]).
    destruct Hs as [(k & Es)|(l' & _ & _ & Es)]; rewrite Es in *; destruct Hx as [<-|[]]; destruct Hl as [(names & El)|El]; try discriminate. injection El as <- <-. now apply L.
  Qed.

  Definition children_values (p : string) (ch : list (string * fmod)) : Prop := forall t m, t <> ""%string -> In (t, m) ch -> sub_value (join p t) m.
  Lemma node_value lo rt p self attrs gr ch b n b' env vs v :
    at_path root p (FMod self attrs gr ch) -> children_values p ch -> plain_args n -> (forall t, x_op n = FGetAttr t -> In t attrs \/ o_has o (join p t) = true) -> (forall t k x, x_op n = FCallMethod t -> In (k, x) (x_kwargs n) -> k <> "self"%string) ->
    x_op n <> FOutput -> x_op n <> Placeholder -> wf lo (b_graph b) (b_next b) -> env_ok b -> agrees b env vs ->
    build_node o rt p self attrs (map (fun e => (fst e, (snd e, build_sub o (snd e)))) ch) b n = Ok b' ->
    run_node h atom attribute self (map (fun e => (fst e, (snd e, run h atom attribute (snd e)))) ch) env n = Ok v ->
    b_env b' = b_env b \/ exists r, b_env b' = (x_id n, r) :: b_env b /\ value (b_graph b') vs r v.
  Proof.
    intros Hat Hch Hp Hattr Hself No Np W He A E Er. unfold run_node in Er. binv Er. rename x into xs. binv Er. rename x into kvs. unfold build_node in E. destruct (x_op n) as [|t|t|fn|m| |] eqn:Eo; try congruence.
    - rewrite join_absolute in E. destruct (smem t attrs && negb (o_has o (join p t))) eqn:Ec.
      + injection E as <-. right. eexists. split; [reflexivity|]. rewrite <- (proj2 Hc self t v Er). constructor.
      + binv E. destruct x as [b1 r]. injection E as <-. edestruct (new_node_steps o lo) as [S1 _]; [exact W| |exact H1|]; [cbn; contradiction|]. right. exists r. split; [cbn; f_equal; apply S1|]. cbn.
        refine (new_node_value _ _ _ _ _ _ _ _ _ [] [] v (Forall2_nil _) _ _ H1 _); [constructor| |apply S1]. cbn. refine (Ha p (FMod self attrs gr ch) t v Hat _ Er).
        destruct (Hattr t eq_refl) as [K|K]; [|exact K]. assert (smem t attrs = true) as Q by now apply smem_in. rewrite Q in Ec. cbn in Ec. now destruct (o_has o (join p t)).
    - unfold handle_call_module in E. destruct (String.eqb_spec t ""); [discriminate|]. destruct (aget String.eqb t (map _ ch)) as [[m sub]|] eqn:Es in E; [|discriminate]. apply children_subs in Es. destruct Es as [Em ->].
      rewrite (aget_map (fun m => (m, run h atom attribute m)) t ch), Em in Er. cbn [option_map] in Er. rewrite join_absolute in E.
      assert (Hin : In (t, m) ch) by (now apply aget_in). assert (Hatm : at_path root (join p t) m) by (exact (at_child root p _ t m Hat n0 Hin)). assert (Hregm := Hreg p _ t m Hat n0 Hin).
      destruct (non_leaf m).
      + binv E. destruct x as [g' next]. binv E. destruct x as [b1 [args kwargs]]. destruct (o_submodule o (join p t)) as [q|]; [|discriminate].
        destruct (add_subgraph _ _ _ _ _ _ _) as [g r] eqn:Ea. binv E. rename x into outs. subst r. assert (Ws := build_sub_wf o m _ _ _ _ H1). assert (L := wf_le _ _ _ Ws).
        assert (W0 : wf lo (b_graph b) next) by (now apply (wf_raise lo _ (b_next b))).
        assert (A0 : agrees (mkB (b_graph b) (b_env b) next) env vs) by exact A.
        destruct (convert_args_wf o lo (mkB (b_graph b) (b_env b) next) n b1 args kwargs W0 He H2) as [(W1 & G1 & Ee & N1 & I1 & O1) Q1]. 
        destruct (convert_args_value lo (mkB (b_graph b) (b_env b) next) n b1 args kwargs env vs xs kvs Hp W0 He A0 H2 H H0) as (R1 & R2 & R3). cbn [b_graph b_env b_next] in *.
        destruct (subgraph_wf lo (b_next b) next (b_next b1) _ _ _ _ _ _ _ _ W1 Ws (wf_le _ _ _ W) N1 n0 Q1 Ea) as (W2 & G2 & I2 & O2 & So).
        unfold call_named in Er. destruct (Nat.eqb_spec (length xs + length kvs) (length (input_names m))) as [Lc|]; [|discriminate]. binv Er. rename x into rest.
        assert (Av : argument_values s f (b_graph b1) (positional (b_graph b1) vs) c (map fst (g_inputs g')) args kwargs (xs ++ rest)) by (rewrite (sub_inputs o m _ _ _ _ H1); refine (call_values _ _ _ _ _ _ _ _ R1 R2 R3 _ H3); lia).
        assert (Iv := inlined_value' s f c _ _ _ _ _ _ _ _ _ _ _ _ _ Ws n0 Ea Av).
        assert (Lift : forall r w, CoarseSpec.value s f g (positional (b_graph b1) vs) c r w -> value g vs r w) by (apply value_grows; [apply grows_refl|now apply positional_grows]).
        right. destruct (Hch t m n0 Hin _ _ _ _ _ H1 Er) as [(r & Eo1 & Vr)|(ws & -> & Lw & Fw)].
        * rewrite Eo1 in Iv. inversion Iv as [|? r' ? ? Hr Hn]; subst. inversion Hn; subst. injection E as <-. exists r'. cbn. split; [now rewrite Ee|]. apply Lift. now apply Hr.
        * assert (Fo : Forall2 (value g vs) outs ws). { clear - Iv Fw Lift. revert ws Fw. induction Iv as [|a a' la la' Hx F IH]; intros ws Fw; inversion Fw; subst; constructor; [apply Lift; now apply Hx|now apply IH]. }
          assert (Lo : length outs <> 1) by (rewrite (Forall2_length _ _ _ Fo); exact Lw).
          assert (Fin : forall b3 r, new_node o {| b_graph := g; b_env := b_env b1; b_next := S (b_next b1) |} (t ++ "_pack_outputs") TTuple outs [] CallFunction = Ok (b3, r) -> exists r0, b_env (record_ref b3 (x_id n) r) = (x_id n, r0) :: b_env b /\ value (b_graph (record_ref b3 (x_id n) r)) vs r0 (Tup [] ws)).
          { intros b3 r En. edestruct (new_node_steps o lo) as [S3 _]; [| |exact En|]; [exact W2|cbn; rewrite app_nil_r; intros y K; now apply So|]. exists r. split; [cbn; f_equal; transitivity (b_env b1); [apply S3|exact Ee]|]. cbn.
            refine (new_node_value (mkB g (b_env b1) (S (b_next b1))) _ _ _ _ _ _ _ _ ws [] _ Fo _ _ En _); [constructor|reflexivity|apply S3]. }
          destruct outs as [|r1 [|r2 outs]]; [|now destruct Lo|]; binv E; destruct x as [b3 r]; injection E as <-; now apply Fin.
      + destruct (o_submodule o (join p t)) as [q|] eqn:Eq; [|discriminate]. right. refine (op_node_value lo _ _ _ _ _ _ _ _ _ _ _ Hp W He A E H H0 _).
        destruct (can_call_original (o_signature o q) m n) eqn:Ec; cbn [call_target]; [|exact (Hcap _ _ _ _ _ Hatm Er)].
        unfold can_call_original in Ec. destruct (o_signature o q) as [ps|] eqn:Esig; [|discriminate]. destruct (Nat.ltb_spec (length (x_args n) + length (x_kwargs n)) (length (filter (fun p => p_positional p && negb (p_default p)) ps))) as [|Lr]; [discriminate|].
        refine (Horig _ _ _ _ _ _ ps Hatm Eq Esig _ (one_result_of _ _ _ Hregm Ec) Er). unfold required. rewrite (each_length _ _ _ H), (each_item_length _ _ _ H0). exact Lr.
    - destruct (o_skipped o fn); [injection E as <-; now left|]. right. exact (op_node_value lo _ _ _ _ _ _ _ _ _ _ _ Hp W He A E H H0 Er).
    - right. refine (op_node_value lo _ _ _ _ _ _ _ _ _ _ _ Hp W He A E H H0 _). cbn. destruct xs; [discriminate|]. assert (has_key "self" kvs = false) as ->; [|exact Er].
      unfold has_key. apply not_true_is_false. intros K. apply existsb_exists in K. destruct K as ([k w] & K & Ek). cbn in Ek. apply String.eqb_eq in Ek. subst k.
      assert (Q : forall l ws, each_item (arg_value h atom env) l = Ok ws -> In ("self"%string, w) ws -> exists x, In ("self"%string, x) l). { clear. induction l as [|[k x] l IH]; intros ws E K; cbn in E; [injection E as <-; destruct K|]. binv E. binv E. injection E as <-. destruct K as [K|K]; [injection K as -> _; exists x; now left|]. destruct (IH _ H0 K) as (y & Y). exists y. now right. }
      destruct (Q _ _ H0 K) as (x & Hx). now apply (Hself m "self"%string x eq_refl Hx).
  Qed.

  (** ** Outputs and sequences of nodes *)
  Lemma output_values b env vs l rs ws : agrees b env vs -> all_nodes l -> output_refs (b_env b) l = Ok rs -> each (arg_value h atom env) l = Ok ws -> Forall2 (value (b_graph b) vs) rs ws.
  Proof.
    intros A. revert rs ws. induction l as [|x l IH]; intros rs ws Hl E Ev; cbn in E, Ev; [injection E as <-; injection Ev as <-; constructor|]. destruct (Hl x (or_introl eq_refl)) as (n & ->).
    destruct (aget Nat.eqb n (b_env b)) as [r|] eqn:En; [|discriminate]. binv E. injection E as <-. binv Ev. binv Ev. injection Ev as <-. destruct (A n r En) as (v & E1 & Vv). cbn in H0. rewrite E1 in H0. injection H0 as <-.
    constructor; [exact Vv|]. apply IH; [intros y K; apply Hl; now right|exact H|exact H1].
  Qed.
  Definition leaves (v : V) : list V := match v with Tup _ l | Lst l => l | _ => [v] end.
  Definition returned (rt : option (list string)) (g : graph) (vs : list V) (v : V) : Prop :=
    match rt with
    | None => returns g vs v
    | Some _ => forall w, h_unflatten h (leaves v) = Ok w -> exists r, g_outputs g = [r] /\ value g vs r w
    end.
  Lemma handle_output_value lo rt b n b' env vs v : wf lo (b_graph b) (b_next b) -> env_ok b -> agrees b env vs -> g_outputs (b_graph b) = [] ->
    (if match rt with Some _ => true | None => false end then exists l, all_nodes l /\ ((exists names, x_args n = [ATuple names l]) \/ x_args n = [AList l]) else (exists k, x_args n = [ANode k]) \/ exists l, all_nodes l /\ length l <> 1 /\ x_args n = [ATuple [] l]) ->
    handle_output o match rt with Some _ => true | None => false end b n = Ok b' -> match x_args n with x :: _ => arg_value h atom env x | [] => Err IndexError end = Ok v ->
    returned rt (b_graph b') vs v.
  Proof.
    intros W He A Eo Hs E Ev. unfold handle_output in E. binv E. rename x into refs. assert (Hr := refs_ok _ _ _ He H). destruct (forallb is_node_ref refs) eqn:Ef; [|discriminate]. cbn [negb] in E. destruct rt as [positional|].
    - destruct Hs as (l & Hl & Hs). assert (Q : raw_outputs (x_args n) = l /\ exists ws, each (arg_value h atom env) l = Ok ws /\ leaves v = ws).
      { destruct Hs as [(names & Es)|Es]; rewrite Es in Ev |- *; cbn in Ev; binv Ev; injection Ev as <-; (split; [reflexivity|]); exists x; auto. }
      destruct Q as (Q1 & ws & Q2 & Q3). rewrite Q1 in H. assert (Fv := output_values _ _ _ _ _ _ A Hl H Q2).
      binv E. destruct x as [b1 r]. destruct (add_output (b_graph b1) [r]) as [g e] eqn:Ea. binv E. injection E as <-. subst e. destruct x.
      edestruct (new_node_steps o lo) as [S1 Q]; [exact W| |exact H0|]; [cbn; rewrite app_nil_r; exact Hr|]. apply add_output_inv in Ea. destruct Ea as (E1 & E2 & E3 & E4). cbn [returned b_graph]. rewrite Q3. intros w Ew. exists r. split.
      + rewrite E4. replace (g_outputs (b_graph b1)) with (@nil ref); [reflexivity|]. symmetry. transitivity (g_outputs (b_graph b)); [apply S1|exact Eo].
      + assert (G : grows (b_graph b1) g) by (exists [], [], []; unfold leaf_list; rewrite !app_nil_r, E1, E3; auto). apply (value_grows' s f c (b_graph b1)); [exact G|].
        refine (new_node_value _ _ _ _ _ _ _ _ _ ws [] w Fv _ _ H0 _); [constructor|exact Ew|apply S1].
    - destruct (add_output (b_graph b) refs) as [g e] eqn:Ea. binv E. injection E as <-. subst e. destruct x. apply add_output_inv in Ea. destruct Ea as (E1 & E2 & E3 & E4). cbn [returned b_graph]. rewrite Eo in E4. cbn in E4.
      assert (G : grows (b_graph b) g) by (exists [], [], []; unfold leaf_list; rewrite !app_nil_r, E1, E3; auto). destruct Hs as [(k & Es)|(l & Hl & Ll & Es)]; rewrite Es in *; cbn [raw_outputs] in H.
      + left. assert (Fv : Forall2 (value (b_graph b) vs) refs [v]). { refine (output_values _ _ _ [ANode k] _ _ A _ H _); [intros x [<-|[]]; now exists k|]. cbn in Ev |- *. now rewrite Ev. }
        destruct refs as [|r [|r2 refs]]; [inversion Fv| |inversion Fv as [|? ? ? ? ? Vn]; inversion Vn]. exists r. split; [exact E4|]. apply (value_grows' s f c (b_graph b)); [exact G|]. now inversion Fv.
      + right. cbn [arg_value] in Ev. binv Ev. injection Ev as <-. exists x. split; [reflexivity|]. split; [rewrite (each_length _ _ _ H0); exact Ll|]. rewrite E4. apply (values_grow (b_graph b)); [exact G|]. exact (output_values _ _ _ _ _ _ A Hl H H0).
  Qed.

  Lemma placeholder_value b n r g next env vs w k : g_inputs (b_graph b) = g_inputs (b_graph b) -> agrees b env vs -> g_inputs g = g_inputs (b_graph b) ++ [(k, r)] -> grows (b_graph b) g -> nth_error vs (length (g_inputs (b_graph b))) = Some w ->
    agrees (mkB g ((n, RInput r k) :: b_env b) next) ((n, w) :: env) vs.
  Proof.
    intros _ A Ei G Ew m q E. cbn [b_env aget] in E |- *. destruct (Nat.eqb n m); [injection E as <-|destruct (A m q E) as (v & E1 & Vv); exists v; split; [exact E1|now apply (value_grows' s f c (b_graph b))]].
    exists w. split; [reflexivity|]. constructor. exists (length (g_inputs (b_graph b))), k. cbn. rewrite Ei, nth_error_app2, Nat.sub_diag by lia. auto.
  Qed.

  Lemma nodes_value rt p self attrs gr ch lo body : at_path root p (FMod self attrs gr ch) -> children_values p ch ->
    forall out b b' env used inputs v, 
    (forall n, In n body -> plain_args n /\ (forall t, x_op n = FGetAttr t -> In t attrs \/ o_has o (join p t) = true) /\ (forall t k x, x_op n = FCallMethod t -> In (k, x) (x_kwargs n) -> k <> "self"%string) /\ x_op n <> FOutput) ->
    x_op out = FOutput -> (if match rt with Some _ => true | None => false end then exists l, all_nodes l /\ ((exists names, x_args out = [ATuple names l]) \/ x_args out = [AList l]) else (exists k, x_args out = [ANode k]) \/ exists l, all_nodes l /\ length l <> 1 /\ x_args out = [ATuple [] l]) ->
    NoDup (map x_id body) -> (forall n r, aget Nat.eqb n (b_env b) = Some r -> ~ In n (map x_id body)) ->
    wf lo (b_graph b) (b_next b) -> env_ok b -> agrees b env (used ++ inputs) -> g_outputs (b_graph b) = [] -> length (g_inputs (b_graph b)) = length used ->
    build_nodes (build_node o rt p self attrs (map (fun e => (fst e, (snd e, build_sub o (snd e)))) ch)) b (body ++ [out]) = Ok b' ->
    run_nodes h atom attribute self (map (fun e => (fst e, (snd e, run h atom attribute (snd e)))) ch) env inputs (body ++ [out]) = Ok v ->
    returned rt (b_graph b') (used ++ inputs) v.
  Proof.
    intros Hat Hch out. induction body as [|n body IH]; intros b b' env used inputs v Hb Ho Hs ND Hd W He A Eo Ei E Er; cbn [app build_nodes run_nodes] in E, Er.
    - rewrite Ho in Er. binv E. injection E as <-. unfold build_node in H. rewrite Ho in H. exact (handle_output_value lo rt _ _ _ _ _ _ W He A Eo Hs H Er).
    - binv E. rename x into b1. destruct (build_node_wf o lo _ _ _ _ _ _ _ _ (children_ok o ch) W He H) as (W1 & He1 & G1 & _). destruct (build_node_ends o lo _ _ _ _ _ _ _ _ (children_ok o ch) W He H) as (In1 & Ou1).
      destruct (Hb n (or_introl eq_refl)) as (Hp & Hattr & Hself & No). specialize (Ou1 No). apply NoDup_cons_iff in ND. destruct ND as [Nn ND].
      assert (Hb' : forall n0, In n0 body -> plain_args n0 /\ (forall t, x_op n0 = FGetAttr t -> In t attrs \/ o_has o (join p t) = true) /\ (forall t k x, x_op n0 = FCallMethod t -> In (k, x) (x_kwargs n0) -> k <> "self"%string) /\ x_op n0 <> FOutput) by (intros; apply Hb; now right).
      destruct (is_placeholder n) eqn:Pn.
      + unfold is_placeholder in Pn. destruct (x_op n) eqn:Eop; try discriminate. destruct inputs as [|w inputs]; [discriminate|]. unfold build_node in H. rewrite Eop in H. binv H. injection H as <-. cbn [b_graph b_env b_next] in *.
        assert (Ein : g_inputs x = g_inputs (b_graph b) ++ [(match rt with Some positional => unmangle (x_name n) positional | None => x_name n end, b_next b)]). { unfold add_input in H0. destruct (existsb _ _); [discriminate|]. injection H0 as <-. reflexivity. }
        replace (used ++ w :: inputs) with ((used ++ [w]) ++ inputs) by (now rewrite <- app_assoc).
        refine (IH _ b' _ (used ++ [w]) inputs v Hb' Ho Hs ND _ W1 He1 _ _ _ E Er); cbn [b_graph b_env b_next record_ref].
        * intros m r Em. cbn in Em. destruct (Nat.eqb_spec (x_id n) m) as [<-|Nm]; [exact Nn|]. intros K. apply (Hd m r Em). now right.
        * rewrite <- app_assoc. cbn [app]. refine (placeholder_value b _ _ _ _ _ _ _ _ eq_refl A Ein G1 _). now rewrite Ei, nth_error_app2, Nat.sub_diag by lia.
        * cbn in Ou1. now rewrite Ou1.
        * rewrite Ein, !app_length, Ei. reflexivity.
      + assert (Np : x_op n <> Placeholder) by (intros K; unfold is_placeholder in Pn; rewrite K in Pn; discriminate).
        assert (Er' : exists w, run_node h atom attribute self (map (fun e => (fst e, (snd e, run h atom attribute (snd e)))) ch) env n = Ok w /\ run_nodes h atom attribute self (map (fun e => (fst e, (snd e, run h atom attribute (snd e)))) ch) ((x_id n, w) :: env) inputs (body ++ [out]) = Ok v).
        { destruct (x_op n); try congruence; binv Er; exists x; auto. }
        clear Er. destruct Er' as (w & Ew & Er). rewrite app_nil_r in In1.
        assert (Nv := node_value lo rt p self attrs gr ch b n b1 env (used ++ inputs) w Hat Hch Hp Hattr Hself No Np W He A H Ew).
        assert (Ee : forall m r, aget Nat.eqb m (b_env b1) = Some r -> (m = x_id n /\ value (b_graph b1) (used ++ inputs) r w) \/ m <> x_id n /\ aget Nat.eqb m (b_env b) = Some r).
        { intros m r Em. destruct Nv as [Nv|(q & Nv & Vq)]; rewrite Nv in Em; [right; split; [|exact Em]; intros ->; apply (Hd _ _ Em); now left|]. cbn in Em. destruct (Nat.eqb_spec (x_id n) m) as [<-|Nm]; [injection Em as <-; now left|]. right. split; [congruence|exact Em]. }
        refine (IH _ b' _ used inputs v Hb' Ho Hs ND _ W1 He1 _ _ _ E Er).
        * intros m r Em. destruct (Ee m r Em) as [[-> _]|[_ K]]; [exact Nn|]. intros Q. apply (Hd m r K). now right.
        * intros m r Em. cbn [aget]. destruct (Ee m r Em) as [[-> K]|[Nm K]]; [rewrite Nat.eqb_refl; eauto|]. destruct (Nat.eqb_spec (x_id n) m); [congruence|]. destruct (A m r K) as (u & U1 & U2). exists u. split; [exact U1|]. now apply (value_grows' s f c (b_graph b)).
        * now rewrite Ou1.
        * rewrite <- Ei. rewrite <- (map_length fst (g_inputs (b_graph b1))), In1, map_length. reflexivity.
  Qed.

  Lemma module_value rt p self attrs gr ch next b' vs v : at_path root p (FMod self attrs gr ch) -> regular o match rt with Some _ => true | None => false end p (FMod self attrs gr ch) -> children_values p ch ->
    build_nodes (build_node o rt p self attrs (map (fun e => (fst e, (snd e, build_sub o (snd e)))) ch)) (mkB empty_graph [] next) (m_fx (FMod self attrs gr ch)) = Ok b' ->
    run h atom attribute (FMod self attrs gr ch) vs = Ok v -> returned rt (b_graph b') vs v.
  Proof.
    intros Hat [R1 (body & out & Eb & Ho & Hb & Hs) R3 R4 R5] Hch E Er. cbn [run] in Er. change (match gr with Some l => l | None => [] end) with (m_fx (FMod self attrs gr ch)) in Er. rewrite Eb in *.
    refine (nodes_value rt p self attrs gr ch next body Hat Hch out (mkB empty_graph [] next) b' [] [] vs v _ Ho Hs _ _ (empty_wf next) _ _ eq_refl eq_refl E Er).
    - intros n Hn. assert (Hn' : In n (body ++ [out])) by (apply in_app_iff; now left). specialize (Hb n Hn). split; [intros x Hx; split; [now apply (R3 n)|]; exists p, (FMod self attrs gr ch), n, x; split; [exact Hat|]; split; [now rewrite Eb|]; split; [exact Hx|constructor]|]. split; [intros t; now apply R4|]. split; [|exact Hb]. intros t k x. now apply R5.
    - rewrite map_app in R1. clear - R1. induction (map x_id body) as [|i l IH]; [constructor|]. cbn in R1. apply NoDup_cons_iff in R1. destruct R1 as [R1 R2]. constructor; [intros K; apply R1; apply in_app_iff; now left|now apply IH].
    - intros n r K. discriminate K.
    - intros n r K. discriminate K.
    - intros n r K. discriminate K.
  Qed.

  Lemma sub_values : forall m p, at_path root p m -> regular o false p m -> sub_value p m.
  Proof.
    refine (fmod_rec' (fun m => forall p, at_path root p m -> regular o false p m -> sub_value p m) _). intros self attrs gr ch F p Hat Hr next g next' vs v E Er. cbn [build_sub] in E. binv E. injection E as <- <-.
    refine (module_value None p self attrs gr ch next x vs v Hat Hr _ H Er). intros t m Nt Hin. rewrite Forall_forall in F. apply (F m); [apply in_map_iff; now exists (t, m)|exact (at_child root p _ t m Hat Nt Hin)|exact (Hreg p _ t m Hat Nt Hin)].
  Qed.
  Lemma root_value positional next g next' vs v : regular o true "" root -> build_root o root positional next = Ok (g, next') -> run_program h atom attribute root vs = Ok v -> exists r, g_outputs g = [r] /\ value g vs r v.
  Proof.
    intros Hr E Er. unfold run_program in Er. binv Er. assert (Hm : exists self attrs gr ch, root = FMod self attrs gr ch) by (destruct root; eauto). destruct Hm as (self & attrs & gr & ch & Em).
    assert (At : at_path root "" root) by constructor. rewrite Em in E, H, Hr. cbn [build_root] in E. binv E. injection E as <- <-.
    refine (module_value (Some positional) "" self attrs gr ch next x0 vs x _ Hr _ H0 H v Er); [rewrite <- Em; exact At|].
    intros t m Nt Hin. assert (Hin' : In (t, m) (m_children root)) by (rewrite Em; exact Hin). apply sub_values; [exact (at_child root "" root t m At Nt Hin')|exact (Hreg "" root t m At Nt Hin')].
  Qed.
End Main.
