(** Examples for the theorems about coarsening, and graphs it does not preserve. *)
From Coq Require Import String Ascii DecimalString DecimalZ Relations Permutation.
From Verif Require Import Prelude GraphModel GraphSpec GraphProofs EngineModel EngineSpec EngineOptProofs EngineSchedProofs EngineExamples EngineWitness CoarseModel CoarseSpec CoarseValueProofs CoarseBaseProofs CoarseProofs
  CoarseSuccessProofs CoarseTotalProofs CoarseExtraProofs.
Local Open Scope nat_scope.
Local Open Scope list_scope.

(** ** Computing values *)
Section Ev.
  Variable f : nat -> nat -> list (val nat) -> list (string * val nat) -> result (val nat).
  Variable g : graph.
  Definition inp_of (vs : list (val nat)) (id : nat) : option (val nat) :=
    option_map snd (find (fun e => snd (fst e) =? id) (combine (g_inputs g) vs)).
  Definition omapM {A B} (h : A -> option B) : list A -> option (list B) :=
    fix go l := match l with [] => Some [] | a :: l' => match h a, go l' with Some b, Some bs => Some (b :: bs) | _, _ => None end end.
  Fixpoint ev (k : nat) (vs : list (val nat)) (c : nat) (r : ref) : option (val nat) :=
    match k with
    | 0 => None
    | S k =>
        match r with
        | RInput i _ => inp_of vs i
        | RConst i => Some (constv exs i)
        | RAttr r a => match ev k vs c r with Some v => match ex_item v a with Ok w => Some w | _ => None end | None => None end
        | RNode i _ =>
            match find (fun n => n_id n =? i) (g_nodes g) with
            | None => None
            | Some n =>
                match omapM (ev k vs c) (n_args n), omapM (ev k vs c) (map snd (n_kwargs n)) with
                | Some xs, Some ys => match f c (n_target n) xs (combine (map fst (n_kwargs n)) ys) with Ok v => Some v | _ => None end
                | _, _ => None
                end
            end
        end
    end.
  Lemma omapM_ok {A B} (h : A -> option B) (P : A -> B -> Prop) l : (forall a b, h a = Some b -> P a b) -> forall l', omapM h l = Some l' -> Forall2 P l l'.
  Proof.
    intros H. induction l as [|a l IH]; intros l' E; cbn in E; [injection E as <-; constructor|]. destruct (h a) eqn:Ea; [|discriminate]. destruct (omapM h l); [|discriminate]. injection E as <-. constructor; auto.
  Qed.
  Lemma in_combine_nth {A B} (l : list A) : forall (l' : list B) a b, In (a, b) (combine l l') -> exists i, nth_error l i = Some a /\ nth_error l' i = Some b.
  Proof.
    induction l as [|x l IH]; intros [|y l'] a b H; try destruct H.
    - injection H as -> ->. exists 0. now split.
    - destruct (IH _ _ _ H) as (i & H1 & H2). exists (S i). now split.
  Qed.
  Lemma inp_of_ok vs id v : inp_of vs id = Some v -> positional g vs id v.
  Proof.
    unfold inp_of. destruct (find _ _) as [[[k i] w]|] eqn:F; [|discriminate]. intros E. injection E as <-. apply find_some in F. destruct F as [H Ei]. cbn in Ei. apply Nat.eqb_eq in Ei. subst i.
    destruct (in_combine_nth _ _ _ _ H) as (j & H1 & H2). now exists j, k.
  Qed.
  Lemma ev_ok vs c : forall k r v, ev k vs c r = Some v -> value exs f g (positional g vs) c r v.
  Proof.
    induction k as [|k IH]; intros r v E; [discriminate|]. cbn [ev] in E. destruct r as [i nm|i nm|i|r a].
    - destruct (find _ _) as [n|] eqn:F; [|discriminate]. apply find_some in F. destruct F as [Hn Ei]. apply Nat.eqb_eq in Ei. subst i.
      destruct (omapM _ (n_args n)) as [xs|] eqn:E1; [|discriminate]. destruct (omapM _ (map snd (n_kwargs n))) as [ys|] eqn:E2; [|discriminate].
      destruct (f c _ _ _) eqn:Ef; [|discriminate]. injection E as <-. apply (v_node exs f g _ c n nm xs ys); [exact Hn| | |exact Ef].
      + exact (omapM_ok _ _ _ (fun a b H => IH a b H) _ E1).
      + exact (omapM_ok _ _ _ (fun a b H => IH a b H) _ E2).
    - now apply v_input, inp_of_ok.
    - injection E as <-. apply v_const.
    - destruct (ev k vs c r) as [w|] eqn:E1; [|discriminate]. destruct (ex_item w a) eqn:E2; [|discriminate]. injection E as <-. apply (v_attr exs f g _ c r a w); [now apply IH|]. now apply av_item.
  Qed.
  Lemma positional_functional (vs : list (val nat)) : NoDup (map snd (g_inputs g)) -> functional (positional g vs).
  Proof.
    intros N i v w (a & k & A1 & A2) (b & k' & B1 & B2). assert (a = b) as ->; [|congruence]. rewrite NoDup_nth_error in N. apply N.
    - rewrite map_length. apply nth_error_Some. congruence.
    - rewrite !nth_error_map, A1, B1. reflexivity.
  Qed.
End Ev.

(** The functions of the example code, with subgraphs. *)
Definition fx (c m : nat) (a : list (val nat)) (k : list (string * val nat)) : result (val nat) := ex_call c (fun _ => 0) m a k.
Definition fsub (subs : list (nat * graph)) (c m : nat) (a : list (val nat)) (k : list (string * val nat)) : result (val nat) :=
  match find (fun e => fst e =? m) subs with
  | Some (_, sub) => match omapM (ev fx sub 50 a c) (g_outputs sub) with Some [w] => Ok w | Some outs => Ok (Tup [] outs) | None => Err RuntimeError end
  | None => fx c m a k
  end.
Definition tensors (n : nat) (vs : list (val nat)) : Prop := length vs = n /\ forall x, In x vs -> exists d t, x = Tensor d t.
Lemma fsub_ok g subs : NoDup (map fst subs) -> (forall t, In t (map fst subs) -> ~ In t (map n_target (g_nodes g))) ->
  (forall t sub, In (t, sub) subs -> graph_ok sub /\ NoDup (map snd (g_inputs sub)) /\ forall c vs, tensors (length (g_inputs sub)) vs -> exists outs, omapM (ev fx sub 50 vs c) (g_outputs sub) = Some outs) ->
  with_subgraphs exs fx g subs (fsub subs).
Proof.
  intros N D H. split.
  - intros c n a k Hn. unfold fsub. destruct (find _ subs) as [[t sub]|] eqn:F; [|reflexivity]. apply find_some in F. destruct F as [Hi Et]. cbn in Et. apply Nat.eqb_eq in Et. subst t.
    destruct (D (n_target n)); [apply in_map_iff; now exists (n_target n, sub)|now apply in_map].
  - intros t sub c vs v Hi (L & Te & _ & outs & F2 & ->). unfold fsub. destruct (find _ subs) as [[t' sub']|] eqn:F.
    + apply find_some in F. destruct F as [Hi' Et]. cbn in Et. apply Nat.eqb_eq in Et. subst t'. assert (sub' = sub) as ->.
      { clear -N Hi Hi'. induction subs as [|[a b] l IH]; [destruct Hi|]. inversion N as [|? ? N1 N2]; subst. destruct Hi as [E|Hi], Hi' as [E'|Hi'].
        - congruence.
        - injection E as -> ->. destruct N1. apply in_map_iff. now exists (t, sub').
        - injection E' as -> ->. destruct N1. apply in_map_iff. now exists (t, sub).
        - now apply IH. }
      destruct (H t sub Hi) as (G & Ni & Hv). destruct (Hv c vs (conj L Te)) as (outs' & E'). rewrite E'. assert (outs' = outs) as ->; [|destruct outs as [|w [|]]; reflexivity].
      assert (F3 := omapM_ok _ _ _ (fun a b H => ev_ok fx sub vs c 50 a b H) _ E'). refine (Forall2_unique _ _ _ _ _ F3 F2). intros a b b' _ H1 H2. exact (value_det exs fx sub _ c G (positional_functional sub vs Ni) a b H1 b' H2).
    + assert (K := find_none _ _ F (t, sub) Hi). cbn in K. now rewrite Nat.eqb_refl in K.
Qed.

(** ** Examples *)
Definition nd (i : nat) (nm : string) (t : nat) (l : list ref) (p : option nat) : gnode := mkNode i nm t l (if t <? 10 then TorchModule else CallFunction) [] None p.
Definition dg : delegate := mkDelegate 40 [0].
(** the fold f (module 3) of a = 1(x) and b = 2(a); p = the pair of b and x; q = 4(p[0]); r = 5(q); s1 = 6(r); s2 = 7(r); o = 8(s1, s2) *)
Definition n_a : ref := RNode 2 "a".
Definition n_b : ref := RNode 3 "b".
Definition gr : graph :=
  mkGraph [nd 1 "f" 3 [xin] None; nd 2 "a" 1 [xin] (Some 1); nd 3 "b" 2 [n_a] (Some 1); nd 4 "p" 11 [n_b; xin] None; nd 5 "q" 4 [RAttr (RNode 4 "p") (AInt 0)] None;
           nd 6 "r" 5 [RNode 5 "q"] None; nd 7 "s1" 6 [RNode 6 "r"] None; nd 8 "s2" 7 [RNode 6 "r"] None; nd 9 "o" 8 [RNode 7 "s1"; RNode 8 "s2"] None]
          [("x"%string, 0)] [RNode 9 "o"; n_b] [1].
Definition gr_specs : list subgraph_spec := [mkSpec (RSpan 4 5) dg; mkSpec (RGroup [6; 7]) dg; mkSpec (RModule 8) (mkDelegate 41 [1])].
Definition gr_paths : list (list nat) := [[6; 5]; [7; 8]; [9]].
Definition three (g : graph) (specs : list subgraph_spec) : graph * list (nat * graph) * list nat :=
  match reduce_resolution idord idord g specs with Ok x => x | Err _ => (mkGraph [] [] [] [], [], []) end.
Definition gr' : graph := fst (fst (three gr gr_specs)).
Definition gr_subs : list (nat * graph) := snd (fst (three gr gr_specs)).
Definition gr_ts : list nat := snd (three gr gr_specs).

(** ** Checking graphs *)
Fixpoint no_char (ch : ascii) (t : string) : bool := match t with EmptyString => true | String x t' => negb (Ascii.eqb x ch) && no_char ch t' end.
Lemma no_char_ok ch t : no_char ch t = true -> ~ has_char ch t.
Proof.
  induction t as [|x t IH]; intros E H; [destruct H|]. apply andb_true_iff in E. destruct E as [E1 E2]. destruct H as [->|H]; [now rewrite Ascii.eqb_refl in E1|now apply IH].
Qed.
Fixpoint well_namedb (g : graph) (r : ref) : bool :=
  match r with
  | RNode i n => existsb (fun m => (n_id m =? i) && String.eqb (n_name m) n) (g_nodes g) && negb (nmem i (g_folds g))
  | RInput i k => existsb (fun e => (snd e =? i) && String.eqb (fst e) k) (g_inputs g)
  | RConst _ => true
  | RAttr r _ => well_namedb g r
  end.
Lemma well_namedb_ok g r : well_namedb g r = true -> well_named g r.
Proof.
  induction r as [i n|i k|i|r IH a]; cbn; intros E.
  - apply andb_true_iff in E. destruct E as [E1 E2]. apply existsb_exists in E1. destruct E1 as (m & Hm & E1). apply andb_true_iff in E1. destruct E1 as [A B]. apply Nat.eqb_eq in A. apply String.eqb_eq in B. subst. constructor; [exact Hm|].
    intros H. apply nmem_in in H. now rewrite H in E2.
  - apply existsb_exists in E. destruct E as ([k' j] & Hm & E1). apply andb_true_iff in E1. destruct E1 as [A B]. apply Nat.eqb_eq in A. apply String.eqb_eq in B. cbn in A, B. subst. now constructor.
  - constructor.
  - constructor. now apply IH.
Qed.
Fixpoint nunique (l : list nat) : bool := match l with [] => true | x :: l' => negb (nmem x l') && nunique l' end.
Fixpoint sunique (l : list string) : bool := match l with [] => true | x :: l' => negb (smem x l') && sunique l' end.
Lemma nunique_ok l : nunique l = true -> NoDup l.
Proof. induction l as [|x l IH]; intros E; [constructor|]. apply andb_true_iff in E. destruct E as [E1 E2]. constructor; [|now apply IH]. intros H. apply nmem_in in H. now rewrite H in E1. Qed.
Lemma sunique_ok l : sunique l = true -> NoDup l.
Proof. induction l as [|x l IH]; intros E; [constructor|]. apply andb_true_iff in E. destruct E as [E1 E2]. constructor; [|now apply IH]. intros H. apply smem_in in H. now rewrite H in E1. Qed.
Fixpoint parentsb (g : graph) (before_ : list nat) (l : list gnode) : bool :=
  match l with [] => true | n :: l' => match n_parent n with Some p => nmem p before_ && nmem p (g_folds g) | None => true end && parentsb g (before_ ++ [n_id n]) l' end.
Lemma parentsb_ok g : forall l b, parentsb g b l = true -> forall l1 n l2 p, l = l1 ++ n :: l2 -> n_parent n = Some p -> In p (b ++ map n_id l1) /\ In p (g_folds g).
Proof.
  induction l as [|m l IH]; intros b E l1 n l2 p El Ep; [destruct l1; discriminate|]. cbn [parentsb] in E. apply andb_true_iff in E. destruct E as [E1 E2]. destruct l1 as [|m' l1]; injection El as -> El.
  - rewrite Ep in E1. apply andb_true_iff in E1. destruct E1 as [A B]. cbn. rewrite app_nil_r. split; now apply nmem_in.
  - destruct (IH _ E2 l1 n l2 p El Ep) as [A B]. split; [|exact B]. rewrite <- app_assoc in A. exact A.
Qed.
Definition tidyb (g : graph) : bool :=
  nunique (map n_id (g_nodes g)) && sunique (map n_name (g_nodes g) ++ map fst (g_inputs g)) && nunique (map snd (g_inputs g)) &&
  forallb (no_char "["%char) (map n_name (g_nodes g) ++ map fst (g_inputs g)) && forallb (fun n => forallb (well_namedb g) (call_refs n)) (g_nodes g) &&
  forallb (fun r => well_namedb g r && match unwrap r with RNode _ _ => true | _ => false end) (g_outputs g) && parentsb g [] (g_nodes g).
Lemma tidyb_ok g : tidyb g = true -> tidy g.
Proof.
  unfold tidyb. rewrite !andb_true_iff. intros ((((((A & B) & C) & D) & E) & F) & G). split.
  - now apply nunique_ok.
  - now apply sunique_ok.
  - now apply nunique_ok.
  - intros n Hn. rewrite forallb_forall in D. now apply no_char_ok, D.
  - intros n r Hn Hr. rewrite forallb_forall in E. specialize (E n Hn). rewrite forallb_forall in E. now apply well_namedb_ok, E.
  - intros r Hr. rewrite forallb_forall in F. specialize (F r Hr). apply andb_true_iff in F. destruct F as [F1 F2]. split; [now apply well_namedb_ok|]. destruct (unwrap r) as [i n| | |] eqn:U; try discriminate. exists i. apply about_unwrap. eauto.
  - intros l1 n l2 p El Ep. exact (parentsb_ok g _ [] G l1 n l2 p El Ep).
Qed.
Lemma sorted_acyclic g l : tidy g -> topological_sort g None = Ok l -> ~ cyclic g.
Proof. intros T E. exact (proj1 (sort_acyclic g l (tidy_ids g T) E)). Qed.

(** Values of all nodes, computed. *)
Definition all_evb (f : nat -> nat -> list (val nat) -> list (string * val nat) -> result (val nat)) (g : graph) (vs : list (val nat)) (c : nat) : bool :=
  forallb (fun n => match ev f g 50 vs c (RNode (n_id n) (n_name n)) with Some _ => true | None => false end) (g_nodes g).
Lemma all_evb_ok f g vs c : all_evb f g vs c = true -> all_values exs f g (positional g vs) c.
Proof. intros E n Hn. unfold all_evb in E. rewrite forallb_forall in E. specialize (E n Hn). destruct (ev f g 50 vs c _) as [v|] eqn:V; [|discriminate]. exists v. exact (ev_ok f g vs c 50 _ _ V). Qed.
Definition constb (r : ref) : bool := match unwrap r with RConst _ => true | _ => false end.
Definition tensor_evb (f : nat -> nat -> list (val nat) -> list (string * val nat) -> result (val nat)) (g : graph) (vs : list (val nat)) (c : nat) : bool :=
  forallb (fun n => forallb (fun r => constb r || match ev f g 50 vs c r with Some (Tensor _ _) => true | _ => false end) (call_refs n)) (g_nodes g).
Lemma tensor_evb_ok f g vs c : tidy g -> tensor_evb f g vs c = true -> tensor_arguments exs f g (positional g vs) c.
Proof.
  intros T E n r v Hn Hr Nc V. unfold tensor_evb in E. rewrite forallb_forall in E. specialize (E n Hn). rewrite forallb_forall in E. specialize (E r Hr). apply orb_true_iff in E. destruct E as [E|E].
  - unfold constb in E. destruct (unwrap r) eqn:Er; try discriminate. now destruct (Nc id).
  - destruct (ev f g 50 vs c r) as [w|] eqn:W; [|discriminate]. assert (v = w) as ->. { exact (value_det exs f g _ c (tidy_ids g T) (positional_fun g vs T) r v V w (ev_ok f g vs c 50 r w W)). } destruct w; try discriminate. eauto.
Qed.
(** Folds, computed. *)
Definition folds_evb (f : nat -> nat -> list (val nat) -> list (string * val nat) -> result (val nat)) (g : graph) (vs : list (val nat)) (c : nat) : bool :=
  forallb (fun n => negb (nmem (n_id n) (g_folds g)) ||
    match fold_outputs g (n_id n) with
    | [x] => match ev f g 50 vs c (RNode (n_id n) (n_name n)), ev f g 50 vs c (RNode x "") with Some (Tensor d t), Some (Tensor d' t') => (d =? d') && (t =? t') | _, _ => false end
    | _ => false
    end) (g_nodes g).
Lemma exposed_single g p x l : exposed_list g p [x] -> exposed_list g p l -> l = [x].
Proof.
  intros (_ & A & _) (N & B & _). assert (H : forall y, In y l <-> y = x). { intros y. rewrite B, <- A. cbn. split; [intros [K|[]]; now symmetry|intros ->; now left]. }
  destruct l as [|a [|b l]].
  - destruct (proj2 (H x) eq_refl).
  - f_equal. apply H. now left.
  - assert (a = x) by (apply H; now left). assert (b = x) by (apply H; right; now left). subst. inversion N as [|? ? K]. destruct K. now left.
Qed.
Lemma folds_evb_ok f g vs c : tidy g -> folds_evb f g vs c = true -> folds_faithful exs f g (positional g vs) c.
Proof.
  intros T E n outs ws Hn Hf Ex F. unfold folds_evb in E. rewrite forallb_forall in E. specialize (E n Hn). apply orb_true_iff in E. destruct E as [E|E]; [apply nmem_in in Hf; now rewrite Hf in E|].
  assert (X := fold_outputs_exposed g (n_id n) T). destruct (fold_outputs g (n_id n)) as [|x [|]] eqn:Fo; try discriminate. rewrite (exposed_single g _ x outs X Ex) in F.
  destruct (ev f g 50 vs c (RNode (n_id n) (n_name n))) as [w|] eqn:E1; [|discriminate]. destruct w as [d t| | | |]; try discriminate. destruct (ev f g 50 vs c (RNode x "")) as [w'|] eqn:E2; [|discriminate]. destruct w' as [d' t'| | | |]; try discriminate.
  apply andb_true_iff in E. destruct E as [Ed Et]. apply Nat.eqb_eq in Ed, Et. subst. exists (Tensor d' t'). split; [exact (ev_ok f g vs c 50 _ _ E1)|]. inversion F as [|? v ? ? V F']; subst. inversion F'; subst.
  symmetry. exact (value_det exs f g _ c (tidy_ids g T) (positional_fun g vs T) _ v V _ (ev_ok f g vs c 50 _ _ E2)).
Qed.

Lemma gr_tidy : tidy gr.
Proof. apply tidyb_ok. vm_compute. reflexivity. Qed.
Lemma gr_acyclic : ~ cyclic gr.
Proof. eapply sorted_acyclic; [exact gr_tidy|vm_compute; reflexivity]. Qed.
Lemma idperm l : Permutation (idord l) l.
Proof. apply Permutation_refl. Qed.
Lemma gr_reduced : reduce_resolution idord idord gr gr_specs = Ok (gr', gr_subs, gr_ts).
Proof. vm_compute. reflexivity. Qed.
Lemma tensors1 vs : tensors 1 vs -> exists d t, vs = [Tensor d t].
Proof. intros [L H]. destruct vs as [|v [|]]; try discriminate. destruct (H v (or_introl eq_refl)) as (d & t & ->). eauto. Qed.
Lemma gr_calls : with_subgraphs exs fx gr gr_subs (fsub gr_subs).
Proof.
  apply fsub_ok.
  - apply nunique_ok. vm_compute. reflexivity.
  - intros t H K. vm_compute in H, K. destruct H as [<-|[<-|[]]]; repeat (destruct K as [K|K]; [discriminate|]); exact K.
  - intros t sub H. vm_compute in H. destruct H as [H|[H|[]]]; injection H as <- <-; (split; [apply nunique_ok; reflexivity|]); (split; [apply nunique_ok; reflexivity|]); intros c vs Hv; apply tensors1 in Hv; destruct Hv as (d & n & ->); eexists; cbn; reflexivity.
Qed.
Lemma gr_flat : flat_graph gr.
Proof.
  split.
  - intros n r Hn Hr. vm_compute in Hn. repeat (destruct Hn as [<-|Hn]; [cbn in Hr; repeat (destruct Hr as [<-|Hr]; [exact I|]); destruct Hr|]). destruct Hn.
  - intros r Hr. vm_compute in Hr. repeat (destruct Hr as [<-|Hr]; [eauto|]). destruct Hr.
Qed.
Definition gr_in : list (val nat) := [T 0 20].
Lemma gr_values : tensor_arguments exs fx gr (positional gr gr_in) 0 /\ all_values exs fx gr (positional gr gr_in) 0 /\ folds_faithful exs fx gr (positional gr gr_in) 0.
Proof.
  split; [apply tensor_evb_ok; [exact gr_tidy|vm_compute; reflexivity]|]. split; [apply all_evb_ok; vm_compute; reflexivity|]. apply folds_evb_ok; [exact gr_tidy|vm_compute; reflexivity].
Qed.
Lemma tuples : tuple_items exs.
Proof. intros vs i v H. cbn. now rewrite Nat2Z.id, H. Qed.
Lemma gr_feeds x y : feeds gr x y <-> In y (node_outputs gr x).
Proof. symmetry. apply outputs_feeds. Qed.
Lemma gr_feeds_all x y : feeds gr x y -> In (x, y) [(2, 3); (3, 4); (4, 5); (5, 6); (6, 7); (6, 8); (7, 9); (8, 9)].
Proof.
  intros (n & r & Hn & <- & [Hr|(k & Hr)] & A); vm_compute in Hn; repeat (destruct Hn as [<-|Hn]; [cbn in Hr; repeat (destruct Hr as [<-|Hr]; [repeat (let B := fresh in inversion A as [? ?|? ? ? B]; subst; clear A; rename B into A); try (inversion A); subst; cbn; tauto|]); destruct Hr|]); destruct Hn.
Qed.
Ltac feeds_now := rewrite gr_feeds; vm_compute; tauto.
Lemma gr_orderly : orderly_folds gr.
Proof.
  assert (In_ : forall x, inside gr 1 x <-> x = 2 \/ x = 3). { intros x. unfold inside. rewrite <- (fold_leaves_in gr 1 x gr_tidy). vm_compute. intuition. }
  assert (Ex : forall x, exposed gr 1 x <-> x = 3). { intros x. rewrite <- (proj1 (proj2 (fold_outputs_exposed gr 1 gr_tidy)) x). vm_compute. intuition. }
  intros n Hn Hf. assert (n_id n = 1) as -> by (destruct Hf as [<-|[]]; reflexivity). split.
  - split; [exists 3; now apply Ex|]. split.
    + intros x Hx. exists 3. split; [now apply Ex|]. apply In_ in Hx. destruct Hx as [->| ->]; [apply rt_step; feeds_now|apply rt_refl].
    + intros e x y He Hx _ Ny F. apply Ex in He. subst e. apply In_ in Hx. apply gr_feeds_all in F. destruct Hx as [->| ->]; repeat (destruct F as [F|F]; [try discriminate; injection F as <-|]); try (now destruct F).
      * destruct Ny. apply In_. tauto.
      * apply t_step. feeds_now.
  - intros r x Hr A. assert (n = nd 1 "f" 3 [xin] None) as ->.
    { destruct Hf as [Ef|[]]. vm_compute in Hn. repeat (destruct Hn as [<-|Hn]; [first [reflexivity|discriminate]|]). destruct Hn. }
    destruct Hr as [<-|[]]. inversion A.
Qed.
Lemma gr_resolved : Forall2 (fun sp P => exists sub, resolve_spec idord idord gr sp = Ok (P, sub)) gr_specs gr_paths.
Proof. repeat constructor; eexists; vm_compute; reflexivity. Qed.
Lemma gr_apart : apart gr gr_paths.
Proof.
  split.
  - intros i j P Q x Hi Hj N Hx Hy. destruct i as [|[|[|[|]]]]; try discriminate; destruct j as [|[|[|[|]]]]; try discriminate; try congruence; injection Hi as <-; injection Hj as <-; repeat (destruct Hx as [<-|Hx]; [repeat (destruct Hy as [Hy|Hy]; [discriminate|]); exact Hy|]); exact Hx.
  - intros P Q x n HP _ Hx Hn _ W. apply (encloses_iff gr x n gr_tidy Hn) in W. vm_compute in HP. destruct HP as [<-|[<-|[<-|[]]]]; repeat (destruct Hx as [<-|Hx];
      [vm_compute in Hn; repeat (destruct Hn as [<-|Hn]; [vm_compute in W; discriminate|]); destruct Hn|]); destruct Hx.
Qed.
Lemma gr_regions : Forall2 (fun sp P => (exists t, s_region sp = RModule t) \/ orderly gr (fun x => In x P) (seen gr P)) gr_specs gr_paths.
Proof.
  constructor; [right|constructor; [right|constructor; [left; now exists 8|constructor]]].
  - apply (span_orderly gr [6; 5] 6 gr_tidy).
    + intros x [<-|[<-|[]]]; [apply rt_refl|apply rt_step; feeds_now].
    + intros x. split.
      * intros ([<-|[<-|[]]] & _ & H); [reflexivity|]. exfalso. destruct H as [(m & _ & N & F)|(o & Ho & A)].
        -- apply gr_feeds_all in F. repeat (destruct F as [F|F]; [try discriminate; injection F as <-; apply N; cbn; tauto|]). destruct F.
        -- destruct Ho as [<-|[<-|[]]]; inversion A.
      * intros ->. split; [now left|]. split; [split; [vm_compute; tauto|vm_compute; intros [K|[]]; discriminate]|]. left. exists 7. split; [vm_compute; tauto|]. split; [vm_compute; intros [K|[K|[]]]; discriminate|feeds_now].
  - apply (group_orderly gr [7; 8] 9 gr_tidy).
    + vm_compute. tauto.
    + vm_compute. intros [K|[K|[]]]; discriminate.
    + exists 7. now left.
    + intros x [<-|[<-|[]]]; feeds_now.
    + intros x x' y [<-|[<-|[]]] [<-|[<-|[]]] F; try exact F; apply gr_feeds_all in F; repeat (destruct F as [F|F]; [try discriminate; injection F as <-; feeds_now|]); destruct F.
Qed.

(** ** Graphs that cannot be coarsened *)

(** a = 1(x); e = 2(a); b = 3(a); o = 4(b, e): the span from a to b is not computed before e *)
Definition cut : graph :=
  mkGraph [nd 1 "a" 1 [xin] None; nd 2 "e" 2 [RNode 1 "a"] None; nd 3 "b" 3 [RNode 1 "a"] None; nd 4 "o" 4 [RNode 3 "b"; RNode 2 "e"] None] [("x"%string, 0)] [RNode 4 "o"] [].
Definition cut_specs : list subgraph_spec := [mkSpec (RSpan 1 3) dg].
(** the fold f (module 3) of a = 1(x) and b = 2(a), both targets: f and b *)
Definition nested : graph :=
  mkGraph [nd 1 "f" 3 [xin] None; nd 2 "a" 1 [xin] (Some 1); nd 3 "b" 2 [RNode 2 "a"] (Some 1)] [("x"%string, 0)] [RNode 3 "b"] [1].
Definition nested_specs : list subgraph_spec := [mkSpec (RModule 3) dg; mkSpec (RModule 2) dg].
(** q = the pair of x and y, p = the pair of q and x, r = 1(p[0][1]), o = 2(r) *)
Definition deep : graph :=
  mkGraph [nd 1 "q" 11 [xin; RInput 1 "y"] None; nd 2 "p" 11 [RNode 1 "q"; xin] None; nd 3 "r" 1 [RAttr (RAttr (RNode 2 "p") (AInt 0)) (AInt 1)] None; nd 4 "o" 2 [RNode 3 "r"] None]
   [("x"%string, 0); ("y"%string, 1)] [RNode 4 "o"] [].
Definition deep_specs : list subgraph_spec := [mkSpec (RSpan 1 2) dg].
(** the fold f is the pair of b and a; a = 1(x), b = 2(x); o = 4(a) and u = 5(b) *)
Definition swap : graph :=
  mkGraph [nd 1 "f" 9 [xin] None; nd 2 "a" 1 [xin] (Some 1); nd 3 "b" 2 [xin] (Some 1); nd 4 "o" 4 [RNode 2 "a"] None; nd 5 "u" 5 [RNode 3 "b"] None] [("x"%string, 0)] [RNode 4 "o"; RNode 5 "u"] [1].
Definition swap_specs : list subgraph_spec := [mkSpec (RModule 4) dg].
(** p = 11(x, x), a tuple in a span: output p[0] *)
Definition outi : graph :=
  mkGraph [nd 1 "a" 1 [xin] None; nd 2 "p" 11 [RNode 1 "a"; xin] None] [("x"%string, 0)] [RAttr (RNode 2 "p") (AInt 0)] [].
Definition outi_specs : list subgraph_spec := [mkSpec (RSpan 1 11) dg].

Lemma cut_refuted : exists g sp P sub, tidy g /\ ~ cyclic g /\ g_folds g = [] /\ resolve_spec idord idord g sp = Ok (P, Some sub) /\ reduce_resolution idord idord g [sp] = Err KeyError.
Proof.
  exists cut, (mkSpec (RSpan 1 3) dg). do 2 eexists. assert (Ht : tidy cut) by (apply tidyb_ok; vm_compute; reflexivity). split; [exact Ht|]. split; [eapply sorted_acyclic; [exact Ht|vm_compute; reflexivity]|].
  split; [reflexivity|]. split; vm_compute; reflexivity.
Qed.
Lemma nested_refuted : exists g t t' n m, tidy g /\ ~ cyclic g /\ orderly_folds g /\ node_of_target g t = Ok n /\ node_of_target g t' = Ok m /\ n_id n <> n_id m /\ within g m (n_id n) /\
  forall d d', reduce_resolution idord idord g [mkSpec (RModule t) d; mkSpec (RModule t') d'] = Err KeyError.
Proof.
  assert (Ht : tidy nested) by (apply tidyb_ok; vm_compute; reflexivity).
  exists nested, 3, 2. do 2 eexists. split; [exact Ht|]. split; [eapply sorted_acyclic; [exact Ht|vm_compute; reflexivity]|]. split; [|split; [vm_compute; reflexivity|split; [vm_compute; reflexivity|split; [discriminate|split; [now constructor|intros; vm_compute; reflexivity]]]]].
  assert (In_ : forall x, inside nested 1 x <-> x = 2 \/ x = 3). { intros x. unfold inside. rewrite <- (fold_leaves_in nested 1 x Ht). vm_compute. intuition. }
  assert (Ex : forall x, exposed nested 1 x <-> x = 3). { intros x. rewrite <- (proj1 (proj2 (fold_outputs_exposed nested 1 Ht)) x). vm_compute. intuition. }
  intros n Hn Hf. assert (n_id n = 1) as -> by (destruct Hf as [<-|[]]; reflexivity). split.
  - split; [exists 3; now apply Ex|]. split.
    + intros x Hx. exists 3. split; [now apply Ex|]. apply In_ in Hx. destruct Hx as [->| ->]; [apply rt_step; apply outputs_feeds; vm_compute; tauto|apply rt_refl].
    + intros e x y He Hx Ly Ny F. destruct Ny. apply In_. apply In_ in Hx. apply outputs_feeds in F. destruct Hx as [->| ->]; vm_compute in F; intuition.
  - intros r x Hr A. assert (n = nd 1 "f" 3 [xin] None) as ->.
    { destruct Hf as [Ef|[]]. vm_compute in Hn. repeat (destruct Hn as [<-|Hn]; [first [reflexivity|discriminate]|]). destruct Hn. }
    destruct Hr as [<-|[]]. inversion A.
Qed.
Definition deep' : graph := fst (fst (three deep deep_specs)).
Definition deep_subs : list (nat * graph) := snd (fst (three deep deep_specs)).
Definition deep_ts : list nat := snd (three deep deep_specs).
Lemma deep_refuted : exists (f f' : nat -> nat -> list (val nat) -> list (string * val nat) -> result (val nat)) g specs g' subs ts vs o o' v v', tidy g /\ ~ cyclic g /\ g_folds g = [] /\ reduce_resolution idord idord g specs = Ok (g', subs, ts) /\
  all_values exs f g (positional g vs) 0 /\ with_subgraphs exs f g subs f' /\ g_outputs g = [o] /\ g_outputs g' = [o'] /\
  value exs f g (positional g vs) 0 o v /\ value exs f' g' (positional g' vs) 0 o' v' /\ v <> v'.
Proof.
  assert (Ht : tidy deep) by (apply tidyb_ok; vm_compute; reflexivity).
  exists fx, (fsub deep_subs), deep, deep_specs, deep', deep_subs, deep_ts, [T 0 20; T 0 30], (RNode 4 "o"), (RNode 2 "subgraph_0"), (T 0 33), (T 0 23).
  split; [exact Ht|]. split; [eapply sorted_acyclic; [exact Ht|vm_compute; reflexivity]|]. split; [reflexivity|]. split; [vm_compute; reflexivity|]. split; [apply all_evb_ok; vm_compute; reflexivity|].
  split; [|split; [reflexivity|split; [vm_compute; reflexivity|split; [apply (ev_ok fx deep _ 0 50); vm_compute; reflexivity|split; [apply (ev_ok _ deep' _ 0 50); vm_compute; reflexivity|discriminate]]]]].
  apply fsub_ok.
  - apply nunique_ok. vm_compute. reflexivity.
  - intros t H K. vm_compute in H, K. destruct H as [<-|[]]; repeat (destruct K as [K|K]; [discriminate|]); exact K.
  - intros t sub H. vm_compute in H. destruct H as [H|[]]; injection H as <- <-; (split; [apply nunique_ok; reflexivity|]); (split; [apply nunique_ok; reflexivity|]); intros c vs Hv; apply tensors1 in Hv; destruct Hv as (d & n & ->); eexists; cbn; reflexivity.
Qed.
(** Module 9 returns the pair of what modules 2 and 1 return. *)
Definition fsw (c m : nat) (a : list (val nat)) (k : list (string * val nat)) : result (val nat) :=
  match m with 9 => Ok (Tup [] [Tensor 0 (2 + total a k); Tensor 0 (1 + total a k)]) | _ => fx c m a k end.
Definition swap' : graph := fst (fst (three swap swap_specs)).
Definition swap_ts : list nat := snd (three swap swap_specs).
Lemma swap_refuted : exists (f : nat -> nat -> list (val nat) -> list (string * val nat) -> result (val nat)) g specs g' ts vs n a b va vb, tidy g /\ ~ cyclic g /\ modules_only specs /\ reduce_resolution idord idord g specs = Ok (g', [], ts) /\
  all_values exs f g (positional g vs) 0 /\ In n (g_nodes g) /\ g_folds g = [n_id n] /\ exposed_list g (n_id n) [a; b] /\
  value exs f g (positional g vs) 0 (RNode a "") va /\ value exs f g (positional g vs) 0 (RNode b "") vb /\ value exs f g (positional g vs) 0 (RNode (n_id n) (n_name n)) (Tup [] [vb; va]) /\
  exists o o' r r' v v', g_outputs g = o :: r /\ g_outputs g' = o' :: r' /\ value exs f g (positional g vs) 0 o v /\ value exs f g' (positional g' vs) 0 o' v' /\ v <> v'.
Proof.
  assert (Ht : tidy swap) by (apply tidyb_ok; vm_compute; reflexivity).
  exists fsw, swap, swap_specs, swap', swap_ts, [T 0 20], (nd 1 "f" 9 [xin] None), 2, 3, (T 0 21), (T 0 22).
  split; [exact Ht|]. split; [eapply sorted_acyclic; [exact Ht|vm_compute; reflexivity]|]. split; [intros sp [<-|[]]; now exists 4|]. split; [vm_compute; reflexivity|]. split; [apply all_evb_ok; vm_compute; reflexivity|].
  split; [now left|]. split; [reflexivity|]. split; [exact (fold_outputs_exposed swap 1 Ht)|]. split; [apply (ev_ok _ swap _ 0 50); vm_compute; reflexivity|]. split; [apply (ev_ok _ swap _ 0 50); vm_compute; reflexivity|].
  split; [apply (ev_ok _ swap _ 0 50); vm_compute; reflexivity|]. exists (RNode 4 "o"), (RNode 1 "o"). do 2 eexists. exists (T 0 25), (T 0 26). split; [reflexivity|]. split; [vm_compute; reflexivity|].
  split; [apply (ev_ok _ swap _ 0 50); vm_compute; reflexivity|]. split; [apply (ev_ok _ swap' _ 0 50); vm_compute; reflexivity|discriminate].
Qed.
Definition outi' : graph := fst (fst (three outi outi_specs)).
Definition outi_subs : list (nat * graph) := snd (fst (three outi outi_specs)).
Definition outi_ts : list nat := snd (three outi outi_specs).
Lemma outi_refuted : exists (f f' : nat -> nat -> list (val nat) -> list (string * val nat) -> result (val nat)) g specs g' subs ts vs o o' v, tidy g /\ ~ cyclic g /\ g_folds g = [] /\ reduce_resolution idord idord g specs = Ok (g', subs, ts) /\
  all_values exs f g (positional g vs) 0 /\ tensor_arguments exs f g (positional g vs) 0 /\ with_subgraphs exs f g subs f' /\ g_outputs g = [o] /\ g_outputs g' = [o'] /\
  value exs f g (positional g vs) 0 o v /\ forall w, ~ value exs f' g' (positional g' vs) 0 o' w.
Proof.
  assert (Ht : tidy outi) by (apply tidyb_ok; vm_compute; reflexivity).
  exists fx, (fsub outi_subs), outi, outi_specs, outi', outi_subs, outi_ts, [T 0 20], (RAttr (RNode 2 "p") (AInt 0)), (RAttr (RNode 0 "subgraph_0") (AInt 0)), (T 0 21).
  split; [exact Ht|]. split; [eapply sorted_acyclic; [exact Ht|vm_compute; reflexivity]|]. split; [reflexivity|]. split; [vm_compute; reflexivity|]. split; [apply all_evb_ok; vm_compute; reflexivity|].
  split; [apply tensor_evb_ok; [exact Ht|vm_compute; reflexivity]|]. split; [|split; [reflexivity|split; [vm_compute; reflexivity|split; [apply (ev_ok fx outi _ 0 50); vm_compute; reflexivity|]]]].
  - apply fsub_ok.
    + apply nunique_ok. vm_compute. reflexivity.
    + intros t H K. vm_compute in H, K. destruct H as [<-|[]]; repeat (destruct K as [K|K]; [discriminate|]); exact K.
    + intros t sub H. vm_compute in H. destruct H as [H|[]]; injection H as <- <-; (split; [apply nunique_ok; reflexivity|]); (split; [apply nunique_ok; reflexivity|]); intros c vs Hv; apply tensors1 in Hv; destruct Hv as (d & n & ->); eexists; cbn; reflexivity.
  - intros w V. inversion V as [| |r a v w' Vr Av|]; subst. assert (v = T 0 21) as ->.
    { refine (value_det exs (fsub outi_subs) outi' _ 0 _ _ _ v Vr _ _); [apply nunique_ok; vm_compute; reflexivity|apply positional_functional; apply nunique_ok; vm_compute; reflexivity|].
      apply (ev_ok _ outi' _ 0 50). vm_compute. reflexivity. }
    inversion Av as [? ? ? E|]; subst. discriminate E.
Qed.

(** ** Restatements *)
Lemma same_values X U (s : semantics X U) f f' g g' specs subs ts c vs ord ord' : (forall l, Permutation (ord l) l) -> (forall l, Permutation (ord' l) l) -> tidy g ->
  reduce_resolution ord ord' g specs = Ok (g', subs, ts) -> folds_faithful s f g (positional g vs) c -> all_values s f g (positional g vs) c -> with_subgraphs s f g subs f' -> tuple_items s ->
  modules_only specs \/ flat_graph g /\ tensor_arguments s f g (positional g vs) c ->
  map fst (g_inputs g') = map fst (g_inputs g) /\ Forall2 (fun o o' => forall v, value s f g (positional g vs) c o v -> forall w, value s f' g' (positional g' vs) c o' w <-> w = v) (g_outputs g) (g_outputs g').
Proof.
  intros Ho Ho' Ht Red Ff Av Ws Ti K. assert (Ro := Red). destruct (reduce_value s f f' g g' specs subs ts c vs ord ord' Ho Ho' Ht Red Ff Av Ws Ti K) as (In_ & Ok_ & _ & F). split; [exact In_|].
  refine (Forall2_imp _ _ _ _ _ F). intros o o' H v V w. split; [|intros ->; now apply H]. intros W. refine (value_det s f' g' _ c Ok_ _ o' w W v (H v V)). clear -Ro. unfold reduce_resolution in Ro.
  assert (N : NoDup (map snd (g_inputs g'))).
  { destruct (resolve_all _ _ _ _ _ _) as [[[? ?] ?]|]; [|discriminate]. cbn [rbind] in Ro. destruct (coarse_complement _ _); [|discriminate]. cbn [rbind] in Ro. destruct (node_order _ _); [|discriminate]. cbn [rbind] in Ro.
    destruct (rfold (place g) _ _) as [[? ?]|]; [|discriminate]. cbn [rbind] in Ro. destruct (remap_args _ _ _ _); [|discriminate]. cbn [rbind] in Ro. destruct (existsb _ _) in Ro; [discriminate|]. destruct (rfold _ (combine _ _) _) in Ro; [|discriminate]. cbn [rbind] in Ro. injection Ro as <- _ _. cbn [g_inputs].
    assert (Ms : forall (l : list string) (l' : list nat), length l = length l' -> map snd (combine l l') = l') by (clear; induction l as [|? ? IH]; intros [|? ?] L; cbn; try discriminate; [reflexivity|f_equal; apply IH; now injection L]).
    rewrite Ms by now rewrite map_length, seq_length. apply seq_NoDup. }
  intros i v w (a & k & A1 & A2) (b & k' & B1 & B2). assert (a = b) as ->; [|congruence]. rewrite NoDup_nth_error in N. apply N; [rewrite map_length; apply nth_error_Some; congruence|]. rewrite !nth_error_map, A1, B1. reflexivity.
Qed.
Lemma run_values X U (s : semantics X U) f g c vs r v : value s f g (positional g vs) c r v <-> means s f g (fun i l => exists x, l = [x] /\ positional g vs i x) c r [v].
Proof.
  assert (E : forall i l, (exists x, l = [x] /\ positional g vs i x) <-> single (positional g vs) i l) by (intros; unfold single; reflexivity). split; intros H.
  - exact (value_means s f g _ c r v H).
  - destruct (means_value s f g _ c r [v] H) as (w & Ew & W). injection Ew as ->. exact W.
Qed.
