(** Examples for the theorems about building and calling graphs. *)
From Coq Require Import String Ascii Relations Permutation.
From Verif Require Import Prelude GraphModel GraphSpec GraphProofs EngineModel EngineSpec EngineExamples CoarseModel CoarseSpec CoarseValueProofs CoarseBaseProofs CoarseWitness BuildModel BuildSpec BuildProofs BuildTidyProofs BuildCallProofs.
Local Open Scope nat_scope.
Local Open Scope list_scope.

(** Example code with items of dictionaries, fields of named tuples and attributes of objects. *)
Definition b_item (v : val nat) (a : attr) : result (val nat) :=
  match v, a with
  | Tup _ l, AInt i | Lst l, AInt i => match nth_error l (Z.to_nat i) with Some x => Ok x | None => Err IndexError end
  | Dic l, AStr k => match aget String.eqb k l with Some x => Ok x | None => Err KeyError end
  | _, _ => Err TypeError
  end.
Definition b_getattr (v : val nat) (k : string) : result (val nat) :=
  match v with
  | Tup ns l => match aget String.eqb k (combine ns l) with Some x => Ok x | None => Err AttributeError end
  | Obj _ fs => match aget String.eqb k fs with Some x => Ok x | None => Err AttributeError end
  | _ => Err AttributeError
  end.
Definition bxs : semantics nat unit :=
  mkSem (fun i => Tensor 0 (100 + i)) b_item b_getattr (fun pl u c m a k => (ex_call c pl m a k, u)) (fun _ u _ _ _ => (Ok tt, u)) (fun m => m <? 10) (fun m => if m <? 10 then [("w"%string, m)] else []).
Definition b_text (t : string) : val nat := Obj 0 [(t, T 0 0)].
Definition b_iterate (x : nat) (fs : list (string * val nat)) : option (list (val nat)) := None.
Lemma bxs_plain : plain_items bxs.
Proof.
  split.
  - intros l k v N H. cbn. assert (E : aget String.eqb k l = Some v); [|now rewrite E]. induction l as [|[a b] l IH]; [destruct H|]. inversion N as [|? ? Na N']; subst. cbn. destruct (String.eqb_spec a k) as [->|Ne].
    + destruct H as [H|H]; [now injection H as ->|]. destruct Na. apply in_map_iff. now exists (k, v).
    + destruct H as [H|H]; [injection H as -> ->; contradiction|now apply IH].
  - intros nm l i v E. cbn. rewrite Nat2Z.id, E. auto.
Qed.
Lemma bxs_agree : attributes_agree bxs.
Proof. intros v k. destruct v; cbn; auto. destruct (aget String.eqb k l); [intros w' H; discriminate|auto]. Qed.
Lemma bxs_call u c m a k : True -> call bxs (fun _ => 0) u c m a k = (fx c m a k, u).
Proof. reflexivity. Qed.

(** ** Building *)
(** a subgraph of inputs a and b: m = module 1 of a; n = module 2 of m and b; outputs n and m *)
Definition in_a : ref := RInput 10 "a".
Definition in_b : ref := RInput 11 "b".
Definition s1 : graph := mkGraph [] [("a"%string, 10); ("b"%string, 11)] [] [].
Definition sub1 : graph := mkGraph [nd 20 "m" 1 [in_a] None; nd 21 "n" 2 [RNode 20 "m"; in_b] None] [("a"%string, 10); ("b"%string, 11)] [RNode 21 "n"; RNode 20 "m"] [].
(** the pair p of x and y *)
Definition yin : ref := RInput 1 "y".
Definition g1 : graph := mkGraph [nd 2 "p" 11 [xin; yin] None] [("x"%string, 0); ("y"%string, 1)] [] [].
Definition args1 : list ref := [RAttr (RNode 2 "p") (AInt 1)].
Definition kw1 : list (string * ref) := [("b"%string, xin)].
Definition g2 : graph := fst (add_subgraph g1 5 "s" sub1 args1 kw1 (Some 3)).
Definition outs2 : list ref := [RNode 21 "s.n"; RNode 20 "s.m"].
Lemma g2_eq : add_subgraph g1 5 "s" sub1 args1 kw1 (Some 3) = (g2, Ok outs2).
Proof. reflexivity. Qed.
Lemma sub1_built : built sub1 [RNode 21 "n"; RNode 20 "m"; in_b; in_a].
Proof.
  refine (built_output (mkGraph (g_nodes sub1) (g_inputs sub1) [] []) _ [RNode 21 "n"; RNode 20 "m"] _ _ eq_refl _).
  - refine (built_node (mkGraph [nd 20 "m" 1 [in_a] None] (g_inputs sub1) [] []) [RNode 20 "m"; in_b; in_a] (nd 21 "n" 2 [RNode 20 "m"; in_b] None) _ _ eq_refl _ eq_refl _).
    + refine (built_node s1 [in_b; in_a] (nd 20 "m" 1 [in_a] None) _ _ eq_refl _ eq_refl _).
      * refine (built_input (mkGraph [] [("a"%string, 10)] [] []) [in_a] "b" 11 _ _ eq_refl _ _); [refine (built_input _ [] "a" 10 _ built_empty eq_refl _ _)| |].
        -- intros [].
        -- split; [intros []|now apply no_char_ok].
        -- cbn. intros [H|[]]. discriminate.
        -- split; [cbn; intros [H|[]]; discriminate|now apply no_char_ok].
      * intros r [<-|[]]. apply made_handle. cbn. auto.
      * split; [cbn; intros [H|[H|[]]]; discriminate|now apply no_char_ok].
    + intros r [<-|[<-|[]]]; apply made_handle; cbn; auto.
    + split; [cbn; intros [H|[H|[H|[]]]]; discriminate|now apply no_char_ok].
  - intros r [<-|[<-|[]]]; apply made_handle; cbn; auto.
Qed.
Lemma g1_built : built g1 [RNode 2 "p"; yin; xin].
Proof.
  refine (built_node (mkGraph [] (g_inputs g1) [] []) [yin; xin] (nd 2 "p" 11 [xin; yin] None) _ _ eq_refl _ eq_refl _).
  - refine (built_input (mkGraph [] [("x"%string, 0)] [] []) [xin] "y" 1 _ _ eq_refl _ _); [refine (built_input _ [] "x" 0 _ built_empty eq_refl _ _)| |].
    + intros [].
    + split; [intros []|now apply no_char_ok].
    + cbn. intros [H|[]]. discriminate.
    + split; [cbn; intros [H|[]]; discriminate|now apply no_char_ok].
  - intros r [<-|[<-|[]]]; apply made_handle; cbn; auto.
  - split; [cbn; intros [H|[H|[]]]; discriminate|now apply no_char_ok].
Qed.
Lemma g2_built : built g2 (outs2 ++ [RNode 2 "p"; yin; xin]).
Proof.
  refine (built_subgraph g1 _ sub1 _ 5 "s" args1 kw1 (Some 3) g2 outs2 g1_built sub1_built g2_eq _ _ _ _ _ _ _ _).
  - cbn. intros r [<-|[<-|[]]]; [apply made_attr|]; apply made_handle; cbn; auto.
  - cbn. repeat constructor. intros [].
  - cbn. intros [H|[]]. discriminate.
  - cbn. intros [H|[H|[]]]; discriminate.
  - discriminate.
  - now apply no_char_ok.
  - intros _. cbn. intros [H|[H|[H|[]]]]; discriminate.
  - intros n [<-|[<-|[]]]; cbn; intros [H|[H|[H|[]]]]; discriminate.
Qed.
Definition b_vals (x y : nat) : list (val nat) := [T 0 y; T 0 x].
Lemma g1_arguments c x y : argument_values exs fx g1 (positional g1 [T 0 x; T 0 y]) c (map fst (g_inputs sub1)) args1 kw1 (b_vals x y).
Proof.
  constructor; [|constructor; [|constructor]].
  - exists (RAttr (RNode 2 "p") (AInt 1)). split; [left; now exists 0|]. apply (ev_ok fx g1 [T 0 x; T 0 y] c 5); reflexivity.
  - exists xin. split; [right; now left|]. apply (ev_ok fx g1 [T 0 x; T 0 y] c 5); reflexivity.
Qed.
Lemma sub1_values c x y : Forall2 (value exs fx sub1 (positional sub1 (b_vals x y)) c) (g_outputs sub1) [T 0 (2 + (1 + (y + 0) + (x + 0))); T 0 (1 + (y + 0))].
Proof. constructor; [|constructor; [|constructor]]; apply (ev_ok fx sub1 (b_vals x y) c 5); reflexivity. Qed.

(** the same subgraph twice: rejected, but only after the new fold was added *)
Definition g3 : graph := fst (add_subgraph g2 6 "t" sub1 args1 kw1 (Some 3)).
Lemma twice_refuted :
  tidy g2 /\ tidy sub1 /\ g_outputs sub1 <> [] /\ call_ok (map fst (g_inputs sub1)) args1 kw1 /\
  add_subgraph g2 6 "t" sub1 args1 kw1 (Some 3) = (g3, Err ValueError) /\ In (mkNode 6 "t" 3 args1 TorchModule kw1 None None) (g_nodes g3) /\ In 6 (g_folds g3) /\ g3 <> g2.
Proof.
  split; [exact (proj1 (built_invariant _ _ g2_built))|]. split; [exact (proj1 (built_invariant _ _ sub1_built))|]. split; [discriminate|]. split.
  - split; [cbn; lia|]. split; [intros k v [H|[]]; injection H as <- <-; exists 1; cbn; auto|]. intros [|[|i]] n E L; cbn in *; try lia; try (destruct i; discriminate). injection E as <-. exists xin. now left.
  - split; [reflexivity|]. split; [cbn; auto 8|]. split; [cbn; auto|]. intros E. apply (f_equal g_folds) in E. discriminate.
Qed.

(** two nodes of the same name: accepted, and then coarsening mixes them up *)
Definition dup : graph := mkGraph [nd 2 "a" 1 [xin] None; nd 3 "a" 2 [xin] None; nd 4 "o" 8 [RNode 2 "a"; RNode 3 "a"] None] [("x"%string, 0)] [RNode 4 "o"] [].
Definition dup_specs : list subgraph_spec := [mkSpec (RModule 8) dg].
Lemma dup_refuted :
  (exists ga gb gc, add_input (mkGraph [] [] [] []) "x" 0 = Ok ga /\ rfold add_node (g_nodes dup) ga = Ok gb /\ add_output gb [RNode 4 "o"] = (gc, Ok tt) /\ gc = dup) /\
  exists g' subs ts, reduce_resolution idord idord dup dup_specs = Ok (g', subs, ts) /\
    (forall c x, value exs fx dup (positional dup [T 0 x]) c (RNode 4 "o") (T 0 (8 + (1 + (x + 0)) + ((2 + (x + 0)) + 0)))) /\
    exists o, g_outputs g' = [o] /\ forall c x, value exs (fsub subs) g' (positional g' [T 0 x]) c o (T 0 (8 + (2 + (x + 0)) + ((2 + (x + 0)) + 0))).
Proof.
  split; [exists (mkGraph [] [("x"%string, 0)] [] []), (mkGraph (g_nodes dup) [("x"%string, 0)] [] []), dup; repeat split; reflexivity|].
  set (r := reduce_resolution idord idord dup dup_specs). vm_compute in r. subst r. do 3 eexists. split; [reflexivity|]. split.
  - intros c x. apply (ev_ok fx dup [T 0 x] c 5); reflexivity.
  - eexists. split; [reflexivity|]. intros c x. apply (ev_ok _ _ [T 0 x] c 8); reflexivity.
Qed.

(** ** Calling *)
(** the pair of x and y *)
Definition gp : graph := mkGraph [nd 2 "p" 11 [xin; yin] None] [("x"%string, 0); ("y"%string, 1)] [RNode 2 "p"] [].
Definition dict_batches : given (X:=nat) := GLoader [Dic [("y"%string, T 0 1); ("x"%string, T 0 2)]; Dic [("x"%string, T 0 3); ("z"%string, T 0 9); ("y"%string, T 0 4)]].
Definition w0 : world unit := mkWorld (fun _ => 0) tt.
Lemma gp_ok : graph_ok gp /\ refs_usable gp /\ g_outputs gp <> [] /\ NoDup (map fst (g_inputs gp)) /\ NoDup (map snd (g_inputs gp)).
Proof.
  split; [repeat constructor; intros []|]. split; [split|].
  - intros n r [<-|[]] _ [<-|[<-|[]]]; right; (split; [cbn; auto|intros []]).
  - intros o [<-|[]]. exists 2. split; [constructor|]. split; [cbn; auto|intros []].
  - split; [discriminate|]. split; [apply sunique_ok|apply nunique_ok]; reflexivity.
Qed.
Lemma dict_batches_ok :
  exists b1 b2, iterable b_iterate dict_batches [b1; b2] /\ Forall2 (batch_of bxs (map fst (g_inputs gp))) [b1; b2] [[T 0 2; T 0 1]; [T 0 3; T 0 4]] /\ (forall b, In b [b2] -> same_shape b1 b) /\
  snd (snd (forward bxs b_text b_iterate idord (mkGm gp None) [dict_batches] [] w0)) = Ok (PerContext [(0, Single [Tup [] [T 0 2; T 0 1]; Tup [] [T 0 3; T 0 4]])]).
Proof.
  do 2 eexists. split; [apply it_loader|]. split; [|split; [|reflexivity]].
  - constructor; [|constructor; [|constructor]]; (constructor; [apply sunique_ok; reflexivity|]); (constructor; [cbn; auto|constructor; [cbn; auto|constructor]]).
  - intros b [<-|[]]. exact I.
Qed.
Lemma values_ok :
  Forall2 (fun n v => tensor v /\ bound (map fst (g_inputs gp)) [GValue (T 0 5)] [("y"%string, GValue (T 0 6))] n (GValue v)) (map fst (g_inputs gp)) [T 0 5; T 0 6] /\
  call_ok (map fst (g_inputs gp)) [GValue (T 0 5)] [("y"%string, GValue (T 0 6))] /\
  snd (snd (forward bxs b_text b_iterate idord (mkGm gp None) [GValue (T 0 5)] [("y"%string, GValue (T 0 6))] w0)) = Ok (One (Tup [] [T 0 5; T 0 6])).
Proof.
  split; [|split; [|reflexivity]].
  - constructor; [|constructor; [|constructor]]; (split; [do 2 eexists; reflexivity|]); [left; now exists 0|right; now left].
  - split; [cbn; lia|]. split; [intros k v [H|[]]; injection H as <- <-; exists 1; cbn; auto|]. intros [|[|i]] n E L; cbn in *; try lia; try (destruct i; discriminate). injection E as <-. eexists. now left.
Qed.
(** named tuples are bound by position, not by their fields *)
Definition swapped : val nat := Tup ["y"%string; "x"%string] [T 0 1; T 0 2].
Lemma namedtuple_refuted :
  getattr bxs swapped "x" = Ok (T 0 2) /\ getattr bxs swapped "y" = Ok (T 0 1) /\
  snd (snd (forward bxs b_text b_iterate idord (mkGm gp None) [GValue (Lst [swapped])] [] w0)) = Ok (One (Tup [] [T 0 1; T 0 2])).
Proof. repeat split. Qed.
(** one input: a tuple given as its value is taken for several batches *)
Definition gt : graph := mkGraph [nd 2 "p" 11 [xin] None] [("x"%string, 0)] [RNode 2 "p"] [].
Definition a_pair : val nat := Tup [] [T 0 1; T 0 2].
Lemma tuple_value_refuted :
  graph_output bxs fx gt [a_pair] (Tup [] [a_pair]) /\
  snd (snd (forward bxs b_text b_iterate idord (mkGm gt None) [GValue a_pair] [] w0)) = Ok (PerContext [(0, Single [Tup [] [T 0 1]; Tup [] [T 0 2]])]) /\
  snd (snd (forward bxs b_text b_iterate idord (mkGm gt None) [] [("x"%string, GValue a_pair)] w0)) = Ok (One (Tup [] [a_pair])).
Proof.
  split; [|split; reflexivity]. exists [Tup [] [a_pair]]. split; [|reflexivity]. constructor; [|constructor]. apply (v_node bxs fx gt _ 0 (nd 2 "p" 11 [xin] None) "p" [a_pair] [] (Tup [] [a_pair])); [now left| |constructor|reflexivity].
  constructor; [|constructor]. apply v_input. exists 0, "x"%string. auto.
Qed.
(** only the first batch is looked at: the third value of the second is dropped *)
Lemma uneven_refuted :
  ~ (exists vs, batch_of bxs (map fst (g_inputs gp)) (Tup [] [T 0 3; T 0 4; T 0 5]) vs) /\
  snd (snd (forward bxs b_text b_iterate idord (mkGm gp None) [GValue (Lst [Tup [] [T 0 1; T 0 2]; Tup [] [T 0 3; T 0 4; T 0 5]])] [] w0)) = Ok (PerContext [(0, Single [Tup [] [T 0 1; T 0 2]; Tup [] [T 0 3; T 0 4]])]).
Proof. split; [|reflexivity]. intros (vs & H). inversion H as [|? ? L| |]; subst. discriminate. Qed.

(** ** The program kept *)
Definition nodes_ops : list (operation nat) := [AddInput "x" 0; AddNode (nd 2 "a" 1 [xin] None); AddOutput [RNode 2 "a"]; Forward [GValue (T 0 7)] []; AddNode (nd 3 "b" 2 [RNode 2 "a"] None)].
Definition empty_module : gmodule nat := mkGm (mkGraph [] [] [] []) None.
(** an output added after a call is not returned, an input added after a call is not accepted *)
Lemma stale_refuted :
  let ops := [AddInput "x" 0; AddNode (nd 2 "a" 1 [xin] None); AddNode (nd 3 "b" 2 [RNode 2 "a"] None); AddOutput [RNode 2 "a"]; Forward [GValue (T 0 7)] []; AddOutput [RNode 3 "b"]; AddInput "y" 1] in
  exists m, steps bxs b_text b_iterate idord ops empty_module w0 = (m, w0) /\ g_outputs (m_graph m) = [RNode 2 "a"; RNode 3 "b"] /\ map fst (g_inputs (m_graph m)) = ["x"%string; "y"%string] /\
    snd (snd (forward bxs b_text b_iterate idord m [GValue (T 0 7)] [] w0)) = Ok (One (T 0 8)) /\
    snd (snd (forward bxs b_text b_iterate idord m [GValue (T 0 7); GValue (T 0 1)] [] w0)) = Err TypeError /\
    snd (snd (forward bxs b_text b_iterate idord (mkGm (m_graph m) None) [GValue (T 0 7); GValue (T 0 1)] [] w0)) = Ok (One (Tup [] [T 0 8; T 0 10])).
Proof. cbv zeta. eexists. split; [reflexivity|]. repeat split; reflexivity. Qed.
Lemma nodes_ops_ok : ends_first nodes_ops.
Proof.
  intros l1 a l2 b l3 E Ha Hb. destruct l1 as [|? l1]; [injection E as <- E; destruct Ha|]. injection E as _ E. destruct l1 as [|? l1]; [injection E as <- E; destruct Ha|]. injection E as _ E. destruct l1 as [|? l1]; [injection E as <- E; destruct Ha|]. injection E as _ E.
  destruct l1 as [|? l1]; injection E as <- E.
  - destruct l2 as [|? l2]; injection E as <- E; [destruct Hb|destruct l2; discriminate].
  - destruct l1 as [|? l1]; injection E as <- E; [destruct Ha|destruct l1; discriminate].
Qed.
