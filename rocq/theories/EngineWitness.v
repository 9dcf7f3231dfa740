(** Restatements for the theorems about the instruction engine, and the examples beside them. *)
From Coq Require Import String Ascii Permutation Relations.
From Verif Require Import Prelude GraphModel GraphSpec GraphProofs EngineModel EngineSpec EngineBaseProofs EngineLifeProofs EngineOptProofs
  EngineInputProofs EngineContextProofs EngineSchedProofs EngineTopProofs EngineOffloadProofs EngineSameProofs EngineDeviceProofs EngineExamples.
Local Open Scope nat_scope.
Local Open Scope list_scope.

Lemma scheduled_contexts X U (s : semantics X U) order g p : graph_ok g -> (forall l, Permutation (order l) l) -> schedule s order g = Ok p ->
  forall n, In n (g_nodes g) -> is_leaf g (n_id n) ->
    exists cs, In (CallModule (n_target n) (n_args n) (n_kwargs n) (RNode (n_id n) (n_name n)) cs) (p_instrs p) /\
      forall c, In c cs <-> wanted g c (n_id n).
Proof.
  intros G Po Sc n Hn Hl. destruct (schedule_ok s order g p G Sc) as (nodes & -> & Nd & Hin & Ord). cbn [p_instrs].
  exists (order (cx_of (propagate_contexts g nodes) (n_id n))). split.
  - unfold schedule_nodes. apply in_app_iff. left. apply in_flat_map. exists n. split; [apply Hin; now split|]. unfold schedule_node.
    rewrite !in_app_iff. right. right. right. left. reflexivity.
  - intros c. rewrite <- (contexts_wanted g nodes G Hin Nd Ord). split; intros H.
    + exact (Permutation_in _ (Po _) H).
    + exact (Permutation_in _ (Permutation_sym (Po _)) H).
Qed.

Lemma with_deletes_at {X} (ds : nat -> list ref) : forall (is : list (instr X)) k is1 ts is2,
  (forall i, In i is -> match i with DeleteRegisterEntries _ => False | _ => True end) ->
  with_deletes ds k is = is1 ++ DeleteRegisterEntries ts :: is2 ->
  exists j i is0, nth_error is j = Some i /\ ts = ds (k + j) /\ is1 = is0 ++ [i] /\ is2 = with_deletes ds (S (k + j)) (skipn (S j) is).
Proof.
  induction is as [|i is IH]; intros k is1 ts is2 N E; [destruct is1; discriminate|].
  rewrite with_deletes_cons in E.
  assert (Ni : match i with DeleteRegisterEntries _ => False | _ => True end) by (apply N; now left).
  assert (N' : forall i, In i is -> match i with DeleteRegisterEntries _ => False | _ => True end) by (intros x Hx; apply N; now right).
  destruct is1 as [|a is1]; [injection E as -> _; contradiction|]. injection E as <- E.
  destruct (ds k) as [|t l] eqn:D.
  - cbn [app] in E. destruct (IH (S k) is1 ts is2 N' E) as (j & i' & is0 & H1 & H2 & H3 & H4).
    exists (S j), i', (i :: is0). split; [exact H1|]. split; [now rewrite Nat.add_succ_r|]. split; [now rewrite H3|].
    rewrite Nat.add_succ_r. exact H4.
  - cbn [app] in E. destruct is1 as [|b is1].
    + injection E as <- <-. exists 0, i, []. rewrite Nat.add_0_r, D. repeat (split; [reflexivity|]). reflexivity.
    + injection E as <- E. destruct (IH (S k) is1 ts is2 N' E) as (j & i' & is0 & H1 & H2 & H3 & H4).
      exists (S j), i', (i :: DeleteRegisterEntries (t :: l) :: is0). split; [exact H1|]. split; [now rewrite Nat.add_succ_r|]. split; [now rewrite H3|].
      rewrite Nat.add_succ_r. exact H4.
Qed.
Lemma with_deletes_in {X} (ds : nat -> list ref) : forall (is : list (instr X)) k i, In i (with_deletes ds k is) ->
  In i is \/ exists ts, i = DeleteRegisterEntries ts.
Proof.
  induction is as [|a is IH]; intros k i H; [destruct H|]. rewrite with_deletes_cons in H. destruct H as [<-|H]; [left; now left|].
  apply in_app_iff in H. destruct H as [H|H].
  - destruct (ds k) as [|t l]; [destruct H|]. destruct H as [<-|[]]. right. eauto.
  - destruct (IH _ _ H) as [H'|H']; [left; now right|now right].
Qed.
Lemma skipn_nth {A} (l : list A) : forall n x, In x (skipn n l) -> exists j, n <= j /\ nth_error l j = Some x.
Proof.
  induction l as [|a l IH]; intros n x H; [destruct n; destruct H|]. destruct n as [|n].
  - apply In_nth_error in H. destruct H as (j & H). exists j. split; [lia|exact H].
  - cbn [skipn] in H. destruct (IH _ _ H) as (j & H1 & H2). exists (S j). split; [lia|exact H2].
Qed.
Lemma deleted_at_once X (is : list (instr X)) is1 ts is2 : lifetime_management_pass is = is1 ++ DeleteRegisterEntries ts :: is2 ->
  (forall i, In i is -> match i with DeleteRegisterEntries _ => False | _ => True end) ->
  forall t, In t ts -> ~ mentioned is2 t /\ exists is0 i, is1 = is0 ++ [i] /\ mentioned [i] t.
Proof.
  intros E N t Ht. rewrite lifetime_with in E. destruct (with_deletes_at _ is 0 is1 ts is2 N E) as (j & i & is0 & Hi & -> & -> & ->).
  cbn [Nat.add] in *. assert (R : rmem t (to_delete is j) = true) by now apply rmem_self. apply to_delete_in in R. destruct R as [[(i' & Hi' & Mi) L] _].
  rewrite Hi in Hi'. injection Hi' as <-. split.
  - intros M. apply mentioned_rmem in M. destruct M as (i' & H & Mi'). apply with_deletes_in in H. destruct H as [H|(ts' & ->)]; [|discriminate].
    apply skipn_nth in H. destruct H as (l & Hl & Hn). rewrite (L l i' Hl Hn) in Mi'. discriminate.
  - exists is0, i. split; [reflexivity|]. apply mentioned_rmem. exists i. split; [now left|exact Mi].
Qed.

Lemma same_bundles X U (s : semantics X U) order p args kwargs u pl w' g o :
    (forall l, Permutation (order l) l) -> calls_pure s -> plain_program (p_instrs p) ->
    (forall m a k t cs, In (CallModule m a k t cs) (p_instrs p) -> NoDup cs) ->
    NoDup (map fst (p_inputs p)) -> NoDup (map snd (p_inputs p)) -> NoDup (map fst kwargs) ->
    (exists m a k d c, In (OptimizeModule m a k d) (p_instrs p) /\ In c (d_contexts d)) ->
    run (traced false s) order p args kwargs (mkWorld pl (u, [])) = (w', Ok (g, o)) ->
    exists g', run (traced false s) order (mkProgram (optimization_only_pass (p_instrs p)) (p_inputs p)) args kwargs (mkWorld pl (u, [])) = (w', Ok (g', None)).
Proof.
  intros Po Pure. apply (opt_only_run (traced false s)); [exact Po|]. intros pl' [u' l] c m a k. cbn.
  pose proof (Pure pl' u' c m a k) as H. destruct (call s pl' u' c m a k) as [r u2]. cbn in *. now subst.
Qed.

Lemma offload_same_results X U (s : semantics X U) order is inputs compute storage g args kwargs w :
    device_blind s -> orderly_program is ->
    let before := run s order (mkProgram is inputs) args kwargs w in
    let after := run s order (mkProgram (offloading_pass s is compute storage g (w_place w)) inputs) args kwargs w in
    w_user (fst after) = w_user (fst before) /\
    same_result (fun x y => same_output (snd x) (snd y)) (snd before) (snd after).
Proof.
  intros B O. cbn zeta. pose proof (offload_run s B order is inputs compute storage g args kwargs w O) as [H1 H2]. cbn zeta in H1, H2. split; [now symmetry|].
  destruct (snd (run s order (mkProgram is inputs) args kwargs w)) as [[]|], (snd (run s order (mkProgram _ inputs) args kwargs w)) as [[]|]; cbn in *; try exact H2; now destruct H2.
Qed.

Lemma gathered X U (s : semantics X U) g c args kwargs b : gather s g c args kwargs = Ok b ->
  exists ds ks b', Forall2 (fun r d => dataset_of s g c r = Ok d) args ds /\ Forall2 (fun r d => dataset_of s g c r = Ok d) (map snd kwargs) ks /\
    broadcast (ds ++ ks) = Ok b' /\ b = mkBundle (firstn (length ds) b') (combine (map fst kwargs) (skipn (length ds) b')).
Proof.
  unfold gather. intros H. destruct (rmapM _ args) as [a|] eqn:E1; [|discriminate]. cbn [rbind] in H.
  destruct (rmapM _ kwargs) as [k|] eqn:E2; [|discriminate]. cbn [rbind] in H. destruct (broadcast (a ++ k)) as [b'|] eqn:E3; [|discriminate].
  cbn [rbind] in H. injection H as <-. exists a, k, b'. split; [now apply rmapM_inv|]. split; [|split; [exact E3|reflexivity]].
  apply rmapM_inv in E2. clear -E2. induction E2; constructor; assumption.
Qed.
Lemma gathered_batches X U (s : semantics X U) g c args kwargs b i :
    gather s g c args kwargs = Ok b -> i < bundle_len b ->
    exists ds ks xs ys,
      Forall2 (fun r d => dataset_of s g c r = Ok d) args ds /\ Forall2 (fun r d => dataset_of s g c r = Ok d) (map snd kwargs) ks /\
      batch b i = Ok (xs, combine (map fst kwargs) ys) /\
      Forall2 (fun d x => element d i x) ds xs /\ Forall2 (fun d x => element d i x) ks ys.
Proof.
  intros H L. destruct (gathered _ _ _ _ _ _ _ _ H) as (ds & ks & b' & F1 & F2 & B & ->).
  assert (Lk : length (map fst kwargs) = length ks). { apply Forall2_length in F2. rewrite map_length in *. exact F2. }
  destruct (batch_ok ds ks (map fst kwargs) b' i Lk B L) as (xs & ys & E & G1 & G2). exists ds, ks, xs, ys. auto.
Qed.
Lemma gathered_length X U (s : semantics X U) g c args kwargs b : gather s g c args kwargs = Ok b -> args ++ map snd kwargs <> [] ->
    exists r d, In r (args ++ map snd kwargs) /\ dataset_of s g c r = Ok d /\ length d = bundle_len b /\
      forall r' d', In r' (args ++ map snd kwargs) -> dataset_of s g c r' = Ok d' -> length d' = 1 \/ length d' = bundle_len b.
Proof.
  intros H Ne. destruct (gathered _ _ _ _ _ _ _ _ H) as (ds & ks & b' & F1 & F2 & B & ->).
  destruct (broadcast_inv _ _ B) as (N & Ex & F).
  assert (Fa : Forall2 (fun r d => dataset_of s g c r = Ok d) (args ++ map snd kwargs) (ds ++ ks)) by now apply Forall2_app.
  assert (Ne' : ds ++ ks <> []). { intros E. rewrite E in Fa. inversion Fa as [E'|]. now rewrite <- E' in Ne. }
  destruct (Ex Ne') as (d & Hd & Ld).
  assert (Lb : bundle_len (mkBundle (firstn (length ds) b') (combine (map fst kwargs) (skipn (length ds) b'))) = N).
  { assert (Lb' := Forall2_length _ _ _ F). rewrite app_length in Lb'. unfold bundle_len. cbn [b_args b_kwargs].
    assert (A : forall d', In d' b' -> length d' = N). { intros d' Hd'. destruct (f2_in_r _ _ _ F _ Hd') as (x & _ & Q & _). exact Q. }
    destruct ds as [|d0 ds].
    - cbn [length firstn skipn app] in *. assert (Lk := Forall2_length _ _ _ F2). rewrite map_length in Lk.
      destruct b' as [|x b'']; [destruct ks; [now destruct Ne'|discriminate]|]. destruct kwargs as [|[n r] kw]; [destruct ks; discriminate|]. cbn. apply A. now left.
    - destruct b' as [|x b'']; [discriminate|]. cbn [length firstn]. apply A. now left. }
  rewrite Lb. destruct (f2_in_r _ _ _ Fa _ Hd) as (r & Hr & Er). exists r, d. split; [exact Hr|]. split; [exact Er|]. split; [exact Ld|].
  intros r' d' Hr' Er'. clear -Fa F Hr' Er'. revert b' F. induction Fa as [|r0 d0 l l' E0 Fa IH]; intros b' F; [destruct Hr'|].
  inversion F as [|? b0 ? b'' Q F']; subst. destruct Hr' as [<-|Hr']; [|exact (IH Hr' b'' F')].
  rewrite E0 in Er'. injection Er' as <-. destruct Q as [Q1 [->|(a & -> & _)]]; [now right|now left].
Qed.

(** Examples. *)
Definition ex_program : program := match schedule exs idord ex_graph with Ok p => p | Err _ => mkProgram [] [] end.
Ltac nodup := repeat (constructor; [cbn; intuition discriminate|]); constructor.
Ltac vm := vm_compute; reflexivity.

Definition const_item_graph : graph := mkGraph [tnode 1 10 [RAttr (RConst 7) (AInt 0)] [] None] [] [nrf 1] [].
Lemma const_item : graph_ok const_item_graph /\
  exists p, schedule exs idord const_item_graph = Ok p /\ snd (run exs idord p [] [] (mkWorld (fun _ => 0) tt)) = Err OutOfMemory.
Proof. split; [unfold graph_ok; cbn; nodup|]. eexists. split; vm. Qed.

Definition dead_graph : graph :=
  mkGraph [tnode 1 11 [xin; xin] [] None; tnode 2 10 [RAttr (RAttr (nrf 1) (AInt 0)) (AInt 1)] [] None; tnode 3 1 [xin] [] None] [("x"%string, 0)] [nrf 3] [].
Lemma dead_node : graph_ok dead_graph /\
  exists p, schedule exs idord dead_graph = Ok p /\
    snd (run exs idord p [GValue (T 0 4)] [] (mkWorld (fun _ => 0) tt)) = Err KeyError /\
    means exs (fun c => ex_call c (fun _ => 0)) dead_graph (given_inputs dead_graph [GValue (T 0 4)] []) 0 (nrf 3) [T 0 5].
Proof.
  split; [unfold graph_ok; cbn; nodup|]. eexists. split; [vm|]. split; [vm|].
  apply (means_node _ _ _ _ _ (tnode 3 1 [xin] [] None) _ [[T 0 4]] [] [T 0 5]).
  - right. right. now left.
  - repeat constructor. exists "x"%string, (GValue (T 0 4)). split; [now left|]. split; [|reflexivity]. left. exists 0. split; reflexivity.
  - constructor.
  - apply (applied_batches _ _ _ [[T 0 4]] [] 1); [split; [intros d [<-|[]]; now left|exists [T 0 4]; split; [now left|reflexivity]]|reflexivity|].
    intros i v Hi. destruct i as [|[|i]]; [|discriminate|discriminate]. injection Hi as <-. exists [T 0 4], []. split; [repeat constructor; now left|]. split; [constructor|]. reflexivity.
Qed.

Lemma ex_graph_ok : graph_ok ex_graph.
Proof. unfold graph_ok. cbn. nodup. Qed.
Lemma ex_graph_usable : refs_usable ex_graph.
Proof.
  assert (L : forall x, In x [1; 2; 3] -> is_leaf ex_graph x).
  { intros x Hx. split; [|intros []]. unfold node_in. cbn. destruct Hx as [<-|[<-|[<-|[]]]]; auto. }
  assert (W3 : wanted ex_graph 0 3). { apply (want_output _ (nrf 3)); [now left|]. constructor. }
  split.
  - intros n r Hn _ Hr. cbn in Hn. destruct Hn as [<-|[<-|[<-|[]]]]; cbn in Hr;
      repeat (destruct Hr as [<-|Hr]; [|]); try contradiction; try (left; now eexists); right; (split; [|cbn; intros []]); unfold available; cbn; try (left; reflexivity);
      apply L; cbn; auto.
  - intros o [<-|[<-|[]]]; eexists; (split; [constructor|]); apply L; cbn; auto.
Qed.
Lemma run_example :
  (forall u c m a k, call exs (fun _ => 0) u c m a k = (ex_call c (fun _ => 0) m a k, u)) /\
  graph_ok ex_graph /\ refs_usable ex_graph /\
  exists p g w, schedule exs idord ex_graph = Ok p /\
    run (traced false exs) idord p [GDataset [T 0 1; T 0 2]] [] (mkWorld (fun _ => 0) (tt, [])) =
      (w, Ok (g, Some [(0, Multi [[T 0 112; T 0 2]; [T 0 114; T 0 3]]); (5, Single [T 0 2; T 0 3])])) /\
    snd (w_user w) = [Optimized 40 2 (let b := mkBundle [[T 0 2; T 0 3]; [T 0 107; T 0 107]] [("k"%string, [T 0 1; T 0 2])] in [b; b])].
Proof.
  split; [reflexivity|]. split; [exact ex_graph_ok|]. split; [exact ex_graph_usable|]. exists ex_program. eexists. eexists. split; [vm|]. split; [vm_compute; reflexivity|vm].
Qed.
Lemma returns_last_snoc {X} (is : list (instr X)) i : (forall x, In x is -> ~ is_return x) -> returns_last (is ++ [i]).
Proof.
  intros H l1 x l2 E R. destruct l2 as [|b l2] using rev_ind; [reflexivity|]. exfalso.
  rewrite app_comm_cons, app_assoc in E. apply app_inj_tail in E. destruct E as [E _]. apply (H x); [|exact R]. rewrite E. apply in_app_iff. right. now left.
Qed.
Lemma ex_program_eq : ex_program = mkProgram (firstn 6 (p_instrs ex_program) ++ [ReturnOutputs [nrf 3; nrf 1]]) [("x"%string, 0)].
Proof. vm. Qed.
Lemma ex_returns_last : returns_last (p_instrs ex_program).
Proof.
  rewrite ex_program_eq. cbn [p_instrs]. apply returns_last_snoc. intros x Hx. vm_compute in Hx.
  repeat (destruct Hx as [<-|Hx]; [intros []|]). destruct Hx.
Qed.
Lemma lifetime_example :
  returns_last (p_instrs ex_program) /\
  exists w g1 g2 o, run exs idord ex_program [GDataset [T 0 1; T 0 2]] [] (mkWorld (fun _ => 0) tt) = (w, Ok (g1, o)) /\
    run exs idord (mkProgram (lifetime_management_pass (p_instrs ex_program)) (p_inputs ex_program)) [GDataset [T 0 1; T 0 2]] [] (mkWorld (fun _ => 0) tt) = (w, Ok (g2, o)) /\
    map fst g1 = [xin; nrf 1; nrf 2; RAttr (nrf 2) (AInt 0); RConst 7; nrf 3] /\ map fst g2 = [nrf 1; nrf 3].
Proof. split; [exact ex_returns_last|]. eexists. eexists. eexists. eexists. split; [vm|]. split; [vm|]. split; vm. Qed.

Lemma stored_value :
  exists (is : list (instr nat)) w g, snd (run_instructions exs is (mkWorld (fun _ => 0) tt) []) = Ok (g, None) /\
    run_instructions exs (optimization_only_pass is) (mkWorld (fun _ => 0) tt) [] = (w, Err KeyError).
Proof.
  exists [StoreValue (nrf 1) (Data [T 0 1]) [0]; OptimizeModule 2 [nrf 1] [] (mkDelegate 40 [0])]. eexists. eexists. split; vm.
Qed.
(** Calls return how many calls were made before. *)
Definition counting : semantics nat nat :=
  mkSem (fun i => T 0 i) ex_item (fun _ _ => Err AttributeError) (fun _ u _ _ _ _ => (Ok (T 0 u), S u)) (fun _ u _ _ _ => (Ok tt, u)) (fun m => m <? 10) (fun _ => []).
Lemma side_effects :
  exists (is : list (instr nat)) w w' g g',
    run_instructions (traced false counting) is (mkWorld (fun _ => 0) (0, [])) [] = (w, Ok (g, None)) /\
    run_instructions (traced false counting) (optimization_only_pass is) (mkWorld (fun _ => 0) (0, [])) [] = (w', Ok (g', None)) /\
    snd (w_user w) = [Optimized 40 2 [mkBundle [[T 0 1]] []]] /\ snd (w_user w') = [Optimized 40 2 [mkBundle [[T 0 0]] []]].
Proof.
  exists [CallModule 1 [] [] (nrf 1) [0]; CallModule 3 [] [] (nrf 2) [0]; OptimizeModule 2 [nrf 2] [] (mkDelegate 40 [0])].
  eexists. eexists. eexists. eexists. split; [vm|]. split; [vm|]. split; vm.
Qed.
Lemma opt_only_example :
  calls_pure exs /\ plain_program (p_instrs ex_program) /\
  optimization_only_pass (p_instrs ex_program) = firstn 3 (p_instrs ex_program) ++ [nth 4 (p_instrs ex_program) (ReturnOutputs [])] /\
  exists w g g' o, run (traced false exs) idord ex_program [GDataset [T 0 1; T 0 2]] [] (mkWorld (fun _ => 0) (tt, [])) = (w, Ok (g, o)) /\
    run (traced false exs) idord (mkProgram (optimization_only_pass (p_instrs ex_program)) (p_inputs ex_program)) [GDataset [T 0 1; T 0 2]] [] (mkWorld (fun _ => 0) (tt, [])) = (w, Ok (g', None)) /\
    length (snd (w_user w)) = 1.
Proof.
  split; [intros pl u c m a k; reflexivity|]. split; [split; [exact ex_returns_last|]|].
  - intros i Hi. vm_compute in Hi. repeat (destruct Hi as [<-|Hi]; [exact I|]). destruct Hi.
  - split; [vm|]. eexists. eexists. eexists. eexists. split; [vm|]. split; vm.
Qed.

Lemma return_early :
  schedule exs idord ex_graph = Ok ex_program /\
  exists w r, run exs idord (mkProgram (offloading_pass exs (p_instrs ex_program) 1 0 ex_graph (fun _ => 1)) (p_inputs ex_program))
                [GDataset [T 0 1; T 0 2]] [] (mkWorld (fun _ => 1) tt) = (w, Ok r) /\ w_place w 2 = 0.
Proof. split; [vm|]. eexists. eexists. split; vm. Qed.
Ltac all_in H := cbn in H; repeat (destruct H as [<-|H]; [|]); try contradiction.
Lemma raise_early :
  exists (is : list (instr nat)) w, no_moves is /\ (forall i, In i is -> ~ is_return i) /\
    run_instructions exs (offloading_pass exs is 1 0 ex_graph (fun _ => 1)) (mkWorld (fun _ => 1) tt) [] = (w, Err RuntimeError) /\ w_place w 2 = 0.
Proof.
  exists [CallModule 2 [] [] (nrf 0) [0]; CallModule 13 [] [] (nrf 1) [0]]. eexists. split; [intros i H; all_in H; exact I|]. split; [intros i H; all_in H; intros []|].
  split; vm.
Qed.
Lemma other_operation :
  exists g (is : list (instr nat)) w r, no_moves is /\ (forall i, In i is -> ~ is_return i) /\ In (CallModule 2 [] [] (nrf 0) [0]) is /\
    (exists n, In n (g_nodes g) /\ n_target n = 2) /\
    run_instructions exs (offloading_pass exs is 1 0 g (fun _ => 1)) (mkWorld (fun _ => 1) tt) [] = (w, Ok r) /\ w_place w 2 = 0.
Proof.
  exists (mkGraph [mkNode 0 ""%string 2 [] CallFunction [] None None] [] [] []), [CallModule 2 [] [] (nrf 0) [0]]. eexists. eexists.
  split; [intros i H; all_in H; exact I|]. split; [intros i H; all_in H; intros []|]. split; [now left|].
  split; [eexists; split; [now left|reflexivity]|]. split; vm.
Qed.
Lemma named_tuple :
  exists g p, schedule exs idord g = Ok p /\
    let result is := match snd (run exs idord (mkProgram is (p_inputs p)) [GValue (T 0 1)] [] (mkWorld (fun _ => 0) tt)) with Ok (_, o) => o | Err _ => None end in
    result (p_instrs p) = Some [(0, Single [Tup ["left"%string; "right"%string] [T 0 1; T 0 1]])] /\
    result (offloading_pass exs (p_instrs p) 1 0 g (fun _ => 0)) = Some [(0, Single [Tup [] [T 0 1; T 0 1]])].
Proof. exists (mkGraph [tnode 1 12 [xin; xin] [] None] [("x"%string, 0)] [nrf 1] []). eexists. split; [vm|]. cbv zeta. split; vm. Qed.
Lemma unused_offload :
  exists g p w r w', graph_ok g /\ schedule exs idord g = Ok p /\
    run exs idord p [GValue (T 0 4)] [] (mkWorld (fun _ => 0) tt) = (w, Ok r) /\
    run exs idord (mkProgram (offloading_pass exs (p_instrs p) 1 0 g (fun _ => 0)) (p_inputs p)) [GValue (T 0 4)] [] (mkWorld (fun _ => 0) tt) = (w', Err KeyError).
Proof.
  exists (mkGraph [tnode 1 11 [xin; xin] [] None; tnode 2 10 [RAttr (nrf 1) (AInt 0)] [] None; tnode 3 1 [xin] [] None] [("x"%string, 0)] [nrf 3] []).
  eexists. eexists. eexists. eexists. split; [unfold graph_ok; cbn; nodup|]. split; [vm|]. split; vm.
Qed.

Lemma num_content v : num (content v) = num v.
Proof.
  induction v as [e x|n l IH|l IH|l IH|x f IH] using val_ind2; cbn [content num]; try reflexivity; f_equal; rewrite map_map; apply map_ext_in; intros a Ha;
    rewrite Forall_forall in IH; now apply IH.
Qed.
Lemma num_same v v' : same_content v v' -> num v = num v'.
Proof. unfold same_content. intros H. rewrite <- (num_content v), <- (num_content v'). now rewrite H. Qed.
Lemma total_same a a' k k' : Forall2 same_content a a' -> same_named same_content k k' -> total a k = total a' k'.
Proof.
  intros Fa Fk. unfold total. f_equal. rewrite !map_app, !map_map. f_equal.
  - induction Fa as [|x y l l' H F IH]; [reflexivity|]. cbn [map]. rewrite IH. f_equal. now apply num_same.
  - induction Fk as [|x y l l' [_ H] F IH]; [reflexivity|]. cbn [map]. rewrite IH. f_equal. now apply num_same.
Qed.
Lemma f2_content (a a' : list (val nat)) : Forall2 same_content a a' -> map content a = map content a'.
Proof. induction 1 as [|x y l l' H F IH]; [reflexivity|]. cbn. unfold same_content in H. now rewrite IH, H. Qed.
Lemma nth_content (l l' : list (val nat)) n : map content l = map content l' ->
  same_result same_content (match nth_error l n with Some x => Ok x | None => Err IndexError end) (match nth_error l' n with Some x => Ok x | None => Err IndexError end).
Proof.
  intros E. pose proof (f_equal (fun q => nth_error q n) E) as H. cbn in H. rewrite !nth_error_map in H.
  destruct (nth_error l n), (nth_error l' n); cbn in *; try discriminate; [|reflexivity]. now injection H.
Qed.
Lemma exs_blind : device_blind exs.
Proof.
  split.
  - intros v v' a H. change (same_result same_content (ex_item v a) (ex_item v' a)). unfold same_content in H.
    destruct v, v'; cbn [content] in H; try discriminate; try (destruct a; reflexivity); injection H as H; (destruct a; [|reflexivity]); cbn [ex_item]; now apply nth_content.
  - intros. reflexivity.
  - intros pl pl' u c m a a' k k' Ha Hk. cbn [call exs fst snd]. split; [|reflexivity]. unfold ex_call. rewrite <- (total_same a a' k k' Ha Hk).
    do 14 (destruct m as [|m]; [cbn; try reflexivity; try (unfold same_content; cbn; f_equal; now apply f2_content)|]).
    cbn. reflexivity.
  - reflexivity.
Qed.
Ltac unlist H := repeat match type of H with
  | [] = ?l ++ _ :: _ => destruct l; discriminate H
  | ?x :: ?t = ?l ++ ?y :: ?r => destruct l as [|?z l]; cbn [app] in H; injection H; clear H; intros H; intros
  end.
Fixpoint ubd (is : list (instr nat)) (pend : list ref) : bool :=
  match is with
  | [] => true
  | i :: is' =>
      let pend := filter (fun t => negb (rmem (unwrap t) (map unwrap (uses i)))) pend in
      match i with
      | CallModule _ _ _ t _ => ubd is' (t :: pend)
      | DeleteRegisterEntries ts => forallb (fun t => negb (rmem t ts)) pend && ubd is' pend
      | _ => ubd is' pend
      end
  end.
Lemma ref_eqb_same a : forall b, ref_eqb a b = true <-> same_ref a b.
Proof. intros b. rewrite ref_eqb_norm, same_ref_norm. reflexivity. Qed.
Lemma ubd_pend : forall is pend l2 ts l3 t t', ubd is pend = true -> is = l2 ++ DeleteRegisterEntries ts :: l3 -> In t pend -> In t' ts -> same_ref t t' ->
  exists i u, In i l2 /\ In u (uses i) /\ same_ref (unwrap u) (unwrap t).
Proof.
  induction is as [|i is IH]; intros pend l2 ts l3 t t' B E Hp Ht S; [destruct l2; discriminate|].
  destruct (rmem (unwrap t) (map unwrap (uses i))) eqn:M.
  - destruct l2 as [|j l2]; injection E as -> E; [discriminate|]. unfold rmem in M. apply existsb_exists in M. destruct M as (u' & Hu & Eu).
    apply in_map_iff in Hu. destruct Hu as (u & <- & Hu). exists j, u. split; [now left|]. split; [exact Hu|].
    apply ref_eqb_same. rewrite ref_eqb_sym. exact Eu.
  - assert (Hp' : In t (filter (fun t => negb (rmem (unwrap t) (map unwrap (uses i)))) pend)) by (apply filter_In; split; [exact Hp|now rewrite M]).
    destruct l2 as [|j l2]; injection E as -> E.
    + exfalso. cbn [ubd] in B. apply andb_true_iff in B. destruct B as [B _]. rewrite forallb_forall in B. specialize (B t Hp').
      assert (rmem t ts = true) as F; [|rewrite F in B; discriminate]. apply existsb_exists. exists t'. split; [exact Ht|now apply ref_eqb_same].
    + assert (X : exists pend', ubd is pend' = true /\ In t pend').
      { cbn [ubd] in B. destruct j; try (eexists; split; [exact B|]; try exact Hp'; try (now right)). apply andb_true_iff in B. destruct B as [_ B]. eexists. split; [exact B|exact Hp']. }
      destruct X as (pend' & B' & Hp2). destruct (IH pend' l2 ts l3 t t' B' E Hp2 Ht S) as (i' & u & H1 & H2). exists i', u. split; [now right|exact H2].
Qed.
Lemma ubd_ok : forall is pend, ubd is pend = true -> used_before_deleted is.
Proof.
  induction is as [|i is IH]; intros pend B l1 m a k t cs l2 ts l3 t' E Ht S; [destruct l1; discriminate|].
  destruct l1 as [|j l1]; injection E as -> E.
  - cbn [ubd] in B. refine (ubd_pend is _ l2 ts l3 t t' B E _ Ht S). now left.
  - assert (X : exists pend', ubd is pend' = true).
    { cbn [ubd] in B. destruct j; try (eexists; exact B). apply andb_true_iff in B. destruct B as [_ B]. eexists. exact B. }
    destruct X as (pend' & B'). exact (IH pend' B' l1 m a k t cs l2 ts l3 t' E Ht S).
Qed.
Lemma offload_example :
  device_blind exs /\ orderly_program (p_instrs ex_program) /\ orderly_program (lifetime_management_pass (p_instrs ex_program)) /\
  (exists w r w' r', run exs idord ex_program [GDataset [T 0 1; T 0 2]] [] (mkWorld (fun _ => 0) tt) = (w, Ok r) /\
     run exs idord (mkProgram (offloading_pass exs (p_instrs ex_program) 1 0 ex_graph (fun _ => 0)) (p_inputs ex_program)) [GDataset [T 0 1; T 0 2]] [] (mkWorld (fun _ => 0) tt) = (w', Ok r')) /\
  (exists w r, run exs idord (mkProgram (offloading_pass exs (optimization_only_pass (p_instrs ex_program)) 1 0 ex_graph (fun _ => 1)) (p_inputs ex_program))
     [GDataset [T 0 1; T 0 2]] [] (mkWorld (fun _ => 1) tt) = (w, Ok r)).
Proof.
  split; [exact exs_blind|].
  assert (O : forall is, ubd is [] = true -> (forall i, In i is -> orderly_instr i) -> orderly_program is) by (intros is H1 H2; split; [exact H2|now apply (ubd_ok is [])]).
  assert (Ti : forall i, In i (p_instrs ex_program) -> orderly_instr i).
  { intros i Hi. vm_compute in Hi. repeat (destruct Hi as [<-|Hi]; [cbn; try exact I; try discriminate; try (split; [intros c; discriminate|discriminate]); try (now eexists)|]). destruct Hi. }
  split; [apply O; [vm|exact Ti]|]. split.
  - apply O; [vm|]. intros i Hi. rewrite lifetime_with in Hi. apply with_deletes_in in Hi. destruct Hi as [Hi|(ts & ->)]; [now apply Ti|exact I].
  - split; [eexists; eexists; eexists; eexists; split; vm|]. eexists. eexists. vm.
Qed.

Lemma first_module :
  exists g p w r, schedule exs idord g = Ok p /\ (exists n, g_nodes g = [n] /\ module_node exs n) /\
    run (watched 1 exs) idord (mkProgram (offloading_pass exs (p_instrs p) 1 0 g (fun _ => 0)) (p_inputs p)) [GValue (T 1 1)] [] (mkWorld (fun _ => 0) (tt, true)) = (w, Ok r) /\
    snd (w_user w) = false.
Proof.
  exists (mkGraph [tnode 1 1 [xin] [] None] [("x"%string, 0)] [nrf 1] []). eexists. eexists. eexists. split; [vm|]. split; [eexists; split; [reflexivity|]; split; reflexivity|].
  split; vm.
Qed.
Lemma two_items :
  exists g p w r, schedule exs idord g = Ok p /\
    run (watched 1 exs) idord (mkProgram (offloading_pass exs (p_instrs p) 1 0 g (fun _ => 1)) (p_inputs p)) [GValue (T 1 1)] [] (mkWorld (fun _ => 1) (tt, true)) = (w, Ok r) /\
    snd (w_user w) = false.
Proof.
  exists (mkGraph [tnode 1 11 [xin; xin] [] None; tnode 2 1 [RAttr (nrf 1) (AInt 0); RAttr (nrf 1) (AInt 1)] [] None; tnode 3 2 [nrf 2] [] None] [("x"%string, 0)] [nrf 3] []).
  eexists. eexists. eexists. split; [vm|]. split; vm.
Qed.
Lemma other_objects :
  exists g p w r, schedule exs idord g = Ok p /\
    run (watched 1 exs) idord (mkProgram (offloading_pass exs (p_instrs p) 1 0 g (fun _ => 1)) (p_inputs p))
      [GValue (Obj 3 [("x"%string, T 0 3)])] [] (mkWorld (fun _ => 1) (tt, true)) = (w, Ok r) /\
    snd (w_user w) = false.
Proof.
  exists (mkGraph [tnode 1 1 [xin] [] None; tnode 2 2 [nrf 1] [] None] [("x"%string, 0)] [nrf 2] []). eexists. eexists. eexists. split; [vm|]. split; vm.
Qed.

(** Like [exs], but constants are on device 1 and functions add; the result is on device 1 if all arguments are. *)
Definition dev_exs : semantics nat unit :=
  mkSem (fun i => T 1 (100 + i)) ex_item (fun _ _ => Err AttributeError)
    (fun pl u c m a k => (Ok (T (if m <? 10 then pl m else if forallb (on_device 1) (a ++ map snd k) then 1 else 0) (total a k)), u))
    (fun _ u _ _ _ => (Ok tt, u)) (fun m => m <? 10) (fun m => if m <? 10 then [("w"%string, m)] else []).
(** a = module 1 of x; b = a plus x; c = module 2 of b and a constant, which has an optimizer. *)
Definition chain_graph : graph :=
  mkGraph [tnode 1 1 [xin] [] None; tnode 2 10 [nrf 1; xin] [] None; tnode 3 2 [nrf 2; RConst 4] [] (Some (mkDelegate 40 [0]))] [("x"%string, 0)] [nrf 3] [].
Definition chain_program : program := match schedule dev_exs idord chain_graph with Ok p => p | Err _ => mkProgram [] [] end.
Lemma device_example :
  item_free dev_exs (p_instrs chain_program) /\ single_assignment (p_instrs chain_program) /\ stays_on dev_exs 1 /\
  (forall i, on_device 1 (constv dev_exs i) = true) /\ given_movable (GDataset [T 0 1; T 0 2]) /\
  begins_with dev_exs (p_instrs chain_program) 1 /\ not_last dev_exs chain_graph 1 /\
  exists w r, run (watched 1 dev_exs) idord (mkProgram (offloading_pass dev_exs (p_instrs chain_program) 1 0 chain_graph (fun _ => 0)) (p_inputs chain_program))
    [GDataset [T 0 1; T 0 2]] [] (mkWorld (fun _ => 0) (tt, true)) = (w, Ok r).
Proof.
  split.
  { intros i Hi. vm_compute in Hi. repeat (destruct Hi as [<-|Hi]; [split; [intros r b a Hr; cbn in Hr; intuition (subst; discriminate)|cbn; try exact I; try reflexivity; try (now eexists)]|]). destruct Hi. }
  split.
  { split.
    - intros m a k t cs Hi. vm_compute in Hi. repeat (destruct Hi as [E|Hi]; [try discriminate E; injection E as <- <- <- <- <-; eexists; eexists; reflexivity|]). destruct Hi.
    - intros l1 m a k t cs l2 m' a' k' t' cs' l3 E. vm_compute in E.
      assert (forall (is : list (instr nat)) l1 m a k t cs l2 m' a' k' t' cs' l3, is = l1 ++ CallModule m a k t cs :: l2 ++ CallModule m' a' k' t' cs' :: l3 ->
                NoDup (flat_map (fun i => match i with CallModule _ _ _ (RNode x _) _ => [x] | _ => [] end) is) -> ~ same_ref t t' \/ (forall x n, t <> RNode x n)).
      { clear. intros is l1 m a k t cs l2 m' a' k' t' cs' l3 -> N. rewrite flat_map_app in N. cbn [flat_map] in N. rewrite flat_map_app in N. cbn [flat_map] in N.
        destruct t as [x n| | |]; [|right; discriminate|right; discriminate|right; discriminate]. left. intros S. inversion S; subst. cbn [app] in N.
        apply NoDup_remove_2 in N. apply N. rewrite !in_app_iff. right. right. now left. }
      specialize (H _ _ _ _ _ _ _ _ _ _ _ _ _ _ E). destruct H as [H|H]; [cbn; nodup|exact H|].
      intros S. assert (Hi : In (CallModule m a k t cs) (p_instrs chain_program)). { change (p_instrs chain_program) with ltac:(let v := eval vm_compute in (p_instrs chain_program) in exact v). rewrite E. apply in_app_iff. right. now left. }
      vm_compute in Hi. repeat (destruct Hi as [Ei|Hi]; [try discriminate Ei; injection Ei as <- <- <- <- <-; now apply (H _ _ eq_refl)|]). destruct Hi. }
  split.
  { intros pl u c m a k v u' E. cbn [call dev_exs] in E. injection E as <- _. split; [reflexivity|]. intros _ Ha Hm. cbn [on_device T].
    cbn [is_module dev_exs] in Hm. destruct (m <? 10) eqn:Lm.
    - apply Nat.eqb_eq. apply (Hm eq_refl "w"%string m). cbn [weights dev_exs]. rewrite Lm. now left.
    - assert (F : forallb (on_device 1) (a ++ map snd k) = true) by (apply forallb_forall; exact Ha). now rewrite F. }
  split; [reflexivity|]. split; [intros x [<-|[<-|[]]]; reflexivity|].
  split; [split; [reflexivity|]; eexists; eexists; split; [vm|]; left; repeat eexists|].
  split.
  { exists [tnode 1 1 [xin] [] None; tnode 2 10 [nrf 1; xin] [] None], (tnode 3 2 [nrf 2; RConst 4] [] (Some (mkDelegate 40 [0]))), [].
    split; [reflexivity|]. split; [split; reflexivity|]. split; [discriminate|]. split; [intros n' [<-|[<-|[]]] _; discriminate|intros n' []]. }
  eexists. eexists. vm.
Qed.

Lemma bind_example :
  let refs := [("a"%string, 3); ("b"%string, 4); ("c"%string, 5)] in
  let t n : given := GValue (T 0 n) in
  call_ok (map fst refs) [t 1] [("c"%string, t 2); ("b"%string, t 3)] /\
  (exists g, prepare_input_register refs [t 1] [("c"%string, t 2); ("b"%string, t 3)] [0; 5] = Ok g /\ load (RInput 4 "b") 5 g = Ok (Data [T 0 3])) /\
  ~ call_ok (map fst refs) [t 1] [("a"%string, t 2); ("b"%string, t 3); ("c"%string, t 3)] /\
  ~ call_ok (map fst refs) [t 1] [("b"%string, t 3)] /\
  ~ call_ok (map fst refs) [t 1; t 1; t 1; t 1] [] /\
  ~ call_ok (map fst refs) [t 1; t 1; t 1] [("z"%string, t 3)].
Proof.
  cbv zeta. cbn [map fst]. split; [|split; [|split; [|split; [|split]]]].
  - split; [cbn; lia|]. split.
    + intros k v [E|[E|[]]]; injection E as <- _; [exists 2|exists 1]; split; try reflexivity; cbn; lia.
    + intros i n Hi Hl. cbn in Hl. destruct i as [|[|[|i]]]; [lia| | |destruct i; discriminate]; injection Hi as <-; eexists; cbn; auto.
  - eexists. split; [vm|vm].
  - intros (_ & H & _). destruct (H "a"%string _ (or_introl eq_refl)) as (i & Hi & Hl). cbn in Hl. destruct i as [|[|[|i]]]; try discriminate; [lia|destruct i; discriminate].
  - intros (_ & _ & H). destruct (H 2 "c"%string eq_refl) as (v & Hv); [cbn; lia|]. destruct Hv as [E|[]]. discriminate.
  - intros (H & _). cbn in H. lia.
  - intros (_ & H & _). destruct (H "z"%string _ (or_introl eq_refl)) as (i & Hi & _). destruct i as [|[|[|i]]]; try discriminate. destruct i; discriminate.
Qed.
Lemma broadcast_example :
  broadcast [[1; 2; 3]; [7]; [4; 5; 6]] = Ok [[1; 2; 3]; [7; 7; 7]; [4; 5; 6]] /\ broadcast [[1; 2]; [7]; [4; 5; 6]] = Err ValueError /\
  broadcast [[]; [7]] = Ok [[]; []] /\
  exists b, gather exs [(xin, [(0, Data [T 0 1; T 0 2])])] 0 [xin] [("k"%string, RConst 7)] = Ok b /\ bundle_len b = 2 /\
    batch b 1 = Ok ([T 0 2], [("k"%string, T 0 107)]).
Proof. split; [vm|]. split; [vm|]. split; [vm|]. eexists. split; [vm|]. split; vm. Qed.
