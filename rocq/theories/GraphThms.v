(** Properties C43-C45: graph algorithms. *)
From Coq Require Import String Ascii Permutation Relations.
From Verif Require Import Prelude GraphModel GraphSpec GraphProofs GraphWalkProofs GraphCycleProofs.
Local Open Scope nat_scope.
Local Open Scope list_scope.

(** An example graph: a -> b -> d, a -> c -> d (through an item of c), and a fold f around b, c. *)
Definition nd (i : nat) (l : list ref) (k : list (string * ref)) (p : option nat) : gnode :=
  mkNode i ""%string 0 l TorchModule k None p.
Definition gr (ns : list gnode) (outs : list ref) (folds : list nat) : graph := mkGraph ns [] outs folds.
Definition rn (i : nat) : ref := RNode i ""%string.
Definition ex_g : graph :=
  gr [nd 9 [rn 1] [] None; nd 4 [rn 2] [("k"%string, RAttr (rn 3) (AInt 0))] None; nd 3 [rn 1; RConst 7] [] (Some 9);
      nd 2 [rn 1; rn 1] [] (Some 9); nd 1 [RInput 5 "x"] [] None] [rn 4] [9].
Lemma ex_g_ok : graph_ok ex_g.
Proof. unfold graph_ok. cbn. repeat (constructor; [cbn; intuition discriminate|]). constructor. Qed.
Definition ex_loop : graph := gr [nd 1 [rn 2] [] None; nd 2 [rn 1] [] None; nd 3 [] [] None] [rn 2] [].
Lemma ex_loop_ok : graph_ok ex_loop.
Proof. unfold graph_ok. cbn. repeat (constructor; [cbn; intuition discriminate|]). constructor. Qed.

(** C43: the order contains every node that is no fold exactly once, after everything it takes
    input from. *)
Theorem C43_order :
  forall g order, graph_ok g -> topological_sort g None = Ok order ->
    NoDup order /\ (forall x, In x order <-> is_leaf g x) /\
    forall a b, is_leaf g b -> feeds g a b -> before order a b.
Proof. exact sort_order. Qed.
Print Assumptions C43_order.
(** It raises exactly if there is a cycle among leaves or a leaf takes input from elsewhere. *)
Theorem C43_raises_exactly :
  forall g, graph_ok g ->
    ((exists order, topological_sort g None = Ok order) <-> ~ cyclic g /\ leaf_inputs g) /\
    ((exists order, topological_sort g None = Ok order) \/ topological_sort g None = Err ValueError).
Proof. exact sort_exactly. Qed.
Print Assumptions C43_raises_exactly.
(** If leaves take input from leaves only, a failure means there is a cycle. *)
Theorem C43_failure_is_cycle :
  forall g, graph_ok g -> leaf_inputs g -> ~ (exists order, topological_sort g None = Ok order) ->
    topological_sort g None = Err ValueError /\ cyclic g.
Proof. exact sort_raises. Qed.
Print Assumptions C43_failure_is_cycle.
(** With a closure: the closure's nodes in the same order; an error if one is no leaf. *)
Theorem C43_closure :
  forall g order c, graph_ok g -> topological_sort g None = Ok order ->
    ((forall x, In x c -> is_leaf g x) ->
      exists sub, topological_sort g (Some c) = Ok sub /\ NoDup sub /\ (forall x, In x sub <-> In x c) /\
        forall x y, before order x y -> In x c -> In y c -> before sub x y) /\
    ((exists x, In x c /\ ~ is_leaf g x) -> topological_sort g (Some c) = Err ValueError).
Proof. exact sort_closure. Qed.
Print Assumptions C43_closure.
Example C43_nonvacuous :
  graph_ok ex_g /\ topological_sort ex_g None = Ok [1; 3; 2; 4] /\ topological_sort ex_g (Some [4; 3]) = Ok [3; 4] /\
  graph_ok ex_loop /\ leaf_inputs ex_loop /\ cyclic ex_loop /\ topological_sort ex_loop None = Err ValueError.
Proof.
  split; [exact ex_g_ok|]. split; [vm_compute; reflexivity|]. split; [vm_compute; reflexivity|]. split; [exact ex_loop_ok|].
  assert (F : ~ exists order, topological_sort ex_loop None = Ok order) by (vm_compute; intros [? ?]; discriminate).
  assert (L : leaf_inputs ex_loop).
  { intros a b _ (n & r & Hn & E & Hr & A). split; [|intros []]. cbn in Hn. unfold node_in. cbn.
    destruct Hn as [<-|[<-|[<-|[]]]]; cbn in Hr; destruct Hr as [Hr|[k []]]; try (destruct Hr as [<-|[]]; inversion A; auto); destruct Hr. }
  split; [exact L|]. destruct (sort_raises ex_loop ex_loop_ok L F) as [E C]. now split.
Qed.

(** C44: every node of the graph all of whose references are to nodes of the graph: exactly the
    nodes from which [node] is reachable, itself included. *)
Theorem C44_ancestors :
  forall g node, graph_ok g -> (forall a b, feeds g a b -> node_in g a) -> node_in g node ->
    exists c N, (forall fuel, N <= fuel -> ancestors fuel g node None false = Ok (c, true)) /\
      NoDup c /\ forall x, In x c <-> clos_refl_trans nat (feeds g) x node.
Proof. exact ancestors_all. Qed.
Print Assumptions C44_ancestors.
(** With [stop]: the nodes that reach [node] without passing through [stop]; the flag says whether
    [stop] is among them. *)
Theorem C44_stop :
  forall g node s, graph_ok g -> (forall a b, feeds g a b -> node_in g a) -> node_in g node ->
    exists c reached N, (forall fuel, N <= fuel -> ancestors fuel g node (Some s) false = Ok (c, reached)) /\
      NoDup c /\ (forall x, In x c <-> upstream g (Some s) x node) /\ (reached = true <-> upstream g (Some s) s node).
Proof. intros g node s. exact (ancestors_correct g node (Some s)). Qed.
Print Assumptions C44_stop.
(** With [strict] on an acyclic graph: the nodes on paths from [stop] to [node]. *)
Theorem C44_strict :
  forall g node s, graph_ok g -> (forall a b, feeds g a b -> node_in g a) -> node_in g node ->
    (forall x, ~ clos_trans nat (feeds g) x x) ->
    exists c reached N, (forall fuel, N <= fuel -> ancestors fuel g node (Some s) true = Ok (c, reached)) /\ NoDup c /\
      (reached = true <-> clos_refl_trans nat (feeds g) s node) /\
      (forall x, In x c <-> clos_refl_trans nat (feeds g) s x /\ clos_refl_trans nat (feeds g) x node).
Proof. exact ancestors_strict. Qed.
Print Assumptions C44_strict.
Example C44_nonvacuous :
  (forall a b, feeds ex_g a b -> node_in ex_g a) /\ (forall x, ~ clos_trans nat (feeds ex_g) x x) /\
  ancestors 100 ex_g 4 None false = Ok ([2; 1; 3; 4], true) /\ ancestors 100 ex_g 4 (Some 2) false = Ok ([2; 1; 3; 4], true) /\
  ancestors 100 ex_g 4 (Some 2) true = Ok ([4; 2], true).
Proof.
  assert (F : forall a b, feeds ex_g a b -> node_in ex_g a /\ (b = 9 /\ a = 1 \/ b < 9 /\ a < b)).
  { intros a b (n & r & Hn & E & Hr & A). cbn in Hn. unfold node_in. cbn.
    destruct Hn as [<-|[<-|[<-|[<-|[<-|[]]]]]]; cbn in Hr, E; subst b;
      (destruct Hr as [Hr|[k Hr]];
       repeat (destruct Hr as [Hr|Hr]; [first [subst r|injection Hr as <- <-]; repeat (match goal with H : about _ _ |- _ => inversion H; clear H; subst end); try lia|]);
       try destruct Hr). }
  split; [intros a b H; now apply F in H|]. split; [|vm_compute; repeat split; reflexivity].
  assert (T : forall a b, clos_trans nat (feeds ex_g) a b -> a < b).
  { induction 1 as [a b H|]; [|lia]. apply F in H as [_ H]. lia. }
  intros x H. apply T in H. lia.
Qed.

(** C45: for every adjacency map whose sets of successors hold keys: a closed walk along its edges,
    or no cycle. *)
Theorem C45_find_cycle :
  forall e, edges_ok e ->
    exists N r, (forall fuel, N <= fuel -> find_cycle fuel e = Ok r) /\
      match r with
      | Some c => walk e c /\ exists x p, c = x :: p ++ [x]
      | None => forall x, ~ clos_trans nat (arrow e) x x
      end.
Proof. exact find_cycle_correct. Qed.
Print Assumptions C45_find_cycle.
(** so it returns a cycle exactly if there is one *)
Theorem C45_exactly :
  forall e, edges_ok e ->
    exists N r, (forall fuel, N <= fuel -> find_cycle fuel e = Ok r) /\
      (r <> None <-> exists x, clos_trans nat (arrow e) x x).
Proof. exact find_cycle_exactly. Qed.
Print Assumptions C45_exactly.
Definition ex_e : edge_map := [(1, [2; 3]); (2, [4]); (3, [2; 4]); (4, [3]); (5, [])].
Example C45_nonvacuous :
  edges_ok ex_e /\ find_cycle 100 ex_e = Ok (Some [3; 4; 3]) /\
  find_cycle 100 [(1, [2; 3]); (3, [4; 2]); (2, [4]); (4, [])] = Ok None.
Proof.
  split; [|vm_compute; repeat split; reflexivity]. split; [cbn; repeat (constructor; [cbn; intuition discriminate|]); constructor|].
  intros x y (l & H & Hy). cbn in H. repeat (destruct H as [H|H]; [injection H as <- <-; cbn in Hy |- *; intuition|]). destruct H.
Qed.
