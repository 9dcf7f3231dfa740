(** Property C117: data flows bound to a graph. *)
From Coq Require Import String Ascii Relations Permutation.
From Verif Require Import Prelude GraphModel GraphSpec GraphThms RegModel BndModel BndSpec BndProofs.
Local Open Scope nat_scope.
Local Open Scope list_scope.

(** C117: Whatever flows are declared for a node of a graph that can be scheduled, each gets its plan: for what arrives at the node,
    the nodes it depends on and no others, and its arguments; for what leaves it, the node as well, and its result; the nodes
    each once, after what they take input from.  Partial: the node is no fold. *)
Theorem C117_bound_partial :
  forall order g region topo, (forall l, Permutation (order l) l) -> graph_ok g -> (forall a b, feeds g a b -> node_in g a) ->
    In region (g_nodes g) -> is_leaf g (n_id region) -> topological_sort g None = Ok topo ->
    exists N, forall fuel, N <= fuel -> forall name flows, (forall f, In f flows -> fl_kind f <> OtherFlow) ->
      exists ps, bind_flows order fuel g (n_id region) name flows = Ok ps /\ Forall2 (answers g region) flows ps.
Proof. exact flows_bound. Qed.
Print Assumptions C117_bound_partial.
(** C117: What arrives at a fold is bound likewise if folds take input from leaves; what leaves a fold never is. *)
Theorem C117_fold_refuted :
  forall order g region topo, (forall l, Permutation (order l) l) -> graph_ok g -> (forall a b, feeds g a b -> node_in g a) ->
    In region (g_nodes g) -> ~ is_leaf g (n_id region) -> topological_sort g None = Ok topo ->
    exists N, forall fuel, N <= fuel -> forall name f,
      (fl_kind f = InputActivations -> (forall x, feeds g x (n_id region) -> is_leaf g x) ->
        exists p, bind_flows order fuel g (n_id region) name [f] = Ok [p] /\ answers g region f p) /\
      (fl_kind f = OutputActivations -> bind_flows order fuel g (n_id region) name [f] = Err KeyError).
Proof. exact fold_bound. Qed.
Print Assumptions C117_fold_refuted.
(** C117: Graphs that cannot be scheduled, unknown nodes and other kinds of flows are refused. *)
Theorem C117_refused :
  forall order fuel g id name flows,
    (forall e, topological_sort g None = Err e -> bind_flows order fuel g id name flows = Err e) /\
    (forall topo, topological_sort g None = Ok topo -> get_node g id = None -> bind_flows order fuel g id name flows = Err KeyError) /\
    (forall ps, bind_flows order fuel g id name flows = Ok ps -> forall f, In f flows -> fl_kind f <> OtherFlow) /\
    (forall topo n f, topological_sort g None = Ok topo -> get_node g id = Some n -> fl_kind f = OtherFlow -> bind_flows order fuel g id name (f :: flows) = Err TypeError).
Proof. exact flows_refused. Qed.
Print Assumptions C117_refused.
Definition fl_in : flow := mkFlow InputActivations (mkGen "original" CDisable 2) true.
Definition fl_out : flow := mkFlow OutputActivations (mkGen "quantized" CNull 5) false.
Example C117_nonvacuous :
  graph_ok ex_g /\ (forall a b, feeds ex_g a b -> node_in ex_g a) /\ is_leaf ex_g 4 /\ ~ is_leaf ex_g 9 /\ topological_sort ex_g None = Ok [1; 3; 2; 4] /\
  bind_flows (@rev nat) 100 ex_g 4 "d" [fl_in; fl_out] =
    Ok [mkPlan fl_in [1; 3; 2] [rn 2] [("k"%string, RAttr (rn 3) (AInt 0))]; mkPlan fl_out [1; 3; 2; 4] [RNode 4 "d"] []] /\
  bind_flows (@rev nat) 100 ex_g 1 "a" [fl_in] = Ok [mkPlan fl_in [] [RInput 5 "x"] []] /\
  bind_flows (@rev nat) 100 ex_g 9 "f" [fl_in] = Ok [mkPlan fl_in [1] [rn 1] []] /\
  bind_flows (@rev nat) 100 ex_g 9 "f" [fl_out] = Err KeyError /\
  bind_flows (@rev nat) 100 ex_g 4 "d" [fl_in; mkFlow OtherFlow (mkGen "any" CNull 10) true] = Err TypeError.
Proof.
  split; [exact ex_g_ok|]. split; [apply C44_nonvacuous|].
  split; [split; [unfold node_in; cbn; tauto|cbn; intros [K|[]]; discriminate]|]. split; [intros [_ K]; apply K; now left|].
  repeat split; vm_compute; reflexivity.
Qed.
