(** Models the binding of data flows to a graph: fastforward/_orchestration/scheduler.py:40-128. *)
From Coq Require Import String Ascii.
From Verif Require Import Prelude GraphModel CoarseModel RegModel.
Local Open Scope nat_scope.
Local Open Scope list_scope.

(** data_flow.py:121-144 [DataFlow] and its subclasses; [OtherFlow] is any other subclass. *)
Inductive flow_kind := InputActivations | OutputActivations | OtherFlow.
Record flow := mkFlow { fl_kind : flow_kind; fl_generator : generator; fl_cache : bool }.
(** scheduler.py:40-78 [FlowPlan]; nodes are given by their ids. *)
Record plan := mkPlan { p_flow : flow; p_nodes : list nat; p_reads : list ref; p_kwargs : list (string * ref) }.

(** [sorted], for elements with their keys: stable *)
Fixpoint insert_key (e : nat * nat) (l : list (nat * nat)) : list (nat * nat) :=
  match l with
  | [] => [e]
  | x :: l' => if fst x <=? fst e then x :: insert_key e l' else e :: l
  end.
Definition sort_keys (l : list (nat * nat)) : list (nat * nat) := fold_left (fun acc e => insert_key e acc) l [].

Section Bind.
  (** [order] lists the elements of a set in the order the set is iterated in; [fuel] bounds the walk of
      [ancestors]. *)
  Context (order : list nat -> list nat) (fuel : nat).

  (** scheduler.py:116-128 [_ancestors_of] *)
  Definition ancestors_of (g : graph) (region : nat) (include_region : bool) : result (list nat) :=
    let? (nodes, _) := ancestors fuel g region None false in
    Ok (if include_region then nodes else filter (fun x => negb (x =? region)) nodes).

  (** scheduler.py:104: the nodes sorted by their place in the topological order; a node without one raises *)
  Definition in_order (topo : list nat) (nodes : list nat) : result (list nat) :=
    let? ks := rmapM (fun x => let? k := position topo x in Ok (k, x)) (order nodes) in
    Ok (map snd (sort_keys ks)).

  (** scheduler.py:86-112: one iteration of the loop *)
  Definition bind_flow (g : graph) (topo : list nat) (region : ref) (id : nat) (n : gnode) (f : flow) : result plan :=
    match fl_kind f with
    | InputActivations =>
        let? nodes := ancestors_of g id false in
        let? l := in_order topo nodes in Ok (mkPlan f l (n_args n) (n_kwargs n))
    | OutputActivations =>
        let? nodes := ancestors_of g id true in
        let? l := in_order topo nodes in Ok (mkPlan f l [region] [])
    | OtherFlow => Err TypeError
    end.

  (** scheduler.py:81-113 [bind_flows]; the region is a reference to the node [id] *)
  Definition bind_flows (g : graph) (id : nat) (name : string) (flows : list flow) : result (list plan) :=
    let? topo := topological_sort g None in
    match get_node g id with
    | None => Err KeyError
    | Some n => rmapM (bind_flow g topo (RNode id name) id n) flows
    end.
End Bind.
