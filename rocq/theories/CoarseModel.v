(** Models the rewriting of graphs: fastforward/_orchestration/graph_module.py: remapping of
    references, subgraphs, inlining, folds and [reduce_resolution]. *)
From Coq Require Import String Ascii DecimalString DecimalZ.
From Verif Require Import Prelude GraphModel EngineModel.
Local Open Scope nat_scope.
Local Open Scope list_scope.

(** A mapping from names to references. *)
Definition context := list (string * ref).
Definition cget (k : string) (x : context) : option ref := aget String.eqb k x.
Definition cset (k : string) (r : ref) (x : context) : context := aset String.eqb k r x.
Definition smem (k : string) (l : list string) : bool := existsb (String.eqb k) l.
Definition clookup (k : string) (x : context) : result ref := match cget k x with Some r => Ok r | None => Err KeyError end.

(** the text of an attribute in an f-string *)
Definition attr_text (a : attr) : string :=
  match a with AInt i => NilZero.string_of_int (Z.to_int i) | AStr t => t end.
(** [f"{name}[{attr}]"] *)
Definition lifted_key (n : string) (a : attr) : string := (n ++ "[" ++ attr_text a ++ "]")%string.
Definition ref_name (r : ref) : option string := match r with RNode _ n | RInput _ n => Some n | _ => None end.
Definition scoped (scope n : string) : string := if String.eqb scope "" then n else (scope ++ "." ++ n)%string.

(** graph_module.py:119-167 [remap_subgraph_reference]; [internal] are the names of the nodes of
    the subgraph *)
Fixpoint remap (cx : context) (internal : list string) (scope : string) (r : ref) : result ref :=
  match r with
  | RNode i n => if smem n internal then Ok (RNode i (scoped scope n)) else clookup n cx
  | RAttr r' a =>
      let key := match unwrap r' with
                 | RNode _ n => if smem n internal then None else Some (lifted_key n a)
                 | RInput _ n => Some (lifted_key n a)
                 | _ => None
                 end in
      match match key with Some k => cget k cx | None => None end with
      | Some x => Ok x
      | None => let? x := remap cx internal scope r' in Ok (RAttr x a)
      end
  | RInput _ n => clookup n cx
  | RConst _ => Ok r
  end.
Definition remap_args (cx : context) (internal : list string) (scope : string) (l : list ref) : result (list ref) :=
  rmapM (remap cx internal scope) l.
Definition remap_kwargs (cx : context) (internal : list string) (scope : string) (l : list (string * ref)) : result (list (string * ref)) :=
  rmapM (fun e => let? r := remap cx internal scope (snd e) in Ok (fst e, r)) l.

(** 426-437 [node_ref] *)
Definition node_of_target (g : graph) (t : nat) : result gnode :=
  match find (fun n => n_target n =? t) (g_nodes g) with Some n => Ok n | None => Err ValueError end.

(** ** Folds *)

(** 439-453 [leaf_nodes], by walking up from a node: whether [fold] encloses it. [fuel] bounds the
    number of parents. *)
Fixpoint encloses (fuel : nat) (g : graph) (fold : nat) (n : gnode) : bool :=
  match n_parent n, fuel with
  | Some p, S k => (p =? fold) || match get_node g p with Some m => encloses k g fold m | None => false end
  | _, _ => false
  end.
Definition depth (g : graph) : nat := length (g_nodes g).
Definition fold_leaves (g : graph) (fold : nat) : list nat :=
  map n_id (filter (fun n => leaf g n && encloses (depth g) g fold n) (g_nodes g)).

(** 455-473 [fold_outputs] *)
Definition output_ids (g : graph) : list nat := base_ids (g_outputs g).
Definition fold_outputs (g : graph) (fold : nat) : list nat :=
  let ls := fold_leaves g fold in
  filter (fun x => existsb (fun c => negb (nmem c ls) && negb (nmem c (g_folds g))) (node_outputs g x) || nmem x (output_ids g)) ls.

(** ** Subgraphs *)

Fixpoint sdedup (seen l : list string) : list string :=
  match l with
  | [] => []
  | x :: l' => if smem x seen then sdedup seen l' else x :: sdedup (x :: seen) l'
  end.
Fixpoint rdedup (seen l : list ref) : list ref :=
  match l with
  | [] => []
  | x :: l' => if rmem x seen then rdedup seen l' else x :: rdedup (x :: seen) l'
  end.

(** 793-808 [_external_dependencies] *)
Definition external_dependency (path : list nat) (r : ref) : list string :=
  match unwrap r with
  | RInput _ n => [match r with RAttr _ a => lifted_key n a | _ => n end]
  | RNode i n => if nmem i path then [] else [match r with RAttr _ a => lifted_key n a | _ => n end]
  | _ => []
  end.

Section Order.
  (** The order in which Python lists a set of references, and one of ids. *)
  Variable ord ord' : list nat -> list nat.

  (** 810-817 *)
  Definition external_inputs (path : list nat) (nodes : list gnode) : list string :=
    sdedup [] (flat_map (fun n => flat_map (external_dependency path) (call_refs n)) nodes).
  (** 825-845 *)
  Definition external_outputs (g : graph) (path : list nat) : list ref :=
    rdedup []
      (filter (fun r => match unwrap r with RNode i _ => nmem i path | _ => false end) (g_outputs g) ++
       flat_map (fun i => flat_map (fun d => if nmem d path then []
                                             else match get_node g d with
                                                  | Some n => flat_map (fun r => match unwrap r with RNode j m => if j =? i then [RNode j m] else [] | _ => [] end) (call_refs n)
                                                  | None => []
                                                  end) (node_outputs g i)) (ord path)).

  (** [graph._nodes[i]] for the nodes of a set *)
  Definition nodes_of (g : graph) (l : list nat) : result (list gnode) :=
    rmapM (fun i => match get_node g i with Some n => Ok n | None => Err KeyError end) l.

  (** 777-861 [create_subgraph].  New ids are numbered.  Registering modules as children of the new
      module is left out. *)
  Definition create_subgraph (g : graph) (path : list nat) : result graph :=
    let? ns := nodes_of g (ord path) in
    let ins := external_inputs path ns in
    let inputs := combine ins (seq 0 (length ins)) in
    let cx := map (fun e => (fst e, RInput (snd e) (fst e))) inputs in
    let internal := map n_name ns in
    let? ns' := nodes_of g (ord' path) in
    let? nodes := rmapM (fun n =>
      let? a := remap_args cx internal "" (n_args n) in
      let? k := remap_kwargs cx internal "" (n_kwargs n) in
      Ok (mkNode (n_id n) (n_name n) (n_target n) a (n_op n) k None None)) ns' in
    let? outs := remap_args cx internal "" (external_outputs g path) in
    Ok (mkGraph nodes inputs outs []).

  (** ** Specs *)
  Inductive region := RModule (t : nat) | RSpan (a b : nat) | RGroup (l : list nat).
  (** graph_module.py:1036-1064 [SubgraphSpec] *)
  Record subgraph_spec := mkSpec { s_region : region; s_delegate : delegate }.

  Definition set_eqb (a b : list nat) : bool := forallb (fun x => nmem x b) a && forallb (fun x => nmem x a) b.
  (** 1038-1050 [_validate_siblings] *)
  Definition siblings (g : graph) (l : list gnode) : bool :=
    match l with
    | [] | [_] => true
    | n :: l' => forallb (fun m => set_eqb (inputs_of m) (inputs_of n) && set_eqb (node_outputs g (n_id m)) (node_outputs g (n_id n))) l'
    end.
  (** the fuel of [ancestors]: no node is handled twice, and every node adds its neighbours *)
  Definition walk_fuel (g : graph) : nat := S (length (g_nodes g) * S (length (g_nodes g)) + length (flat_map call_refs (g_nodes g))).

  (** 1066-1083 [SubgraphSpec.resolve]: the nodes and, for a span or a group, the subgraph.  A module
      that is itself a graph is left out. *)
  Definition resolve_spec (g : graph) (sp : subgraph_spec) : result (list nat * option graph) :=
    match s_region sp with
    | RModule t => let? n := node_of_target g t in Ok ([n_id n], None)
    | RSpan a b =>
        let? na := node_of_target g a in
        let? nb := node_of_target g b in
        let? (path, reached) := ancestors (walk_fuel g) g (n_id nb) (Some (n_id na)) true in
        if negb reached then Err ValueError
        else let? sub := create_subgraph g path in Ok (path, Some sub)
    | RGroup l =>
        let? ns := rmapM (node_of_target g) l in
        if siblings g ns then
          let path := dedup [] (map n_id ns) in
          let? sub := create_subgraph g path in Ok (path, Some sub)
        else Err ValueError
    end.

  (** ** Coarsening *)

  (** 1111-1123 [has_target_descendant] *)
  Definition has_target (g : graph) (targets : list nat) (fold : nat) : bool :=
    existsb (fun n => nmem (n_id n) targets && encloses (depth g) g fold n) (g_nodes g).
  Definition onat_eqb (a b : option nat) : bool :=
    match a, b with Some x, Some y => x =? y | None, None => true | _, _ => false end.
  (** 1127-1141 [collect] *)
  Fixpoint collect (fuel : nat) (g : graph) (targets : list nat) (fold : option nat) : result (list nat) :=
    match fuel with
    | 0 => Err RecursionError
    | S k =>
        let children := map n_id (filter (fun n => onat_eqb (n_parent n) fold) (g_nodes g)) in
        let? ls := rmapM (fun c =>
          if nmem c targets then Ok []
          else if nmem c (g_folds g) && has_target g targets c then collect k g targets (Some c)
          else Ok [c]) children in
        Ok (concat ls)
    end.
  (** 1106-1144 [_coarse_complement] *)
  Definition coarse_complement (g : graph) (targets : list nat) : result (list nat) :=
    collect (S (depth g)) g targets None.

  (** What the reduced graph is made of: nodes of the graph, and subgraphs by number. *)
  Inductive unit_ := UNode (i : nat) | USub (k : nat) (sub : graph).

  Fixpoint index_of (x : nat) (l : list nat) : option nat :=
    match l with [] => None | y :: l' => if x =? y then Some 0 else option_map S (index_of x l') end.
  Definition position (topo : list nat) (x : nat) : result nat :=
    match index_of x topo with Some i => Ok i | None => Err KeyError end.
  (** 1092-1102 [_sort_key] *)
  Definition sort_key (g : graph) (topo : list nat) (u : unit_) : result nat :=
    match u with
    | UNode i =>
        if nmem i (g_folds g) then
          let? ks := rmapM (position topo) (fold_outputs g i) in Ok (fold_left Nat.max ks 0)
        else position topo i
    | USub _ sub =>
        let? ks := rmapM (position topo) (base_ids (g_outputs sub)) in
        match ks with [] => Err ValueError | _ => Ok (fold_left Nat.max ks 0) end
    end.
  (** [sorted]: stable *)
  Fixpoint insert (k : nat) (u : unit_) (l : list (nat * unit_)) : list (nat * unit_) :=
    match l with
    | [] => [(k, u)]
    | (k', v) :: l' => if k' <=? k then (k', v) :: insert k u l' else (k, u) :: l
    end.
  Definition sort_units (l : list (nat * unit_)) : list unit_ := map snd (fold_left (fun acc e => insert (fst e) (snd e) acc) l []).
  (** 1088-1104 [node_order] *)
  Definition node_order (g : graph) (us : list unit_) : result (list unit_) :=
    let? topo := topological_sort g None in
    let? ks := rmapM (fun u => let? k := sort_key g topo u in Ok (k, u)) us in
    Ok (sort_units ks).

  (** [str.partition("[")], when the separator is found *)
  Fixpoint partition_bracket (t : string) : option (string * string) :=
    match t with
    | EmptyString => None
    | String ch t' =>
        if Ascii.eqb ch "["%char then Some (EmptyString, t')
        else match partition_bracket t' with Some (a, b) => Some (String ch a, b) | None => None end
    end.
  (** [rest[:-1]], if [rest] ends with a bracket *)
  Fixpoint strip_bracket (t : string) : option string :=
    match t with
    | EmptyString => None
    | String ch EmptyString => if Ascii.eqb ch "]"%char then Some EmptyString else None
    | String ch t' => option_map (String ch) (strip_bracket t')
    end.
  (** [int(inner)], for decimal numbers only *)
  Definition parse_attr (t : string) : attr :=
    match NilZero.int_of_string t with Some i => AInt (Z.of_int i) | None => AStr t end.
  (** 1147-1157 [_resolve_subgraph_input] *)
  Definition resolve_input (cx : context) (name : string) : result ref :=
    match partition_bracket name with
    | None => clookup name cx
    | Some (base, rest) =>
        match strip_bracket rest with
        | None => clookup name cx
        | Some inner => let? r := clookup base cx in Ok (RAttr r (parse_attr inner))
        end
    end.

  (** enumerating outputs: the new reference for each *)
  Definition output_refs {A} (r : ref) (l : list A) : list (A * ref) :=
    match l with
    | [x] => [(x, r)]
    | _ => map (fun e => (fst e, RAttr r (AInt (Z.of_nat (snd e))))) (combine l (seq 0 (length l)))
    end.
  Definition bind_all (cx : context) (l : list (string * ref)) : context := fold_left (fun cx e => cset (fst e) (snd e) cx) l cx.

  (** the targets of subgraphs are numbers not in use *)
  Definition first_free (g : graph) : nat := S (list_max (map n_target (g_nodes g))).
  Definition sub_name (k : nat) : string := ("subgraph_" ++ NilZero.string_of_int (Z.to_int (Z.of_nat k)))%string.

  (** 1205-1240: one node of the new graph; the context and the nodes so far *)
  Definition place (g : graph) (st : context * list gnode) (u : unit_) : result (context * list gnode) :=
    let '(cx, nodes) := st in
    let id := length nodes in
    match u with
    | USub k sub =>
        let? args := rmapM (resolve_input cx) (map fst (g_inputs sub)) in
        let name := sub_name k in
        let r := RNode id name in
        let outs := flat_map (fun e => match unwrap (fst e) with RNode _ n => [(n, snd e)] | _ => [] end) (output_refs r (g_outputs sub)) in
        Ok (bind_all cx outs, nodes ++ [mkNode id name (first_free g + k) args TorchModule [] None None])
    | UNode i =>
        match get_node g i with
        | None => Err KeyError
        | Some n =>
            let? args := remap_args cx [] "" (n_args n) in
            let? kwargs := remap_kwargs cx [] "" (n_kwargs n) in
            let r := RNode id (n_name n) in
            let cx := cset (n_name n) r cx in
            let outs := if nmem i (g_folds g) then
                          flat_map (fun e => match get_node g (fst e) with Some m => [(n_name m, snd e)] | None => [] end) (output_refs r (fold_outputs g i))
                        else [] in
            Ok (bind_all cx outs, nodes ++ [mkNode id (n_name n) (n_target n) args (n_op n) kwargs None None])
        end
    end.

  (** 1176-1192: targets, subgraphs and the target of every spec *)
  Fixpoint resolve_all (g : graph) (k : nat) (specs : list subgraph_spec) (seen : list nat)
    : result (list nat * list (list nat * nat * graph) * list nat) :=
    match specs with
    | [] => Ok (seen, [], [])
    | sp :: specs' =>
        let? (nodes, sub) := resolve_spec g sp in
        if existsb (fun x => nmem x seen) nodes then Err ValueError
        else match sub with
             | None =>
                 let? (targets, subs, ts) := resolve_all g k specs' (seen ++ nodes) in
                 Ok (targets, subs, match s_region sp with RModule t => t | _ => 0 end :: ts)
             | Some sub =>
                 let? (targets, subs, ts) := resolve_all g (S k) specs' (seen ++ nodes) in
                 Ok (targets, (nodes, k, sub) :: subs, (first_free g + k) :: ts)
             end
    end.

  (** 1248-1252: the first node with the target gets the delegate *)
  Fixpoint set_delegate (t : nat) (d : delegate) (l : list gnode) : result (list gnode) :=
    match l with
    | [] => Err ValueError
    | n :: l' =>
        if n_target n =? t then Ok (mkNode (n_id n) (n_name n) (n_target n) (n_args n) (n_op n) (n_kwargs n) (Some d) (n_parent n) :: l')
        else rmap (cons n) (set_delegate t d l')
    end.

  (** 1160-1262 [reduce_resolution]: the new graph, the subgraphs that are targets of its nodes, and
      the target of every spec.  Subgraphs are named in the order of the specs; the code names them in the
      order in which they are placed. *)
  Definition reduce_resolution (g : graph) (specs : list subgraph_spec) : result (graph * list (nat * graph) * list nat) :=
    let? (targets, subs, ts) := resolve_all g 0 specs [] in
    let? complement := coarse_complement g targets in
    let paths := flat_map (fun e => fst (fst e)) subs in
    let rest := filter (fun x => negb (nmem x paths)) (ord targets) in
    let us := map UNode rest ++ map UNode complement ++ map (fun e => USub (snd (fst e)) (snd e)) subs in
    let? order := node_order g us in
    let inputs := combine (map fst (g_inputs g)) (seq 0 (length (g_inputs g))) in
    let cx0 := map (fun e => (fst e, RInput (snd e) (fst e))) inputs in
    let? (cx, nodes) := rfold (place g) order (cx0, []) in
    let? outs := remap_args cx [] "" (g_outputs g) in
    if existsb (fun r => match r with RNode _ _ | RAttr _ _ => false | _ => true end) outs then Err AssertionError
    else
      let? nodes' := rfold (fun l e => set_delegate (fst e) (s_delegate (snd e)) l) (combine ts specs) nodes in
      Ok (mkGraph nodes' inputs outs [], map (fun e => (first_free g + snd (fst e), snd e)) subs, ts).
End Order.
