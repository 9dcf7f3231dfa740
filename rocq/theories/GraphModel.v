(** Models graphs of traced modules: fastforward/_orchestration/graph_module.py: references, nodes,
    [GraphModule]'s edges and the graph algorithms. *)
From Coq Require Import String Ascii.
From Verif Require Import Prelude.
Local Open Scope nat_scope.
Local Open Scope list_scope.

(** graph_module.py:31-111: references. Ids ([uuid.UUID]) are numbers. *)
Inductive attr := AInt (i : Z) | AStr (s : string).
Inductive ref :=
| RNode (id : nat) (name : string)     (* 56-65 [NodeRef] *)
| RInput (id : nat) (name : string)    (* 68-77 [InputRef] *)
| RConst (id : nat)                    (* 80-92 [Const]; its value is a function of its id *)
| RAttr (r : ref) (a : attr).          (* 95-116 [AttributeRef] *)

Definition attr_eqb (a b : attr) : bool :=
  match a, b with AInt i, AInt j => Z.eqb i j | AStr s, AStr t => String.eqb s t | _, _ => false end.
(** the generated [__eq__] of these data classes; names do not compare *)
Fixpoint ref_eqb (a b : ref) : bool :=
  match a, b with
  | RNode i _, RNode j _ | RInput i _, RInput j _ | RConst i, RConst j => i =? j
  | RAttr r x, RAttr s y => ref_eqb r s && attr_eqb x y
  | _, _ => false
  end.

(** graph_module.py:42-44, 112-116 [unwrap_ref] *)
Fixpoint unwrap (r : ref) : ref := match r with RAttr r' _ => unwrap r' | _ => r end.

(** graph_module.py:178-192 [Op] *)
Inductive op := TorchModule | CallFunction | CallMethod | GetAttr.
(** graph_module.py:165-176 [Delegate]: the function and the context managers, as numbers *)
Record delegate := mkDelegate { d_fn : nat; d_contexts : list nat }.
(** graph_module.py:195-241 [Node]. A target is a number. *)
Record gnode := mkNode {
  n_id : nat; n_name : string; n_target : nat; n_args : list ref; n_op : op;
  n_kwargs : list (string * ref); n_delegate : option delegate; n_parent : option nat }.
(** graph_module.py:346-360 [GraphModule]: [_nodes] in insertion order, [_inputs], [_outputs] and
    [_fold_ids]. [_node_refs] has the same keys as [_nodes], in the same order. *)
Record graph := mkGraph { g_nodes : list gnode; g_inputs : list (string * nat); g_outputs : list ref; g_folds : list nat }.

Definition node_ref_of (n : gnode) : ref := RNode (n_id n) (n_name n).
Definition get_node (g : graph) (id : nat) : option gnode := find (fun n => n_id n =? id) (g_nodes g).

(** all references of a node: positional arguments, then keyword arguments *)
Definition call_refs (n : gnode) : list ref := n_args n ++ map snd (n_kwargs n).
(** the ids of the nodes among the unwrapped references, each once, in order *)
Definition base_ids (l : list ref) : list nat :=
  flat_map (fun r => match unwrap r with RNode i _ => [i] | _ => [] end) l.
Fixpoint dedup (seen : list nat) (l : list nat) : list nat :=
  match l with
  | [] => []
  | x :: l' => if existsb (Nat.eqb x) seen then dedup seen l' else x :: dedup (x :: seen) l'
  end.

(** graph_module.py:379-395 [node_inputs] *)
Definition inputs_of (n : gnode) : list nat := dedup [] (base_ids (call_refs n)).
Definition node_inputs (g : graph) (id : nat) : result (list nat) :=
  match get_node g id with Some n => Ok (inputs_of n) | None => Err KeyError end.
(** graph_module.py:397-414 [node_outputs] of a node of the graph *)
Definition node_outputs (g : graph) (id : nat) : list nat :=
  map n_id (filter (fun n => existsb (Nat.eqb id) (base_ids (call_refs n))) (g_nodes g)).

(** graph_module.py:878 [leaf_refs] *)
Definition leaf (g : graph) (n : gnode) : bool := negb (existsb (Nat.eqb (n_id n)) (g_folds g)).
Definition leaves (g : graph) : list nat := map n_id (filter (leaf g) (g_nodes g)).

(** an entry of the dictionary of in-degrees *)
Definition degrees := list (nat * Z).
Definition deg (d : degrees) (x : nat) : Z := match find (fun e => fst e =? x) d with Some e => snd e | None => 0%Z end.
Definition decr (d : degrees) (x : nat) : degrees :=
  map (fun e => if fst e =? x then (fst e, (snd e - 1)%Z) else e) d.

(** graph_module.py:891-895: the dependents of one node *)
Definition relax (g : graph) (st : degrees * list nat) (dep : nat) : degrees * list nat :=
  if existsb (Nat.eqb dep) (leaves g) then
    let d := decr (fst st) dep in
    if (deg d dep =? 0)%Z then (d, snd st ++ [dep]) else (d, snd st)
  else st.
(** graph_module.py:887-895: the while loop; [fuel] bounds the number of iterations *)
Fixpoint kahn (fuel : nat) (g : graph) (d : degrees) (queue order : list nat) : result (list nat) :=
  match queue with
  | [] => Ok order
  | x :: q =>
      match fuel with
      | 0 => Err RecursionError
      | S k => let '(d', q') := fold_left (relax g) (node_outputs g x) (d, q) in kahn k g d' q' (order ++ [x])
      end
  end.
(** graph_module.py:864-910 [topological_sort]; nodes are given by their ids. The loop runs at most
    once per leaf. *)
Definition topological_sort (g : graph) (closure : option (list nat)) : result (list nat) :=
  let ls := filter (leaf g) (g_nodes g) in
  let d := map (fun n => (n_id n, Z.of_nat (length (inputs_of n)))) ls in
  let queue := map fst (filter (fun e => (snd e =? 0)%Z) d) in
  let? order := kahn (length ls) g d queue [] in
  if negb (length order =? length ls) then Err ValueError
  else match closure with
       | None => Ok order
       | Some c => if existsb (fun x => negb (existsb (Nat.eqb x) (map n_id ls))) c then Err ValueError
                   else Ok (filter (fun x => existsb (Nat.eqb x) c) order)
       end.

(** graph_module.py:932-943: the backward walk of [ancestors]; the end of the Python list is the
    head here *)
Fixpoint backward (fuel : nat) (g : graph) (stop : option nat) (frontier collected : list nat) (reached : bool)
  : result (list nat * bool) :=
  match frontier with
  | [] => Ok (collected, reached)
  | x :: f =>
      match fuel with
      | 0 => Err RecursionError
      | S k =>
          if existsb (Nat.eqb x) collected then backward k g stop f collected reached
          else if match stop with Some s => x =? s | None => false end
          then backward k g stop f (x :: collected) true
          else let? ins := node_inputs g x in backward k g stop (rev ins ++ f) (x :: collected) reached
      end
  end.
(** graph_module.py:950-957: the forward walk *)
Fixpoint forward (fuel : nat) (g : graph) (collected frontier on_path : list nat) : result (list nat) :=
  match frontier with
  | [] => Ok on_path
  | x :: f =>
      match fuel with
      | 0 => Err RecursionError
      | S k =>
          if existsb (Nat.eqb x) on_path then forward k g collected f on_path
          else match get_node g x with
               | None => Err KeyError
               | Some _ =>
                   forward k g collected
                     (rev (filter (fun o => existsb (Nat.eqb o) collected) (node_outputs g x)) ++ f) (x :: on_path)
               end
      end
  end.
(** graph_module.py:913-958 [ancestors] *)
Definition ancestors (fuel : nat) (g : graph) (node : nat) (stop : option nat) (strict : bool) : result (list nat * bool) :=
  if strict && match stop with None => true | _ => false end then Err ValueError
  else
    let? (collected, reached) := backward fuel g stop [node] [] (match stop with None => true | _ => false end) in
    if negb strict then Ok (collected, reached)
    else if negb reached then Ok ([], false)
    else let? p := forward fuel g collected (match stop with Some s => [s] | None => [] end) [] in Ok (p, reached).

(** graph_module.py:961-988 [find_cycle]. [edges] is the dictionary: each set of successors is the
    list of its elements in the order the set is iterated in. *)
Inductive colour := Unvisited | Visiting | Visited.
Definition colour_eqb (a b : colour) : bool :=
  match a, b with Unvisited, Unvisited | Visiting, Visiting | Visited, Visited => true | _, _ => false end.
Definition edge_map := list (nat * list nat).
Definition paint (st : list (nat * colour)) (x : nat) (c : colour) : list (nat * colour) :=
  map (fun e => if fst e =? x then (x, c) else e) st.
Definition colour_of (st : list (nat * colour)) (x : nat) : result colour :=
  match find (fun e => fst e =? x) st with Some e => Ok (snd e) | None => Err KeyError end.
Definition succs (edges : edge_map) (x : nat) : result (list nat) :=
  match find (fun e => fst e =? x) edges with Some e => Ok (snd e) | None => Err KeyError end.
(** [path[path.index(x):]] *)
Fixpoint from_first (x : nat) (path : list nat) : list nat :=
  match path with [] => [] | y :: p => if y =? x then path else from_first x p end.
(** graph_module.py:982-987: the loop over the successors; a cycle found, or the new stack *)
Fixpoint scan (st : list (nat * colour)) (path ss : list nat) (stack : list (nat * list nat))
  : result (list nat + list (nat * list nat)) :=
  match ss with
  | [] => Ok (inr stack)
  | s :: ss' =>
      let? c := colour_of st s in
      match c with
      | Visiting => Ok (inl (from_first s path ++ [s]))
      | Unvisited => scan st path ss' ((s, path ++ [s]) :: stack)
      | Visited => scan st path ss' stack
      end
  end.
(** graph_module.py:974-987: the while loop; the end of the Python list is the head of [stack] *)
Fixpoint dig (fuel : nat) (edges : edge_map) (st : list (nat * colour)) (stack : list (nat * list nat))
  : result (list nat + list (nat * colour)) :=
  match stack with
  | [] => Ok (inr st)
  | (x, path) :: s =>
      match fuel with
      | 0 => Err RecursionError
      | S k =>
          let? c := colour_of st x in
          if colour_eqb c Visiting then dig k edges (paint st x Visited) s
          else
            let st := paint st x Visiting in
            let? ss := succs edges x in
            let? r := scan st path ss ((x, path) :: s) in
            match r with
            | inl cyc => Ok (inl cyc)
            | inr s' => dig k edges st s'
            end
      end
  end.
Fixpoint from_roots (fuel : nat) (edges : edge_map) (st : list (nat * colour)) (roots : list nat) : result (option (list nat)) :=
  match roots with
  | [] => Ok None
  | r :: rs =>
      let? c := colour_of st r in
      if colour_eqb c Unvisited then
        let? x := dig fuel edges st [(r, [r])] in
        match x with inl cyc => Ok (Some cyc) | inr st' => from_roots fuel edges st' rs end
      else from_roots fuel edges st rs
  end.
Definition find_cycle (fuel : nat) (edges : edge_map) : result (option (list nat)) :=
  from_roots fuel edges (map (fun e => (fst e, Unvisited)) edges) (map fst edges).
