(** Models how graphs are built and called: fastforward/_orchestration/graph_module.py: [add_input],
    [add_output], [add_node], [add_subgraph], [_sanitize_inputs] and [forward]. *)
From Coq Require Import String Ascii.
From Verif Require Import Prelude GraphModel EngineModel CoarseModel.
Local Open Scope nat_scope.
Local Open Scope list_scope.

(** ** Building *)

(** graph_module.py:489-496 [add_input]; [id] is the new id *)
Definition add_input (g : graph) (name : string) (id : nat) : result graph :=
  if existsb (fun e => String.eqb (fst e) name) (g_inputs g) then Err ValueError
  else Ok (mkGraph (g_nodes g) (g_inputs g ++ [(name, id)]) (g_outputs g) (g_folds g)).

Definition has_id (g : graph) (id : nat) : bool := nmem id (map n_id (g_nodes g)).

(** 498-521 [add_output]: outputs before a bad one stay *)
Fixpoint add_output (g : graph) (l : list ref) : graph * result unit :=
  match l with
  | [] => (g, Ok tt)
  | r :: l' =>
      match unwrap r with
      | RNode i _ => if has_id g i then add_output (mkGraph (g_nodes g) (g_inputs g) (g_outputs g ++ [r]) (g_folds g)) l' else (g, Err ValueError)
      | _ => (g, Err ValueError)
      end
  end.

(** 523-596 [add_node]; registering the target as a child module is left out, with the errors this
    can raise *)
Definition add_node (g : graph) (n : gnode) : result graph :=
  if has_id g (n_id n) then Err ValueError
  else Ok (mkGraph (g_nodes g ++ [n]) (g_inputs g) (g_outputs g) (g_folds g)).

(** 644-655: the inputs of the subgraph by name *)
Fixpoint bind_kwargs (names : list string) (kwargs : list (string * ref)) (b : context) : result context :=
  match kwargs with
  | [] => Ok b
  | (k, r) :: kw =>
      if negb (smem k names) then Err ValueError
      else match cget k b with Some _ => Err ValueError | None => bind_kwargs names kw (cset k r b) end
  end.
Definition zip {A B} (l : list A) (l' : list B) : list (A * B) := combine l l'.

(** 688-707: one node of the subgraph; [fold] is the new fold *)
Definition inline_node (cx : context) (internal : list string) (name : string) (fold : option nat) (folds : list nat) (g : graph) (n : gnode) : result graph :=
  let? a := remap_args cx internal name (n_args n) in
  let? k := remap_kwargs cx internal name (n_kwargs n) in
  let? g' := add_node g (mkNode (n_id n) (name ++ "." ++ n_name n) (n_target n) a (n_op n) k None
                           match n_parent n with Some p => Some p | None => fold end) in
  Ok (if nmem (n_id n) folds then mkGraph (g_nodes g') (g_inputs g') (g_outputs g') (g_folds g' ++ [n_id n]) else g').
Fixpoint inline_nodes (cx : context) (internal : list string) (name : string) (fold : option nat) (folds : list nat) (g : graph) (l : list gnode) : graph * result unit :=
  match l with
  | [] => (g, Ok tt)
  | n :: l' => match inline_node cx internal name fold folds g n with
               | Ok g' => inline_nodes cx internal name fold folds g' l'
               | Err e => (g, Err e)
               end
  end.

(** 598-725 [add_subgraph]: the graph, also if it raises, and the outputs of the subgraph in it.
    [fid] is the id of the new fold.  [_fold_bindings] is left out: nothing reads it. *)
Definition add_subgraph (g : graph) (fid : nat) (name : string) (sub : graph) (args : list ref) (kwargs : list (string * ref)) (original : option nat)
  : graph * result (list ref) :=
  match g_outputs sub with
  | [] => (g, Err ValueError)
  | _ =>
      if negb (length args + length kwargs =? length (g_inputs sub)) then (g, Err ValueError)
      else
        let names := map fst (g_inputs sub) in
        match bind_kwargs names kwargs (zip names args) with
        | Err e => (g, Err e)
        | Ok cx =>
            match
              match original with
              | None => Ok (g, None)
              | Some t =>
                  let? fk := rmapM (fun e => let? r := clookup (fst e) cx in Ok (fst e, r)) kwargs in
                  let? fa := rmapM (fun n => clookup n cx) (filter (fun n => negb (smem n (map fst fk))) names) in
                  Ok (mkGraph (g_nodes g ++ [mkNode fid name t fa TorchModule fk None None]) (g_inputs g) (g_outputs g) (g_folds g ++ [fid]), Some fid)
              end
            with
            | Err e => (g, Err e)
            | Ok (g1, fold) =>
                let internal := map n_name (g_nodes sub) in
                let sorted := filter (fun n => nmem (n_id n) (g_folds sub)) (g_nodes sub) ++ filter (fun n => negb (nmem (n_id n) (g_folds sub))) (g_nodes sub) in
                match inline_nodes cx internal name fold (g_folds sub) g1 sorted with
                | (g2, Err e) => (g2, Err e)
                | (g2, Ok _) => (g2, remap_args cx internal name (g_outputs sub))
                end
            end
        end
  end.

(** ** Calling *)
Section Call.
  Context {X U : Type} (s : semantics X U).
  Notation V := (val X).
  (** Strings as values, and [list(iter(o))] of objects that are no tensors, tuples, lists or
      dictionaries, if they can be iterated. *)
  Variable text : string -> V.
  Variable iterate : X -> list (string * V) -> option (list V).

  (** the elements of an iterable *)
  Definition elements (a : given (X:=X)) : option (list V) :=
    match a with
    | GDataset l | GLoader l => Some l
    | GValue (Tensor _ _) => None
    | GValue (Tup _ l) | GValue (Lst l) => Some l
    | GValue (Dic l) => Some (map (fun e => text (fst e)) l)
    | GValue (Obj x f) => iterate x f
    end.
  (** [all(hasattr(v, name) for name in names)] *)
  Fixpoint has_all (v : V) (names : list string) : result bool :=
    match names with
    | [] => Ok true
    | n :: ns => match getattr s v n with
                 | Ok _ => has_all v ns
                 | Err AttributeError => Ok false
                 | Err e => Err e
                 end
    end.
  (** one list per input *)
  Definition columns {K} (get : V -> K -> result V) (bs : list V) (keys : list (string * K)) : result (list (string * given (X:=X))) :=
    rmapM (fun e => let? l := rmapM (fun b => get b (snd e)) bs in Ok (fst e, GValue (Lst l))) keys.

  (** graph_module.py:244-293 [_sanitize_inputs] *)
  Definition sanitize (names : list string) (args : list (given (X:=X))) (kwargs : list (string * given (X:=X)))
    : result (list (given (X:=X)) * list (string * given (X:=X))) :=
    match args, kwargs with
    | [a], [] =>
        match elements a with
        | None | Some [] => Ok (args, kwargs)
        | Some ((first :: _) as bs) =>
            match first with
            | Dic l =>
                if forallb (fun n => existsb (fun e => String.eqb (fst e) n) l) names
                then let? c := columns (fun b n => item s b (AStr n)) bs (map (fun n => (n, n)) names) in Ok ([], c)
                else let? h := has_all first names in
                     if h then let? c := columns (fun b n => getattr s b n) bs (map (fun n => (n, n)) names) in Ok ([], c)
                     else Ok ([GValue (Lst bs)], [])
            | Tup _ l | Lst l =>
                if length l =? length names
                then let? c := columns (fun b i => item s b (AInt (Z.of_nat i))) bs (combine names (seq 0 (length names))) in Ok ([], c)
                else let? h := has_all first names in
                     if h then let? c := columns (fun b n => getattr s b n) bs (map (fun n => (n, n)) names) in Ok ([], c)
                     else Ok ([GValue (Lst bs)], [])
            | Tensor _ _ => Ok ([GValue (Lst bs)], [])
            | Obj _ _ => let? h := has_all first names in
                         if h then let? c := columns (fun b n => getattr s b n) bs (map (fun n => (n, n)) names) in Ok ([], c)
                         else Ok ([GValue (Lst bs)], [])
            end
        end
    | _, _ => Ok (args, kwargs)
    end.

  (** 346-365: the graph and the program, if [_engine] is set *)
  Record gmodule := mkGm { m_graph : graph; m_program : option (program (X:=X)) }.
  Inductive returned := Nothing | One (v : V) | PerContext (o : output (X:=X)).
  (** 759-774 *)
  Definition finish (r : world U * result (register X * option (output (X:=X)))) : world U * result returned :=
    let '(w, r) := r in
    (w, match r with
        | Err e => Err e
        | Ok (_, None) => Ok Nothing
        | Ok (_, Some [(_, Single [v])]) => Ok (One v)
        | Ok (_, Some [(_, Multi [row])]) => Ok (One (Tup [] row))
        | Ok (_, Some o) => Ok (PerContext o)
        end).
  (** 727-774 [forward] *)
  Definition forward (order : list nat -> list nat) (m : gmodule) (args : list (given (X:=X))) (kwargs : list (string * given (X:=X))) (w : world U)
    : gmodule * (world U * result returned) :=
    match sanitize (map fst (g_inputs (m_graph m))) args kwargs with
    | Err e => (m, (w, Err e))
    | Ok (a, k) =>
        match m_program m with
        | Some p => (m, finish (run s order p a k w))
        | None => match schedule s order (m_graph m) with
                  | Err e => (m, (w, Err e))
                  | Ok p => (mkGm (m_graph m) (Some p), finish (run s order p a k w))
                  end
        end
    end.

  (** The operations on a module.  Only [add_node] and [add_subgraph] drop the program (571, 638);
      a rejected node or a subgraph without outputs does not. *)
  Inductive operation :=
  | AddInput (name : string) (id : nat)
  | AddOutput (l : list ref)
  | AddNode (n : gnode)
  | AddSubgraph (fid : nat) (name : string) (sub : graph) (args : list ref) (kwargs : list (string * ref)) (original : option nat)
  | Forward (args : list (given (X:=X))) (kwargs : list (string * given (X:=X))).
  Definition step (order : list nat -> list nat) (o : operation) (m : gmodule) (w : world U) : gmodule * world U :=
    match o with
    | AddInput name id => (match add_input (m_graph m) name id with Ok g => mkGm g (m_program m) | Err _ => m end, w)
    | AddOutput l => (mkGm (fst (add_output (m_graph m) l)) (m_program m), w)
    | AddNode n => (match add_node (m_graph m) n with Ok g => mkGm g None | Err _ => m end, w)
    | AddSubgraph fid name sub args kwargs original =>
        (mkGm (fst (add_subgraph (m_graph m) fid name sub args kwargs original)) match g_outputs sub with [] => m_program m | _ => None end, w)
    | Forward args kwargs => let '(m', (w', _)) := forward order m args kwargs w in (m', w')
    end.
  Fixpoint steps (order : list nat -> list nat) (l : list operation) (m : gmodule) (w : world U) : gmodule * world U :=
    match l with
    | [] => (m, w)
    | o :: l' => let '(m', w') := step order o m w in steps order l' m' w'
    end.
End Call.
Arguments gmodule X : clear implicits. Arguments mkGm {X}. Arguments m_graph {X}. Arguments m_program {X}.
Arguments returned X : clear implicits. Arguments Nothing {X}. Arguments One {X}. Arguments PerContext {X}.
Arguments operation X : clear implicits. Arguments AddInput {X}. Arguments AddOutput {X}. Arguments AddNode {X}. Arguments AddSubgraph {X}. Arguments Forward {X}.
