(** Vocabulary for C102 and C103: what graphs compute, and when names tell values apart. *)
From Coq Require Import String.
From Verif Require Import Prelude OnxModel.
From Verif Require EncModel EncSpec.
Local Open Scope nat_scope.
Local Open Scope list_scope.

Definition made (g : graph) : list nat := g_inits g ++ flat_map n_out (g_nodes g).
Definition values (g : graph) : list nat := g_inputs g ++ made g.
(** Nodes and outputs use values of the graph, and every value is made once. *)
Definition closed (g : graph) : Prop :=
  NoDup (values g) /\ (forall n v, In n (g_nodes g) -> In (Some v) (n_in n) -> In v (values g)) /\ (forall v, In v (g_outputs g) -> In v (values g)).
(** Values have names, and different ones. *)
Definition distinct (g : graph) : Prop :=
  (forall v, In v (values g) -> g_names g v <> ""%string) /\
  (forall v w, In v (values g) -> In w (values g) -> g_names g v = g_names g w -> v = w).

(** What a graph computes, whether values are objects or names: initial values and results of nodes are bound in
    turn.  [sem]: any meaning of operators, with missing inputs. *)
Section Meaning.
  Context {K V : Type} (eqb : K -> K -> bool) (sem : nat -> list (option V) -> list V).
  Fixpoint bind (ks : list K) (xs : list V) (e : K -> option V) : K -> option V :=
    match ks, xs with k :: ks', x :: xs' => bind ks' xs' (fun j => if eqb j k then Some x else e j) | _, _ => e end.
  Definition input (e : K -> option V) (o : option K) : option V := match o with Some k => e k | None => None end.
  Definition step (e : K -> option V) (n : nat * list (option K) * list K) : K -> option V :=
    let '(op, ins, outs) := n in bind outs (sem op (map (input e) ins)) e.
  Definition meaning (inputs : list K) (inits : list (K * V)) (nodes : list (nat * list (option K) * list K)) (outputs : list K) (args : list V) : list (option V) :=
    map (fold_left step nodes (bind inputs args (bind (map fst inits) (map snd inits) (fun _ => None)))) outputs.
End Meaning.
Definition ir_meaning {V} (sem : nat -> list (option V) -> list V) (tensor : nat -> V) (g : graph) (args : list V) : list (option V) :=
  meaning Nat.eqb sem (g_inputs g) (map (fun v => (v, tensor v)) (g_inits g)) (map (fun n => (n_op n, n_in n, n_out n)) (g_nodes g)) (g_outputs g) args.
(** In a file an empty name is a missing input. *)
Definition named_input (x : string) : option string := if String.eqb x "" then None else Some x.
Definition file_meaning {V} (sem : nat -> list (option V) -> list V) (tensor : nat -> V) (p : pgraph) (args : list V) : list (option V) :=
  meaning String.eqb sem (p_inputs p) (map (fun q => (fst q, tensor (snd q))) (p_inits p)) (map (fun n => (p_op n, map named_input (p_in n), p_out n)) (p_nodes p)) (p_outputs p) args.

(** No value is called as another will be. *)
Definition apart (prefix : string) (g : graph) : Prop :=
  forall v w, In v (values g) -> In w (made g) -> g_names g v <> (prefix ++ "_" ++ g_names g w ++ "_0")%string.
(** Everything but inputs has got the prefix and the suffix. *)
Definition altered_names (prefix : string) (g g' : graph) : Prop :=
  (forall v, In v (made g) -> g_names g' v = (prefix ++ "_" ++ g_names g v ++ "_0")%string) /\ (forall v, In v (g_inputs g) -> g_names g' v = g_names g v).
(** Inputs and outputs are called as asked, and nothing else has a new name. *)
Definition renamed_io (ins outs : list string) (g g' : graph) : Prop :=
  map (g_names g') (g_inputs g) = ins /\ map (g_names g') (g_outputs g) = outs /\
  forall v, ~ In v (g_inputs g ++ g_outputs g) -> g_names g' v = g_names g v.
(** Given names: all different, and no names of values that are neither inputs nor outputs. *)
Definition usable (ins outs : list string) (g : graph) : Prop :=
  NoDup (ins ++ outs) /\ ~ In ""%string (ins ++ outs) /\
  (forall v, In v (values g) -> ~ In v (g_inputs g ++ g_outputs g) -> ~ In (g_names g v) (ins ++ outs)).
(** Nodes have names, and different ones. *)
Definition nodes_named (g : graph) : Prop :=
  (forall n, In n (g_nodes g) -> n_name n <> None) /\ NoDup (map n_name (g_nodes g)).
(** A file in which everything has the annotation of the object it comes from. *)
Definition own_metadata (g : graph) : EncModel.proto :=
  let value v := (g_names g v, g_meta g v) in
  EncModel.mkProto (map value (g_inits g)) (map value (g_inputs g)) (map (fun n => (n_meta n, map (g_names g) (n_out n))) (g_nodes g)) (map value (g_outputs g)).
(** Names an annotation may be found under. *)
Inductive related (targets : list (string * string)) (i : item) : string -> Prop :=
| related_node x : it_node i = Some x -> related targets i x
| related_target x y t : it_node i = Some x -> it_name i = Some y -> In (y, t) targets -> related targets i t
| related_from x : In x (it_from i) -> related targets i x
| related_name x : it_name i = Some x -> related targets i x
| related_output x : In x (it_outputs i) -> related targets i x.

(** ** The stages together *)
Definition inner (prefix : option string) (x : string) : string := match prefix with Some p => (p ++ "_" ++ x ++ "_0")%string | None => x end.
(** Names asked for can be given. *)
Definition settled (prefix : option string) (ins outs : list string) (g : graph) : Prop :=
  match prefix with Some p => apart p g | None => True end /\ NoDup (g_inputs g ++ g_outputs g) /\ NoDup (ins ++ outs) /\ ~ In ""%string (ins ++ outs) /\
  (forall v, In v (made g) -> ~ In v (g_outputs g) -> ~ In (inner prefix (g_names g v)) (ins ++ outs)).
(** What a value is called in the end. *)
Inductive called (prefix : option string) (ins outs : list string) (g : graph) (v : nat) : string -> Prop :=
| called_input i x : nth_error (g_inputs g) i = Some v -> nth_error ins i = Some x -> called prefix ins outs g v x
| called_output i x : nth_error (g_outputs g) i = Some v -> nth_error outs i = Some x -> called prefix ins outs g v x
| called_inner : In v (made g) -> ~ In v (g_outputs g) -> called prefix ins outs g v (inner prefix (g_names g v)).
Definition bare (g : graph) : Prop := (forall v, g_meta g v = None) /\ (forall n, In n (g_nodes g) -> n_meta n = None).
