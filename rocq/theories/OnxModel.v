(** Models what happens to an ONNX model between torch's exporter and the encodings file:
    fastforward/export/_onnx_helpers.py [_fix_onnx_names] and
    fastforward/export/stages/onnx/onnx_export_stages.py ([OnnxQuantMetadataAnnotator],
    [_rename_onnx_input_output_names], [stage_onnx_program_to_proto], [OnnxIrToProtoMetadataCopier]).

    Values of the intermediate representation (IR) are objects that inputs, initializers, nodes and outputs share:
    they are numbers, and their names are kept apart.  A missing name is the empty string for values and [None] for
    nodes. *)
From Coq Require Import String.
From Verif Require Import Prelude.
From Verif Require EncModel.
Local Open Scope nat_scope.
Local Open Scope list_scope.

Notation metadata := EncModel.metadata.

Record node := mkNode { n_name : option string; n_op : nat; n_in : list (option nat); n_out : list nat; n_meta : option metadata }.
Record graph := mkGraph {
  g_inputs : list nat; g_inits : list nat; g_nodes : list node; g_outputs : list nat;
  g_names : nat -> string; g_meta : nat -> option metadata }.
Definition with_names (g : graph) (names : nat -> string) : graph := mkGraph (g_inputs g) (g_inits g) (g_nodes g) (g_outputs g) names (g_meta g).

Definition upd {A} (v : nat) (x : A) (f : nat -> A) : nat -> A := fun w => if w =? v then x else f w.
Fixpoint lookup (x : string) (l : list (string * string)) : option string :=
  match l with [] => None | (y, z) :: l' => if String.eqb x y then Some z else lookup x l' end.

(** ** _onnx_helpers.py:18-72 *)
Definition altered (prefix old : string) : string := (prefix ++ "_" ++ old ++ "_0")%string.
(** 24-29 and 39-45; the mapping with its newest entry first *)
Definition alter_one (prefix : string) (st : (nat -> string) * list (string * string)) (v : nat) : (nat -> string) * list (string * string) :=
  let '(names, mapping) := st in
  let old := names v in
  if String.eqb old "" then (names, mapping) else (upd v (altered prefix old) names, (old, altered prefix old) :: mapping).
(** 48-70: what is called like an old name gets the new one *)
Definition follow_one (mapping : list (string * string)) (names : nat -> string) (v : nat) : nat -> string :=
  if String.eqb (names v) "" then names
  else match lookup (names v) mapping with Some y => upd v y names | None => names end.
Definition node_inputs (n : node) : list nat := flat_map (fun o => match o with Some v => [v] | None => [] end) (n_in n).
(** 32-37 *)
Definition alter_node (prefix : string) (n : node) : node :=
  mkNode (match n_name n with Some x => Some (if String.eqb x "" then x else altered prefix x) | None => None end) (n_op n) (n_in n) (n_out n) (n_meta n).
Definition fix_onnx_names (prefix : string) (g : graph) : graph :=
  let '(names, mapping) := fold_left (alter_one prefix) (g_inits g ++ flat_map n_out (g_nodes g)) (g_names g, []) in
  let names := fold_left (follow_one mapping) (flat_map node_inputs (g_nodes g) ++ g_inputs g ++ g_outputs g) names in
  mkGraph (g_inputs g) (g_inits g) (map (alter_node prefix) (g_nodes g)) (g_outputs g) names (g_meta g).

(** ** onnx_export_stages.py:58-94 [_rename_onnx_input_output_names]; values given no names keep theirs *)
Definition assign_names (names : nat -> string) (l : list (nat * string)) : nat -> string := fold_left (fun f p => upd (fst p) (snd p) f) l names.
Definition rename_io (ins outs : option (list string)) (g : graph) : result graph :=
  let ins := match ins with Some l => l | None => map (g_names g) (g_inputs g) end in
  let outs := match outs with Some l => l | None => map (g_names g) (g_outputs g) end in
  if negb (length (g_inputs g) =? length ins) || negb (length (g_outputs g) =? length outs) then Err ValueError
  else Ok (with_names g (assign_names (assign_names (g_names g) (combine (g_inputs g) ins)) (combine (g_outputs g) outs))).

(** ** 470-481: the serialized graph, where names are all there is *)
Record pnode := mkPnode { p_name : string; p_op : nat; p_in : list string; p_out : list string }.
Record pgraph := mkPgraph { p_inputs : list string; p_inits : list (string * nat); p_nodes : list pnode; p_outputs : list string }.
Definition to_proto (g : graph) : pgraph :=
  let name := g_names g in
  mkPgraph (map name (g_inputs g)) (map (fun v => (name v, v)) (g_inits g))
    (map (fun n => mkPnode (match n_name n with Some x => x | None => ""%string end) (n_op n)
                     (map (fun o => match o with Some v => name v | None => ""%string end) (n_in n)) (map name (n_out n))) (g_nodes g))
    (map name (g_outputs g)).

(** ** 527-588 [OnnxIrToProtoMetadataCopier] *)
(** Dictionaries by name: the last object of a name is found *)
Fixpoint last_named {A} (x : string) (l : list (string * A)) : option A :=
  match l with [] => None | (y, a) :: l' => match last_named x l' with Some b => Some b | None => if String.eqb x y then Some a else None end end.
(** 550-556 and 96-110: properties found by name are appended to those [to_proto] has written, and the last count *)
Definition copied (kept found : option metadata) : option metadata := match found with Some m => Some m | None => kept end.
Definition by_name {A} (x : string) (l : list (string * option A)) : option A := match last_named x l with Some m => m | None => None end.
(** [keeps_values] and [keeps_nodes]: whether [ir.to_proto] writes the properties itself *)
Definition copy_metadata (keeps_values keeps_nodes : bool) (g : graph) : EncModel.proto :=
  let name := g_names g in
  let named l := map (fun v => (name v, g_meta g v)) l in
  let value l v := (name v, copied (if keeps_values then g_meta g v else None) (by_name (name v) (named l))) in
  let nodes := flat_map (fun n => match n_name n with Some x => [(x, n_meta n)] | None => [] end) (g_nodes g) in
  EncModel.mkProto (map (value (g_inits g)) (g_inits g)) (map (value (g_inputs g)) (g_inputs g))
    (map (fun n => (copied (if keeps_nodes then n_meta n else None) (by_name (match n_name n with Some x => x | None => ""%string end) nodes), map name (n_out n))) (g_nodes g))
    (map (value (g_outputs g)) (g_outputs g)).

(** ** 222-300 [OnnxQuantMetadataAnnotator] *)
Section Annotate.
  Context {S : Type}.
  (** 227-241: specs of FX nodes by node name, and FX nodes of get_attr by target *)
  Variable specs : list (string * S).
  Variable targets : list (string * string).
  Definition spec_of (x : string) : option S := match find (fun p => String.eqb x (fst p)) specs with Some (_, s) => Some s | None => None end.
  (** An ONNX node or value: its name, the FX node it comes from and the chain of earlier ones if the exporter
      recorded them, and the names of its outputs *)
  Record item := mkItem { it_name : option string; it_node : option string; it_from : list string; it_outputs : list string }.
  Fixpoint first_spec (l : list string) : option S :=
    match l with [] => None | x :: l' => match spec_of x with Some s => Some s | None => first_spec l' end end.
  (** 274-300 *)
  Definition quant_spec (i : item) : option S :=
    let own := match it_name i with Some x => spec_of x | None => None end in
    let node :=
      match it_node i with
      | Some x => match spec_of x with
                  | Some s => Some s
                  | None => match it_name i with
                            | Some y => match lookup y targets with Some t => spec_of t | None => None end
                            | None => None
                            end
                  end
      | None => None
      end in
    match node with
    | Some s => Some s
    | None =>
        match first_spec (rev (it_from i)) with
        | Some s => Some s
        | None => match own with Some s => Some s | None => first_spec (it_outputs i) end
        end
    end.
End Annotate.

(** 243-272: nodes, inputs, outputs and initializers in turn; a producer of an output is annotated twice with the same.
    [node_from] and [value_from]: what the exporter recorded about where objects come from *)
Section Stages.
  Variable specs : list (string * metadata).
  Variable targets : list (string * string).
  Variable node_from : node -> option string * list string.
  Variable value_from : nat -> option string * list string.
  Definition node_item (g : graph) (n : node) : item := mkItem (n_name n) (fst (node_from n)) (snd (node_from n)) (map (g_names g) (n_out n)).
  Definition value_item (g : graph) (v : nat) : item := mkItem (Some (g_names g v)) (fst (value_from v)) (snd (value_from v)) [].
  Definition annotate_value (g : graph) (meta : nat -> option metadata) (v : nat) : nat -> option metadata :=
    match quant_spec specs targets (value_item g v) with Some m => upd v (Some m) meta | None => meta end.
  Definition annotate (g : graph) : graph :=
    mkGraph (g_inputs g) (g_inits g)
      (map (fun n => mkNode (n_name n) (n_op n) (n_in n) (n_out n)
                       (match quant_spec specs targets (node_item g n) with Some m => Some m | None => n_meta n end)) (g_nodes g))
      (g_outputs g) (g_names g) (fold_left (annotate_value g) (g_inputs g ++ g_outputs g ++ g_inits g) (g_meta g)).
  (** export/pipeline/qnn_onnx_pipeline.py: annotations, names, serialization, copy of annotations (the repair of
      Reshape nodes in between is not modelled) *)
  Definition stages (prefix : option string) (ins outs : option (list string)) (keeps_values keeps_nodes : bool) (g : graph) : result (pgraph * EncModel.proto) :=
    let g := annotate g in
    let g := match prefix with Some p => fix_onnx_names p g | None => g end in
    let? g := rename_io ins outs g in
    Ok (to_proto g, copy_metadata keeps_values keeps_nodes g).
End Stages.
