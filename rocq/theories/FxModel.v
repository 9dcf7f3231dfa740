(** Model of the FX passes that turn a captured graph into a quantization-free graph with
    quantization specs: src/fastforward/export/stages/passes.py. *)
From Verif Require Import Prelude EncModel AffineModel.
From Coq Require Import QArith.
Local Open Scope nat_scope.
Local Open Scope list_scope.

(** ** FX graphs

    A [torch.fx.Graph] is its node list, in graph order.  A node has an identity, an operator
    with its non-node arguments, its node arguments in order, and the shape in its
    [tensor_meta], if any.  [node.meta[FF_QUANTIZATION_SPEC]] is kept beside the node list as
    a partial map.  Names are numbers. *)
Inductive op : Type :=
| Placeholder (name : nat)               (* op = "placeholder", a string target *)
| GetAttr (name : nat)                   (* op = "get_attr", a string target *)
| CallFunction (f : nat) (is_view : bool)  (* an OpOverload; [is_view] is its attribute *)
| Quantize (tile : option (list nat)) (bits : num_bits)
    (* quantize_by_tile.default; node arguments: data, scale and, if not None, offset *)
| Dequantize (tile : option (list nat))
    (* dequantize_by_tile.default; node arguments: data, scale and, if not None, offset *)
| Output.                                (* op = "output" *)

Record node := mkNode {
  n_id : nat; n_op : op; n_args : list nat; n_shape : option (list nat)
}.

Record graph (S : Type) := mkGraph { g_nodes : list node; g_meta : nat -> option S }.
Arguments mkGraph {S} _ _.
Arguments g_nodes {S} _.
Arguments g_meta {S} _ _.

Definition find_node (g : list node) (k : nat) : option node :=
  find (fun n => n_id n =? k) g.

Definition set_meta {S} (m : nat -> option S) (k : nat) (s : S) : nat -> option S :=
  fun j => if j =? k then Some s else m j.

(** ** torch.fx primitives *)

(** [node.replace_all_uses_with(input)]: every use of [k] becomes a use of [x]. *)
Definition replace_uses (g : list node) (k x : nat) : list node :=
  map (fun n => mkNode (n_id n) (n_op n) (map (fun a => if a =? k then x else a) (n_args n))
                  (n_shape n)) g.

(** [graph.erase_node(node)]: a RuntimeError if the node still has users. *)
Definition erase_node (g : list node) (k : nat) : result (list node) :=
  if existsb (fun n => existsb (Nat.eqb k) (n_args n)) g then Err RuntimeError
  else Ok (filter (fun n => negb (n_id n =? k)) g).

(** ** AnnotateFFQuantSpecs *)

(** passes.py:145-152 *)
Definition is_quantization_node (n : node) : bool :=
  match n_op n with Quantize _ _ | Dequantize _ => true | _ => false end.
Definition ff_quantization_nodes (g : list node) : list node := filter is_quantization_node g.

(** [isinstance(node.target, str)], with the target *)
Definition str_target (n : node) : option nat :=
  match n_op n with Placeholder s | GetAttr s => Some s | _ => None end.

(** passes.py:118-142.  [all_params] maps the names of the module's parameters and buffers to
    their entries; the result is the dictionary [quant_params], newest entry first. *)
Definition param_entry (all_params : nat -> option (list Q)) (g : list node) (k : nat)
    : result (nat * list Q) :=
  match find_node g k with
  | None => Err AssertionError
  | Some p =>
      match str_target p with
      | None => Err AssertionError
      | Some name =>
          match all_params name with None => Err KeyError | Some v => Ok (name, v) end
      end
  end.
Definition ff_quantization_parameters (all_params : nat -> option (list Q)) (g : list node)
    : result (list (nat * list Q)) :=
  fold_left
    (fun acc n =>
       let? d := acc in
       let? entries := rmapM (param_entry all_params g) (skipn 1 (n_args n)) in
       Ok (rev entries ++ d))
    (ff_quantization_nodes g) (Ok []).

Definition quant_param (d : list (nat * list Q)) (k : nat) : result (list Q) :=
  match find (fun '(name, _) => name =? k) d with Some (_, v) => Ok v | None => Err KeyError end.

(** annotations.py:32-37: the tensor named by a scale or offset argument *)
Definition param_value (d : list (nat * list Q)) (g : list node) (k : nat) : result (list Q) :=
  match find_node g k with
  | None => Err AssertionError
  | Some p =>
      match str_target p with None => Err AssertionError | Some name => quant_param d name end
  end.

(** annotations.py:24-77, on top of [EncModel.ff_quantizer_spec]; the data shape is that of the
    node's present data argument (lines 61-68). *)
Definition node_spec (d : list (nat * list Q)) (g : list node) (n : node) : result spec :=
  match n_op n, n_args n with
  | Quantize tile bits, data :: scale :: rest =>
      let? o := match rest with
                | [] => Err AssertionError
                | offset :: _ => param_value d g offset
                end in
      let? s := param_value d g scale in
      ff_quantizer_spec s (Some o) bits tile
        (match find_node g data with Some x => n_shape x | None => None end)
  | Quantize _ _, _ => Err ValueError
  | _, _ => Err NotImplementedError
  end.

(** passes.py:46-69, one quantize or dequantize node *)
Definition annotate_step (d : list (nat * list Q)) (st : graph spec) (k : nat)
    : result (graph spec) :=
  match find_node (g_nodes st) k with
  | None => Err RuntimeError
  | Some n =>
      match n_op n with
      | Quantize _ _ =>
          let? s := node_spec d (g_nodes st) n in
          match n_args n with
          | [] => Err AssertionError
          | x :: _ =>
              let meta := set_meta (g_meta st) x s in
              let? g := erase_node (replace_uses (g_nodes st) k x) k in
              Ok (mkGraph g meta)
          end
      | Dequantize _ =>
          match n_args n with
          | [] => Err AssertionError
          | x :: _ =>
              let? g := erase_node (replace_uses (g_nodes st) k x) k in
              Ok (mkGraph g (g_meta st))
          end
      | _ => Ok st
      end
  end.

(** passes.py:30-71 *)
Definition annotate (all_params : nat -> option (list Q)) (st : graph spec)
    : result (graph spec) :=
  let? d := ff_quantization_parameters all_params (g_nodes st) in
  fold_left (fun acc k => let? st := acc in annotate_step d st k)
    (map n_id (ff_quantization_nodes (g_nodes st))) (Ok st).

(** ** PropagateFFQuantSpecs *)

(** passes.py:101-115: the new specs and the node to append to the queue *)
Definition annotate_same {S} (meta : nat -> option S) (output input : nat)
    : (nat -> option S) * list nat :=
  match meta input, meta output with
  | Some _, Some _ | None, None => (meta, [])
  | Some s, None => (set_meta meta output s, [output])
  | None, Some s => (set_meta meta input s, [input])
  end.

(** passes.py:91-99.  The queue holds node identities; a node without arguments is not a view
    (IndexError otherwise). *)
Fixpoint propagate_loop {S} (fuel : nat) (g : list node) (queue : list nat)
    (meta : nat -> option S) : result (nat -> option S) :=
  match queue with
  | [] => Ok meta
  | k :: queue' =>
      match fuel with
      | O => Err RecursionError
      | Datatypes.S fuel' =>
          match find_node g k with
          | None => Err RuntimeError
          | Some n =>
              match n_op n, n_args n with
              | CallFunction _ true, [] => Err IndexError
              | CallFunction _ true, input :: _ =>
                  let '(meta', more) := annotate_same meta (n_id n) input in
                  propagate_loop fuel' g (queue' ++ more) meta'
              | _, _ => propagate_loop fuel' g queue' meta
              end
          end
      end
  end.
Definition propagate {S} (fuel : nat) (st : graph S) : result (graph S) :=
  let? meta := propagate_loop fuel (g_nodes st) (map n_id (g_nodes st)) (g_meta st) in
  Ok (mkGraph (g_nodes st) meta).
