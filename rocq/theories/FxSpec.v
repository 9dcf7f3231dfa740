(** Specification vocabulary for the FX passes. *)
From Verif Require Import Prelude TilingModel TilingSpec EncModel AffineModel FxModel.
From Coq Require Import QArith Relations.
Local Open Scope nat_scope.
Local Open Scope list_scope.

(** A graph as torch.fx builds it: identities are unique and every argument of a node stands
    before the node. *)
Definition ordered (g : list node) : Prop :=
  NoDup (map n_id g) /\
  forall pre n post, g = pre ++ n :: post -> forall a, In a (n_args n) -> In a (map n_id pre).

Definition is_qdq (n : node) : Prop :=
  match n_op n with Quantize _ _ | Dequantize _ => True | _ => False end.
Definition is_quantize (n : node) : Prop :=
  match n_op n with Quantize _ _ => True | _ => False end.

(** Nodes other than quantize and dequantize. *)
Definition kept (n : node) : bool :=
  match n_op n with Quantize _ _ | Dequantize _ => false | _ => true end.

(** Node [n] of [g] is a view of the node [x]. *)
Definition view_of (g : list node) (n x : nat) : Prop :=
  exists nd f, In nd g /\ n_id nd = n /\ n_op nd = CallFunction f true /\
    nth_error (n_args nd) 0 = Some x.

(** Views have an argument. *)
Definition views_have_input (g : list node) : Prop :=
  forall n f, In n g -> n_op n = CallFunction f true -> n_args n <> [].

(** [y] is derived from [x] by zero or more views; [x] and [y] are connected by views. *)
Definition derived (g : list node) : nat -> nat -> Prop :=
  clos_refl_trans nat (fun x y => view_of g y x).
Definition connected (g : list node) : nat -> nat -> Prop :=
  clos_refl_trans nat (fun x y => view_of g y x \/ view_of g x y).

(** ** Quantize and dequantize nodes seen through *)

(** [origin g a b]: [b] is what is left of the reference [a] when quantize and dequantize nodes
    are skipped. *)
Inductive origin (g : list node) : nat -> nat -> Prop :=
| origin_kept n : In n g -> ~ is_qdq n -> origin g (n_id n) (n_id n)
| origin_skip n x rest b : In n g -> is_qdq n -> n_args n = x :: rest -> origin g x b ->
    origin g (n_id n) b.

(** The quantize node [q] reads the tensor of node [x]. *)
Definition quantizes (g : list node) (q : node) (x : nat) : Prop :=
  In q g /\ is_quantize q /\ origin g (n_id q) x.

(** [s] is the spec of quantize node [q] for the tensor of [x]: its bit width and tile, the
    values of its scale and offset parameters - the offset unchanged if it is zero everywhere,
    else counted from the middle of the unsigned range - and the shape of [x]. *)
Definition named (params : nat -> option (list Q)) (g : list node) (k : nat) (v : list Q) : Prop :=
  exists p name, In p g /\ n_id p = k /\ (n_op p = GetAttr name \/ n_op p = Placeholder name) /\
    params name = Some v.
Definition all_zero (os : list Q) : bool := forallb (fun o => Qeq_bool o 0) os.
Definition spec_of (params : nat -> option (list Q)) (g : list node) (q : node) (x : nat)
    (s : spec) : Prop :=
  exists tile b data scale offset more ss os xn,
    n_op q = Quantize tile (IntBits b) /\
    n_args q = data :: scale :: offset :: more /\
    named params g scale ss /\ named params g offset os /\
    In xn g /\ n_id xn = x /\
    s = mkSpec b ss
          (if all_zero os then os else map (fun o => (inject_Z (2 ^ (Zpos b - 1)) - o)%Q) os)
          (all_zero os) tile (n_shape xn).

(** A quantizer the pass supports: an integer bit width, and scale and offset are parameters. *)
Definition supported (params : nat -> option (list Q)) (g : list node) (n : node) : Prop :=
  match n_op n with
  | Quantize _ bits => (exists b, bits = IntBits b) /\
      exists data scale offset ss os, n_args n = [data; scale; offset] /\
        named params g scale ss /\ named params g offset os
  | Dequantize _ => exists data rest, n_args n = data :: rest /\
      Forall (fun k => exists v, named params g k v) rest
  | _ => True
  end.

(** ** Running a graph

    [interp o vs] is the result of operator [o] on argument values [vs]; a graph is run node by
    node. *)
Definition bind {V} (e : nat -> V) (k : nat) (v : V) : nat -> V :=
  fun j => if j =? k then v else e j.
Definition run {V} (interp : op -> list V -> V) (g : list node) (e : nat -> V) : nat -> V :=
  fold_left (fun e n => bind e (n_id n) (interp (n_op n) (map e (n_args n)))) g e.

(** Quantization and dequantization switched off. *)
Definition without_quantization {V} (interp : op -> list V -> V) : Prop :=
  forall o v vs, match o with Quantize _ _ | Dequantize _ => interp o (v :: vs) = v | _ => True end.

(** How a backend reads an annotated graph: a tensor with a spec is read through the fake
    quantizer of that spec. *)
Definition run_annotated {V} (interp : op -> list V -> V) (fake : spec -> V -> V)
    (g : graph spec) (e : nat -> V) : nat -> V :=
  let read e a := match g_meta g a with Some s => fake s (e a) | None => e a end in
  fold_left (fun e n => bind e (n_id n) (interp (n_op n) (map (read e) (n_args n))))
    (g_nodes g) e.

(** Every tensor is read either by nobody but one quantizer, or by no quantizer; quantizers are
    read by dequantizers only, and dequantizers read quantizers only. *)
Definition separated (g : list node) : Prop :=
  (forall n a m, In n g -> In a (n_args n) -> In m g -> n_id m = a -> is_quantize m ->
     (exists t rest, n_op n = Dequantize t /\ n_args n = a :: rest)) /\
  (forall n t, In n g -> n_op n = Dequantize t ->
     exists m rest, In m g /\ is_quantize m /\ n_args n = n_id m :: rest) /\
  (forall q x rest n, In q g -> is_quantize q -> n_args q = x :: rest -> In n g -> n <> q ->
     ~ In x (n_args n)) /\
  (forall q x rest, In q g -> is_quantize q -> n_args q = x :: rest ->
     ~ In x rest /\ exists m, In m g /\ n_id m = x /\ ~ is_qdq m).

(** ** Quantization of views *)

(** The fake quantizer of a spec: quantize, then dequantize. *)
Definition fake_quantize (t : tensor Q) (scale : list Q) (ta : tile_arg) (b : positive)
    (out : dtype) (off : option (list Q)) : result (tensor Q) :=
  let? q := quantize_by_tile t scale ta b out off in dequantize_by_tile q scale ta off.

(** [t'] is the view of [t] that reads element [p idx] at [idx]. *)
Definition is_view {A} (p : list nat -> list nat) (t t' : tensor A) : Prop :=
  forall idx, valid (shape t') idx -> valid (shape t) (p idx) /\ at_index t' idx = at_index t (p idx).

(** The parameters fit tensors of shape [sh]: one scale, and offset, for each tile. *)
Record fits (sh : list nat) (ta : tile_arg) (scale : list Q) (off : option (list Q)) : Prop := {
  f_divides : tile_divides sh (resolve_tile sh ta);
  f_scales : length scale = prod (grid sh (resolve_tile sh ta));
  f_offsets : forall l, off = Some l -> length l = length scale;
  f_nonzero : forall s, In s scale -> ~ (s == 0)%Q
}.
