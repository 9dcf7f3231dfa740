(** Model of the QDQ lowering to ONNX:
    src/fastforward/export/stages/onnx/onnx_qdq_export_stages.py. *)
From Verif Require Import Prelude AffineModel EncModel.
From Coq Require Import QArith Qround.
Local Open Scope nat_scope.
Local Open Scope list_scope.

(** ONNX storage types used by the lowering (lines 17-27). *)
Inductive storage := INT4 | INT8 | INT16.

(** onnx_qdq_export_stages.py:35-42.  Round is half-to-even.  [None]: zeros with the shape of
    the scale. *)
Definition ff_zero_point (scale : list Q) (offset : option (list Q)) : list Z :=
  match offset with
  | None => map (fun _ => 0%Z) scale
  | Some os => map (fun o => (- round_half_even o)%Z) os
  end.

(** onnx_qdq_export_stages.py:45-85.  [dims]: the shape of the data argument; a dimension is
    [None] if it is symbolic. *)
Definition one_axes (tile : list nat) : list nat :=
  filter (fun i => nth i tile 0 =? 1) (seq 0 (length tile)).
Definition ff_axis (tile : list nat) (dims : option (list (option nat))) : option nat :=
  match one_axes tile with
  | [] => None
  | [a] => Some a
  | (a :: _) as axes =>
      match dims with
      | None => Some a
      | Some ds =>
          match find (fun i => match nth_error ds i with
                               | Some (Some d) => negb (d =? 1)
                               | _ => false
                               end) axes with
          | Some i => Some i
          | None => Some a
          end
      end
  end.

(** onnx_qdq_export_stages.py:88-109 *)
Definition ff_quant_dtype (num_bits : Q) : result storage :=
  if negb (Qeq_bool num_bits (QofZ (Qfloor num_bits))) then Err ExportError
  else if (Qfloor num_bits =? 4)%Z then Ok INT4
  else if (Qfloor num_bits =? 8)%Z then Ok INT8
  else if (Qfloor num_bits =? 16)%Z then Ok INT16
  else Err ExportError.

(** Python's [int] on a bit width (positive: the floor) *)
Definition bits_value (n : num_bits) : Q := match n with IntBits b => QofZ (Zpos b) | FracBits q => q end.
Definition py_int (n : num_bits) : Z := Qfloor (bits_value n).

(** A QuantizeLinear or DequantizeLinear node: scale, zero point before the cast, attribute
    [axis] (ONNX's default is 1), and the storage type of the quantized tensor. *)
Record qdq_op := mkQdq {
  o_scale : list Q; o_zero : list Z; o_axis : option nat; o_type : storage
}.

(** onnx_qdq_export_stages.py:112-139 *)
Definition quantize_lowering (dims : option (list (option nat))) (scale : list Q)
    (tile : list nat) (n : num_bits) (offset : option (list Q)) : result qdq_op :=
  let bitwidth := py_int n in
  let axis := ff_axis tile dims in
  let zero := ff_zero_point scale offset in
  let? ty := ff_quant_dtype (QofZ bitwidth) in
  Ok (mkQdq scale zero axis ty).

(** onnx_qdq_export_stages.py:142-166; [ty] is the type of the input (CastLike). *)
Definition dequantize_lowering (dims : option (list (option nat))) (ty : storage) (scale : list Q)
    (tile : list nat) (offset : option (list Q)) : qdq_op :=
  mkQdq scale (ff_zero_point scale offset) (ff_axis tile dims) ty.

(** ** The pipeline context *)

(** Values in [onnx_export_options]; operators are numbers: 0 is quantize_by_tile, 1 is
    dequantize_by_tile; a lowering is a user's function or one of the two above for an opset. *)
Inductive lowering := UserLowering (f : nat) | FFQuantize (opset : Z) | FFDequantize (opset : Z).
Inductive optval :=
| VTable (t : list (nat * lowering))
| VInt (z : Z)
| VOther (v : nat).
Inductive options := ODict (o : list (nat * optval)) | ONone | ONotDict.

Definition key_table : nat := 0.    (* "custom_translation_table" *)
Definition key_opset : nat := 1.    (* "opset_version" *)

Definition lookup {A} (d : list (nat * A)) (k : nat) : option A :=
  option_map snd (find (fun '(j, _) => j =? k) d).
Definition setdefault {A} (d : list (nat * A)) (k : nat) (v : A) : list (nat * A) :=
  match lookup d k with Some _ => d | None => d ++ [(k, v)] end.
Definition put {A} (d : list (nat * A)) (k : nat) (v : A) : list (nat * A) :=
  match lookup d k with
  | Some _ => map (fun '(j, w) => if j =? k then (j, v) else (j, w)) d
  | None => d ++ [(k, v)]
  end.

(** onnx_qdq_export_stages.py:171-235: the options put into the fresh context; the context's
    other entries are copied.  [available v]: onnxscript has opset [v].  A falsy table (None,
    empty) counts as empty; [VOther] for the table is a value that is not a dictionary;
    [VOther] for the opset is one that [int] rejects. *)
Definition with_ff_qdq_lowerings (available : Z -> bool) (o : options)
    : result (list (nat * optval)) :=
  let? raw := match o with ODict d => Ok d | ONone => Ok [] | ONotDict => Err TypeError end in
  let? table := match lookup raw key_table with
                | None => Ok []
                | Some (VTable t) => Ok t
                | Some _ => Err TypeError
                end in
  let opts := setdefault raw key_opset (VInt 21) in
  let? v := match lookup opts key_opset with Some (VInt z) => Ok z | _ => Err TypeError end in
  if (v <? 21)%Z then Err ExportError else
  if negb (available v) then Err ExportError else
  let table := setdefault (setdefault table 0 (FFQuantize v)) 1 (FFDequantize v) in
  Ok (put opts key_table (VTable table)).
