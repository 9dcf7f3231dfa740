(** Specification vocabulary for the QDQ lowering: the ONNX operators. *)
From Verif Require Import Prelude TilingModel TilingSpec AffineModel AffineSpec EncModel QdqModel.
From Coq Require Import QArith.
Local Open Scope nat_scope.
Local Open Scope list_scope.

Definition storage_bits (ty : storage) : positive :=
  match ty with INT4 => 4 | INT8 => 8 | INT16 => 16 end.
Definition storage_min (ty : storage) : Z := (- 2 ^ (Zpos (storage_bits ty) - 1))%Z.
Definition storage_max (ty : storage) : Z := (2 ^ (Zpos (storage_bits ty) - 1) - 1)%Z.
Definition in_range (ty : storage) (z : Z) : Prop := (storage_min ty <= z <= storage_max ty)%Z.

(** A cast to an integer type keeps what the type can represent; what it does with other values
    is not specified. *)
Definition onnx_cast (cast : storage -> Z -> Z) : Prop :=
  forall ty z, in_range ty (cast ty z) /\ (in_range ty z -> cast ty z = z).

(** ONNX: one scale for the whole tensor, or one for each index of dimension [axis] (default 1);
    any other number of scales is an error. *)
Definition onnx_position (axis : option nat) (n : nat) (shape idx : list nat) : option nat :=
  if n =? 1 then Some 0 else
  let a := match axis with Some a => a | None => 1 end in
  match nth_error shape a with
  | Some d => if d =? n then nth_error idx a else None
  | None => None
  end.

(** ONNX QuantizeLinear: saturate(round(x / scale) + zero_point), round half to even; and
    DequantizeLinear: (q - zero_point) * scale; here for the element at [idx]. *)
Definition saturate (ty : storage) (z : Z) : Z := Z.max (storage_min ty) (Z.min (storage_max ty) z).
Definition quantize_linear (cast : storage -> Z -> Z) (o : qdq_op) (shape idx : list nat) (x : Q)
    : option Z :=
  match onnx_position (o_axis o) (length (o_scale o)) shape idx with
  | None => None
  | Some i =>
      match nth_error (o_scale o) i, nth_error (o_zero o) i with
      | Some s, Some z =>
          Some (saturate (o_type o) (round_half_even (x / s) + cast (o_type o) z)%Z)
      | _, _ => None
      end
  end.
Definition dequantize_linear (cast : storage -> Z -> Z) (o : qdq_op) (shape idx : list nat) (q : Z)
    : option Q :=
  match onnx_position (o_axis o) (length (o_scale o)) shape idx with
  | None => None
  | Some i =>
      match nth_error (o_scale o) i, nth_error (o_zero o) i with
      | Some s, Some z => Some (inject_Z (q - cast (o_type o) z) * s)%Q
      | _, _ => None
      end
  end.

(** Per-tensor or per-channel (along any one dimension) parameters. *)
Inductive tensor_or_channel (shape tile : list nat) (n : nat) : Prop :=
| whole_tensor : tile = shape -> n = 1 -> tensor_or_channel shape tile n
| one_channel s1 d s2 : shape = s1 ++ d :: s2 -> tile = s1 ++ 1 :: s2 -> n = d ->
    tensor_or_channel shape tile n.

(** The zero points -round(offset) are representable. *)
Definition zero_points_fit (ty : storage) (off : option (list Q)) : Prop :=
  forall os o, off = Some os -> In o os -> in_range ty (- round_half_even o).

(** x / s is halfway between two integers, and the (rounded) offset is odd. *)
Definition odd_tie (x s : Q) (o : option Q) : Prop :=
  (exists k : Z, (x / s == inject_Z k + (1 # 2))%Q) /\ Z.odd (infer_offset o) = true.

Definition static (shape : list nat) : option (list (option nat)) := Some (map Some shape).

(** What the caller's options give for a key. *)
Definition given (o : options) (k : nat) : option optval :=
  match o with ODict d => lookup d k | _ => None end.
