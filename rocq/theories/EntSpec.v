(** Specification vocabulary for the entry points of affine quantization. *)
From Verif Require Import Prelude TilingModel TilingSpec AffineModel AffineSpec EntModel.
From Coq Require Import QArith.
Local Open Scope nat_scope.

(** Two calls have the same observable outcome: the same error, or the same stored codes and
    the same dequantized tensor. *)
Definition same_outcome (a b : result output) : Prop :=
  match a, b with
  | Ok (Quantized c p), Ok (Quantized c' p') => c = c' /\ dequantize c p = dequantize c' p'
  | Ok (Plain x), Ok (Plain x') => x = x'
  | Err e, Err e' => e = e'
  | _, _ => False
  end.

(** The dtype stores every code of [b] bits. *)
Definition holds_codes (d : dtype) (b : positive) : Prop :=
  match d with
  | FloatT m => Pos.to_nat b <= m + 2
  | IntT w signed => signed = true /\ Pos.to_nat b <= w
  end.

(** One number for all tiles, or one for each of [n] tiles; the number of tile [i]. *)
Definition per_tile (n : nat) (a : arg) : Prop :=
  match a with Num _ => True | Ten l => length l = 1 \/ length l = n end.
Definition arg_at (a : arg) (i : nat) : option Q :=
  match a with Num q => Some q | Ten [q] => Some q | Ten l => nth_error l i end.
Definition nonzero (a : arg) : Prop :=
  match a with Num q => ~ (q == 0)%Q | Ten l => forall s, In s l -> ~ (s == 0)%Q end.

(** The integer nearest to the offset; none counts as zero. *)
Definition zero_point (o : option Q) (z : Z) : Prop :=
  match o with None => z = 0%Z | Some q => nearest_even q z end.

(** The [b]-bit code closest to a number. *)
Definition closest_code (b : positive) (q : Q) (z : Z) : Prop :=
  exists r, nearest_even q r /\
    z = Z.max (- 2 ^ (Zpos b - 1)) (Z.min (2 ^ (Zpos b - 1) - 1) r)%Z.

(** [c] holds the codes of [x] and [v] the numbers they stand for, tile by tile. *)
Definition quantizes (x : tensor Q) (tile : list nat) (scale : arg) (offset : option arg)
    (b : positive) (c : tensor Z) (v : tensor Q) : Prop :=
  shape c = shape x /\ shape v = shape x /\
  forall idx xv, valid (shape x) idx -> at_index x idx = Some xv ->
    let k := tile_row (shape x) tile idx in
    exists s z o, arg_at scale k = Some s /\
      zero_point (match offset with Some a => arg_at a k | None => None end) o /\
      closest_code b (xv / s - inject_Z o)%Q z /\
      at_index c idx = Some z /\
      at_index v idx = Some ((inject_Z z + inject_Z o) * s)%Q.

Definition float_dtype (d : dtype) : Prop := exists m, d = FloatT m.
