(** Specification vocabulary for GGUF export: the IEEE 754 binary16 format and the two
    llama.cpp dequantization formulas, independent of how FastForward packs. *)
From Coq Require Import String Ascii.
From Verif Require Import Prelude TilingModel TilingSpec AffineModel GgufModel.
From Coq Require Import QArith Qpower Qabs Qminmax.
Local Open Scope list_scope.
Local Open Scope nat_scope.

(** Value of a binary16 bit pattern (None: infinity or NaN). *)
Definition half_value (code : Z) : option Q :=
  let sign := (code / 32768)%Z in
  let e := ((code / 1024) mod 32)%Z in
  let m := (code mod 1024)%Z in
  if (e =? 31)%Z then None else
  let mag := (if (e =? 0)%Z then inject_Z m * Qpower 2 (-24)
              else inject_Z (1024 + m) * Qpower 2 (e - 25))%Q in
  Some (if (sign =? 0)%Z then mag else (- mag)%Q).

(** The half-precision number stored little-endian at byte [p]. *)
Definition half_at (bytes : list Z) (p : nat) : option Q :=
  match nth_error bytes p, nth_error bytes (p + 1) with
  | Some lo, Some hi => half_value (lo + 256 * hi)
  | _, _ => None
  end.

(** llama.cpp block_q4_0: 18 bytes for 32 elements, half d then 16 bytes; element j of a
    block is (low nibble of byte j if j < 16, else high nibble of byte j-16) - 8, times d. *)
Definition q4_0_element (bytes : list Z) (i : nat) : option Q :=
  let base := i / 32 * 18 in
  let j := i mod 32 in
  match half_at bytes base, nth_error bytes (base + 2 + j mod 16) with
  | Some d, Some q =>
      let nibble := (if (j <? 16)%nat then q mod 16 else q / 16)%Z in
      Some (inject_Z (nibble - 8) * d)%Q
  | _, _ => None
  end.

(** llama.cpp block_q8_0: 34 bytes for 32 elements, half d then 32 signed bytes. *)
Definition q8_0_element (bytes : list Z) (i : nat) : option Q :=
  let base := i / 32 * 34 in
  match half_at bytes base, nth_error bytes (base + 2 + i mod 32) with
  | Some d, Some q =>
      let signed := (if q <? 128 then q else q - 256)%Z in
      Some (inject_Z signed * d)%Q
  | _, _ => None
  end.

(** [h] is the binary16 number that represents [s]: exactly, or the rounding of it. *)
Definition is_half (s : Q) : Prop := exists c, (0 <= c < 32768)%Z /\ exists h, half_value c = Some h /\ (h == s)%Q.

(** Where llama.cpp expects the row: within head [h] (of [d] rows), output row
    h*d + 2*j + k is input row h*d + k*(d/2) + j, for k in {0, 1}, j < d/2. *)
Definition rope_source (d r : nat) : nat :=
  let h := r / d in let q := r mod d in
  h * d + (q mod 2) * (d / 2) + q / 2.

(** ** Names *)

(** A decimal layer number as it is written. *)
Fixpoint all_digits (s : string) : Prop :=
  match s with
  | EmptyString => True
  | String c s' => 48 <= nat_of_ascii c <= 57 /\ all_digits s'
  end.
Definition layer_number (s : string) : Prop := s <> EmptyString /\ all_digits s.

Fixpoint no_newline (s : string) : Prop :=
  match s with
  | EmptyString => True
  | String c s' => nat_of_ascii c <> 10 /\ no_newline s'
  end.

(** Hugging Face name of the tensor [suffix] (with its leading dot) of some layer *)
Definition is_layer_tensor (suffix name : string) : Prop :=
  exists i, layer_number i /\ name = ("model.layers." ++ i ++ suffix)%string.

(** Row of the weight that llama.cpp's Llama loader expects as row [r] of the tensor. *)
Definition llama_row (heads kv_heads : nat) (name : string) (rows r r' : nat) : Prop :=
  (is_layer_tensor ".self_attn.q_proj.weight" name -> r' = rope_source (rows / heads) r) /\
  (is_layer_tensor ".self_attn.k_proj.weight" name -> r' = rope_source (rows / kv_heads) r) /\
  (~ is_layer_tensor ".self_attn.q_proj.weight" name -> ~ is_layer_tensor ".self_attn.k_proj.weight" name -> r' = r).

(** ** Exported values *)

(** The tensor [rs] (rows of bytes) written for weight [w] with quantizer [q], read with
    llama.cpp's formula [elem]: element (r, c) of the file is FastForward's dequantized
    weight at (r', c), where row r' is the one that belongs at r; it differs from it only by
    the binary16 rounding of the block scale s, and not at all if s is a binary16 number. *)
Definition exported_values (elem : list Z -> nat -> option Q) (q : wquantizer) (w : tensor Q)
    (rs : list (list Z)) (row_of : nat -> nat -> nat -> Prop) : Prop :=
  exists rows cols codes deq, shape w = [rows; cols] /\ w_quantize q w = Ok codes /\
    dequantize_by_tile codes (w_scale q) (Tile [1; 32]) (w_offset q) = Ok deq /\ length rs = rows /\
    forall r c, r < rows -> c < cols ->
      exists row r' z s v v', nth_error rs r = Some row /\ row_of rows r r' /\ r' < rows /\
        at_index codes [r'; c] = Some z /\ In s (w_scale q) /\
        at_index deq [r'; c] = Some v /\ elem row c = Some v' /\
        (Qabs (v' - v) <= Qabs (inject_Z z) * Qmax (s * Qpower 2 (-11)) (Qpower 2 (-25)))%Q /\
        (is_half s -> v' == v)%Q.


(** One of the shipped architecture adapters. *)
Definition builtin_adapter (a : adapter) : Prop :=
  (exists h kv tie, a = LLAMA_ADAPTER h kv tie) \/ (exists tie, a = QWEN2_ADAPTER tie) \/ (exists tie, a = QWEN3_ADAPTER tie).

