(** Specification vocabulary for affine quantization. *)
From Verif Require Import Prelude AffineModel.
From Coq Require Import QArith Qabs.
Local Open Scope Q_scope.

(** An absent offset, or one that is an integer. *)
Definition integral_offset (o : option Q) : Prop :=
  match o with None => True | Some o => exists z : Z, o == inject_Z z end.

(** The offset as a number. *)
Definition offset_value (o : option Q) : Q := match o with None => 0 | Some o => o end.

(** The code set of a [b]-bit signed integer. *)
Definition code (b : positive) (z : Z) : Prop := (- 2 ^ (Zpos b - 1) <= z <= 2 ^ (Zpos b - 1) - 1)%Z.

(** Nearest integer with ties to even. *)
Definition nearest_even (q : Q) (z : Z) : Prop :=
  Qabs (q - inject_Z z) <= 1 # 2 /\ (Qabs (q - inject_Z z) == 1 # 2 -> Z.even z = true).

(** Forward-mode derivatives (dual numbers) with the straight-through rule for
    rounding, as an independent definition of the gradient of quantize-dequantize. *)
Record dual := mkD { val : Q; der : Q }.
Definition d_const (c : Q) : dual := mkD c 0.
Definition d_add (a b : dual) : dual := mkD (val a + val b) (der a + der b).
Definition d_sub (a b : dual) : dual := mkD (val a - val b) (der a - der b).
Definition d_mul (a b : dual) : dual := mkD (val a * val b) (der a * val b + val a * der b).
Definition d_div (a b : dual) : dual :=
  mkD (val a / val b) ((der a * val b - val a * der b) / (val b * val b)).
Definition d_round_ste (rnd : Q -> Z) (a : dual) : dual := mkD (inject_Z (rnd (val a))) (der a).
(** clamp: derivative zero where the value lies strictly outside [lo, hi] *)
Definition d_clamp (a : dual) (lo hi : Q) : dual :=
  if negb (Qle_bool lo (val a)) then d_const lo
  else if negb (Qle_bool (val a) hi) then d_const hi
  else a.

(** clamp(round(x / s - o), lo, hi) dequantized: (q + o) * s *)
Definition d_qdq (rnd : Q -> Z) (x s o : dual) (lo hi : Q) : dual :=
  d_mul (d_add (d_clamp (d_round_ste rnd (d_sub (d_div x s) o)) lo hi) o) s.

(** Derivative of quantize-dequantize in direction (dx, ds, do). *)
Definition ste_derivative (s : Q) (o : option Q) (b : positive) (x dx ds dof : Q) : Q :=
  der (d_qdq round_half_even (mkD x dx) (mkD s ds) (mkD (QofZ (infer_offset o)) dof)
        (QofZ (integer_minimum b)) (QofZ (integer_maximum b))).

(** Offset of tile [i], if there are offsets. *)
Definition nth_offset (oo : option (list Q)) (i : nat) : option Q :=
  match oo with None => None | Some l => nth_error l i end.
