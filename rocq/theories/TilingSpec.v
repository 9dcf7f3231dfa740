(** Specification vocabulary for tiling, independent of how the code reshapes. *)
From Verif Require Import Prelude TilingModel.

(** Well-formed tensor: as many elements as its shape says. *)
Definition wf {A} (t : tensor A) : Prop := length (data t) = prod (shape t).

(** [idx] is a valid multi-index of a tensor of shape [s]. *)
Definition valid (s idx : list nat) : Prop := Forall2 (fun i n => i < n) idx s.

(** Element of [t] at a multi-index. *)
Definition at_index {A} (t : tensor A) (idx : list nat) : option A :=
  nth_error (data t) (ravel (shape t) idx).

(** [tile] divides [size] dimension by dimension, with positive tile sides. *)
Definition tile_divides (size tile : list nat) : Prop :=
  Forall2 (fun n t => 0 < t /\ Nat.divide t n) size tile.

Definition zipmap (f : nat -> nat -> nat) (a b : list nat) : list nat :=
  map (fun '(x, y) => f x y) (combine a b).

(** The tile grid, the tile an index lies in, and its position in that tile. *)
Definition grid (size tile : list nat) : list nat := zipmap Nat.div size tile.
Definition tile_coord (idx tile : list nat) : list nat := zipmap Nat.div idx tile.
Definition tile_offset (idx tile : list nat) : list nat := zipmap Nat.modulo idx tile.

(** Number of the tile an index belongs to (tiles in row-major order), and its row-major
    position inside that tile. *)
Definition tile_row (size tile idx : list nat) : nat := ravel (grid size tile) (tile_coord idx tile).
Definition tile_col (tile idx : list nat) : nat := ravel tile (tile_offset idx tile).
