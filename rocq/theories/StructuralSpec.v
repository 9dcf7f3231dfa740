(** Specification vocabulary for structural operations. *)
From Verif Require Import Prelude TilingModel TilingSpec GranularityModel AffineModel AffineSpec StructuralModel.
From Coq Require Import QArith.
Local Open Scope nat_scope.

(** An operation that only moves elements around: it commutes with every elementwise map
    and gives well-formed results. *)
Definition relocates (f : forall A, tensor A -> result (tensor A)) : Prop :=
  (forall A B (g : A -> B) t, f B (tmap g t) = rmap (tmap g) (f A t)) /\
  (forall A (t t' : tensor A), wf t -> f A t = Ok t' -> wf t').

(** A quantized tensor with one scale (and one offset, if any) for all elements. *)
Definition per_tensor (q : qtensor) : Prop :=
  wf (raw q) /\ qgran q = PerTensor /\ length (qscale q) = 1 /\
  (forall o, qoffset q = Some o -> length o = 1).

(** A quantized tensor with one parameter per tile of its granularity. *)
Definition well_quantized (q : qtensor) (ta : tile_arg) : Prop :=
  wf (raw q) /\ tile_size (qgran q) (shape (raw q)) = Ok ta /\
  tile_divides (shape (raw q)) (resolve_tile (shape (raw q)) ta) /\
  length (qscale q) = prod (grid (shape (raw q)) (resolve_tile (shape (raw q)) ta)) /\
  (forall o, qoffset q = Some o -> length o = length (qscale q)).

(** Equality of tensors of numbers. *)
Definition tensor_Qeq (a b : tensor Q) : Prop := shape a = shape b /\ Forall2 Qeq (data a) (data b).
