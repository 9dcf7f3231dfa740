(** Specification vocabulary for range estimation. *)
From Verif Require Import Prelude TilingModel TilingSpec GranularityModel AffineModel OverrideModel RangeModel.
From Coq Require Import QArith.
Local Open Scope nat_scope.

(** A non-empty batch that granularity [g] cuts into [n] tiles. *)
Definition batch_ok (g : granularity) (n : nat) (b : tensor Q) : Prop :=
  wf b /\ numel b <> 0 /\ exists ta, tile_size g (shape b) = Ok ta /\
    tile_divides (shape b) (resolve_tile (shape b) ta) /\
    prod (grid (shape b) (resolve_tile (shape b) ta)) = n.

(** [x] is an entry of batch [b] that lies in tile [k]. *)
Definition tile_value (g : granularity) (b : tensor Q) (k : nat) (x : Q) : Prop :=
  exists ta idx, tile_size g (shape b) = Ok ta /\ valid (shape b) idx /\
    tile_row (shape b) (resolve_tile (shape b) ta) idx = k /\ at_index b idx = Some x.
Definition seen (g : granularity) (bs : list (tensor Q)) (k : nat) (x : Q) : Prop :=
  exists b, In b bs /\ tile_value g b k x.

Definition is_min (P : Q -> Prop) (x : Q) : Prop := P x /\ forall y, P y -> (x <= y)%Q.
Definition is_max (P : Q -> Prop) (x : Q) : Prop := P x /\ forall y, P y -> (y <= x)%Q.

(** Exponential smoothing of n values: weight of the i-th. *)
Fixpoint qpow (x : Q) (n : nat) : Q := match n with 0 => 1%Q | S n' => (x * qpow x n')%Q end.
Definition weight (gamma : Q) (n i : nat) : Q :=
  if i =? 0 then qpow (1 - gamma) (n - 1) else (gamma * qpow (1 - gamma) (n - 1 - i))%Q.
Definition qtotal (l : list Q) : Q := fold_right Qplus 0%Q l.
Definition smoothed (gamma : Q) (l : list Q) : Q :=
  qtotal (map (fun i => weight gamma (length l) i * nth i l 0)%Q (seq 0 (length l))).

(** A world that histories can produce: handle ids below the counter. *)
Definition ids_below {O} (w : oworld O) : Prop :=
  forall q i o, In (i, o) (omap w q) -> i < octr w.
(** The body only removes overrides that were there before the block, or its own. *)
Definition body_ok {O} (w : oworld O) (body : list (@bop O)) : Prop :=
  forall h, In (BRemOld h) body -> hid h < octr w.

(** A function returning the position of a smallest entry. *)
Definition argmin_ok (argmin : list Q -> nat) : Prop :=
  forall l, l <> [] -> argmin l < length l /\ forall j, j < length l -> (nth (argmin l) l 0 <= nth j l 0)%Q.
