(** Specification vocabulary for fusing weights. *)
From Coq Require Import String.
From Verif Require Import Prelude TilingModel TilingSpec AffineModel FuseModel.
From Coq Require Import QArith.
Local Open Scope nat_scope.

(** Same shape and numerically equal elements. *)
Definition teq (t u : tensor Q) : Prop := shape t = shape u /\ Forall2 Qeq (data t) (data u).

(** Quantizer parameters that fit a weight of shape [s]. *)
Definition fits (s : list nat) (a : affine) : Prop :=
  prod s <> 0 /\
  tile_divides s (resolve_tile s (a_tile a)) /\
  length (a_scale a) = prod (grid s (resolve_tile s (a_tile a))) /\
  (forall o, a_offset a = Some o -> length o = length (a_scale a)) /\
  (forall x, In x (a_scale a) -> ~ (x == 0)%Q) /\
  can_support_bitwidth (a_out a) (a_bits a) = true.

(** Every integer code plus (rounded) offset has at most half the magnitude up to which
    the weight's format represents all integers. *)
Definition precise (d : format) (a : affine) : Prop :=
  match d with
  | Exact => True
  | Bits p => forall z, (- 2 ^ (Zpos (a_bits a) - 1) <= z <= 2 ^ (Zpos (a_bits a) - 1) - 1)%Z ->
      match a_offset a with
      | None => (Z.abs z <= 2 ^ (Zpos p - 1))%Z
      | Some os => forall o, In o os -> (Z.abs (z + round_half_even o) <= 2 ^ (Zpos p - 1))%Z
      end
  end.

(** What fusing needs of a quantizer on weights of shape [s]: it keeps the shape, does not
    depend on how numbers are written, and maps its own results to themselves. *)
Definition stable_on (s : list nat) (f : tensor Q -> result outcome) : Prop :=
  forall w, shape w = s -> length (data w) = prod s ->
    (forall v, f w = Ok (New v) -> shape v = s /\ length (data v) = prod s) /\
    (forall o u, f w = Ok o -> teq w u ->
       exists o', f u = Ok o' /\ (o' = Same <-> o = Same) /\ teq (value w o) (value u o')) /\
    (forall v, f w = Ok (New v) -> exists v', f v = Ok (New v') /\ teq v v').

(** A parameter's view of memory: distinct addresses, as many as the shape says. *)
Definition proper (v : view) : Prop := NoDup (addrs v) /\ length (addrs v) = prod (vshape v).

Definition disjoint (a b : view) : Prop := forall x, In x (addrs a) -> ~ In x (addrs b).

(** Weights are either the same view of memory, and then have the same address and shape,
    or do not overlap. *)
Definition plain_ties (ts : list target) : Prop :=
  (forall t, In t ts -> proper (t_weight t)) /\
  forall a b, In a ts -> In b ts ->
    (t_weight a = t_weight b) \/
    (disjoint (t_weight a) (t_weight b) /\
     ~ (ptr (t_weight a) = ptr (t_weight b) /\ vshape (t_weight a) = vshape (t_weight b))).

(** The targets are weights of the model's modules. *)
Definition targets_of (ms : list module) (ts : list target) : Prop :=
  forall t, In t ts -> exists m, nth_error ms (t_mod t) = Some m /\ weight m = Some (t_weight t).

(** The child registered under a name. *)
Definition child_named (m : module) (name : string) (c : child) : Prop :=
  exists pre post, children m = pre ++ (name, c) :: post /\ ~ In name (map fst pre).
