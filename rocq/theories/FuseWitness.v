(** Concrete models for the theorems about fusing. *)
From Coq Require Import String.
From Verif Require Import Prelude TilingModel TilingSpec AffineModel FuseModel FuseSpec.
From Coq Require Import QArith.
Local Open Scope nat_scope.

Definition wq : string := "weight_quantizer"%string.

(** A bfloat16 weight (8 significant bits) and an 8-bit asymmetric quantizer. *)
Definition bf16_quant : affine := mkAffine [115 # 128] (Some [16%Q]) DataShape 8 (FloatT 7).
Definition bf16_view : view := mkView 0 [1] [0].
Definition bf16_state : state := mkState (fun _ => 200%Q) [mkMod (Some bf16_view) [(wq, CQuant 0)]].
Definition bf16_target : target := mkTarget 0 bf16_view 0.
Definition bf16_call : nat -> tensor Q -> result outcome := fun _ w => rmap New (affine_qdq (Bits 8) bf16_quant w).

(** Two modules sharing one weight. *)
Definition pair_view : view := mkView 0 [2] [0; 1].
Definition pair_mem : memory := fun a => if a =? 0 then 1%Q else 2%Q.
Definition scaled (s : Q) (sh : list nat) : affine := mkAffine [s] None DataShape 8 (FloatT 24).
Definition half_step : affine := scaled (3 # 2) [2].
Definition unit_step : affine := scaled 1 [2].

Definition shared_state : state :=
  mkState pair_mem [mkMod (Some pair_view) [(wq, CQuant 0)]; mkMod (Some pair_view) [(wq, CStub 9)]].

(** The second module views the same memory with another shape. *)
Definition column_view : view := mkView 0 [2; 1] [0; 1].
Definition reshaped_state : state :=
  mkState pair_mem [mkMod (Some pair_view) [(wq, CQuant 0)]; mkMod (Some column_view) [(wq, CQuant 1)]].
Definition reshaped_targets : list target := [mkTarget 0 pair_view 0; mkTarget 1 column_view 1].
Definition reshaped_params (q : nat) : affine := if q =? 0 then unit_step else half_step.

(** The second module uses the transposed square weight, with the same quantizer. *)
Definition square_view : view := mkView 0 [2; 2] [0; 1; 2; 3].
Definition square_t_view : view := mkView 0 [2; 2] [0; 2; 1; 3].
Definition row_quant : affine := mkAffine [1%Q; 3 # 2] None (Tile [1; 2]) 8 (FloatT 24).
Definition square_state : state :=
  mkState (fun _ => 1%Q) [mkMod (Some square_view) [(wq, CQuant 0)]; mkMod (Some square_t_view) [(wq, CQuant 0)]].
Definition square_targets : list target := [mkTarget 0 square_view 0; mkTarget 1 square_t_view 0].

(** One instance of a custom quantizer that is not idempotent, shared by two modules. *)
Definition halving : nat -> tensor Q -> result outcome := fun _ w => Ok (New (tmap (fun x => x / 2)%Q w)).
Definition twice_state : state :=
  mkState pair_mem [mkMod (Some pair_view) [(wq, CQuant 0)]; mkMod (Some pair_view) [(wq, CQuant 0)]].
Definition twice_targets : list target := [mkTarget 0 pair_view 0; mkTarget 1 pair_view 0].

(** A model within the theorems: two tied modules with equal grids, one untied. *)
Definition lin_params (q : nat) : affine :=
  if q =? 2 then mkAffine [1 # 2; 1 # 4] (Some [3%Q; -(1 # 2)]) (Tile [1; 2]) 4 (FloatT 24) else half_step.
Definition lin_state : state :=
  mkState (fun a => if a <? 2 then pair_mem a else (Z.of_nat a # 3))
    [mkMod (Some pair_view) [(wq, CQuant 0)]; mkMod (Some pair_view) [(wq, CQuant 1)];
     mkMod (Some (mkView 2 [2; 2] [2; 3; 4; 5])) [("other"%string, COther 0); (wq, CQuant 2)]].
Definition lin_targets : list target :=
  [mkTarget 0 pair_view 0; mkTarget 1 pair_view 1; mkTarget 2 (mkView 2 [2; 2] [2; 3; 4; 5]) 2].
