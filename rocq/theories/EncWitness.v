(** Concrete quantizers for the theorems about encodings. *)
From Coq Require Import String.
From Verif Require Import Prelude TilingModel TilingSpec GranularityModel AffineModel AffineSpec EncModel EncSpec.
From Coq Require Import QArith Qabs Lia.
Local Open Scope nat_scope.
Local Open Scope list_scope.

Definition qp (b : positive) (ss : list Q) (oo : option (list Q)) (shape tile : list nat) : quant_params :=
  mkQP (Vec ss) (option_map Vec oo) (IntBits b) (Some tile) (Some shape).

Ltac describe :=
  constructor; try reflexivity;
  [ repeat constructor
  | unfold tile_divides; repeat (apply Forall2_cons || apply Forall2_nil);
    (split; [lia|]); (eexists; match goal with |- ?n = _ * ?t => instantiate (1 := n / t) end; reflexivity)
  | let os := fresh in let H := fresh in intros os H; try discriminate H; try (injection H as <-; reflexivity) ].

(** Two channels of two blocks of two, 4 bits. *)
Definition w_ss : list Q := [1#1; 3#1; 1#8; 2#1].
Definition w_rows := qp 4 w_ss None [2; 4] [1; 2].
Lemma w_rows_describes : describes w_rows 4 w_ss None [2; 4] [1; 2].
Proof. describe. Qed.
Definition w_cols := qp 4 w_ss None [4; 2] [2; 1].
Lemma w_cols_describes : describes w_cols 4 w_ss None [4; 2] [2; 1].
Proof. describe. Qed.

(** Offsets for some of the blocks only. *)
Definition w_mixed_os : list Q := [0; 5#1; 0; 0]%Q.
Definition w_mixed := qp 4 w_ss (Some w_mixed_os) [2; 4] [1; 2].
Lemma w_mixed_describes : describes w_mixed 4 w_ss (Some w_mixed_os) [2; 4] [1; 2].
Proof. describe. Qed.

(** Per channel with offsets for the second only. *)
Definition w_chan := qp 8 [1#1; 1#2] (Some [0; 5#1]%Q) [2; 3] [1; 3].
Lemma w_chan_describes : describes w_chan 8 [1#1; 1#2] (Some [0; 5#1]%Q) [2; 3] [1; 3].
Proof. describe. Qed.

(** Per channel, all offsets non-zero. *)
Definition w_asym := qp 8 [1#1; 1#2] (Some [7#1; 5#1]) [2; 3] [1; 3].
Lemma w_asym_describes : describes w_asym 8 [1#1; 1#2] (Some [7#1; 5#1]) [2; 3] [1; 3].
Proof. describe. Qed.

(** Per tensor, and per block, with offsets *)
Definition w_tensor := qp 8 [1#2] (Some [5#1]) [2; 4] [2; 4].
Lemma w_tensor_describes : describes w_tensor 8 [1#2] (Some [5#1]) [2; 4] [2; 4].
Proof. describe. Qed.
Definition w_block := qp 8 [1#2; 1#2; 1#2; 1#2] (Some [5#1; 5#1; 5#1; 5#1]) [2; 4] [1; 2].
Lemma w_block_describes : describes w_block 8 [1#2; 1#2; 1#2; 1#2] (Some [5#1; 5#1; 5#1; 5#1]) [2; 4] [1; 2].
Proof. describe. Qed.

(** Two quantizers of a 4x4 matrix: blocks along dimension 1, or along dimension 0. *)
Definition sq_ss : list Q := [1#1; 2#1; 3#1; 4#1; 5#1; 6#1; 7#1; 8#1].
Definition w_sq_rows := qp 8 sq_ss None [4; 4] [1; 2].
Definition w_sq_cols := qp 8 sq_ss None [4; 4] [2; 1].
Lemma w_sq_rows_describes : describes w_sq_rows 8 sq_ss None [4; 4] [1; 2].
Proof. describe. Qed.
Lemma w_sq_cols_describes : describes w_sq_cols 8 sq_ss None [4; 4] [2; 1].
Proof. describe. Qed.
Definition w_codes (s : list nat) (z : Z) : tensor Z := mkT s (repeat z (prod s)).

(** Results of computations. *)
Definition built (h : result handler) (q : bool) : list (string * any_entry) :=
  match h with Ok h => build_encodings h q | Err _ => [] end.
