(** C01-C04 and C67: tilings and granularities. *)
From Verif Require Import Prelude TilingModel TilingSpec TilingProofs
  GranularityModel GranularitySpec GranularityProofs.
Local Open Scope nat_scope.

(** C01, first half. *)
Theorem C01_tiling_round_trip :
  forall (A : Type) (t : tensor A) (ta : tile_arg),
    wf t -> tile_divides (shape t) (resolve_tile (shape t) ta) ->
    exists r, tiles_to_rows t ta = Ok r /\ rows_to_tiles r (shape t) ta = Ok t.
Proof. exact @tiling_round_trip. Qed.
Print Assumptions C01_tiling_round_trip.

Definition ex_t : tensor nat := mkT [4; 6; 2] (map (fun k => k * k) (seq 0 48)).
Example C01_nonvacuous : wf ex_t /\ tile_divides (shape ex_t) (resolve_tile (shape ex_t) (Tile [2; 3; 1])).
Proof. split; [reflexivity|]. repeat constructor; [exists 2|exists 2|exists 2]; reflexivity. Qed.

(** C01, second half. *)
Theorem C01_rows_round_trip :
  forall (A : Type) (r : tensor A) (size : list nat) (ta : tile_arg),
    wf r -> numel r <> 0 -> tile_divides size (resolve_tile size ta) ->
    shape r = [prod size / prod (resolve_tile size ta); prod (resolve_tile size ta)] ->
    exists t, rows_to_tiles r size ta = Ok t /\ shape t = size /\ wf t /\ tiles_to_rows t ta = Ok r.
Proof. exact @rows_round_trip. Qed.
Print Assumptions C01_rows_round_trip.

Definition ex_r : tensor nat := mkT [4; 6] (seq 0 24).
Example C01_rows_nonvacuous :
  wf ex_r /\ numel ex_r <> 0 /\ tile_divides [4; 6] (resolve_tile [4; 6] (Tile [2; 3])) /\
  shape ex_r = [prod [4; 6] / prod [2; 3]; prod [2; 3]].
Proof.
  split; [reflexivity|]. split; [vm_compute; discriminate|]. split; [|reflexivity].
  repeat constructor; [exists 2|exists 2]; reflexivity.
Qed.

(** C02: element [idx] of the input is found in the row of its tile, at its position in
    the tile; each (row, column) position holds exactly one element. *)
Theorem C02_rows_are_tiles :
  forall (A : Type) (t : tensor A) (ta : tile_arg),
    wf t -> numel t <> 0 -> tile_divides (shape t) (resolve_tile (shape t) ta) ->
    let tile := resolve_tile (shape t) ta in
    exists r, tiles_to_rows t ta = Ok r /\
      wf r /\ shape r = [prod (grid (shape t) tile); prod tile] /\
      forall idx, valid (shape t) idx ->
        let pos := [ravel (grid (shape t) tile) (tile_coord idx tile); ravel tile (tile_offset idx tile)] in
        valid (shape r) pos /\ at_index r pos = at_index t idx.
Proof.
  exact (fun A t ta Hw Hn Hd =>
    match tiling_round_trip t ta Hw Hd with
    | ex_intro _ r (conj E _) => ex_intro _ r (conj E (rows_are_tiles t ta r Hw Hn Hd E))
    end).
Qed.
Print Assumptions C02_rows_are_tiles.

Theorem C02_each_position_once :
  forall size tile row col,
    tile_divides size tile -> row < prod (grid size tile) -> col < prod tile ->
    exists! idx, valid size idx /\
      ravel (grid size tile) (tile_coord idx tile) = row /\ ravel tile (tile_offset idx tile) = col.
Proof.
  exact (fun size tile row col Hd Hr Hc =>
    match tile_position_surjective size tile row col Hd Hr Hc with
    | ex_intro _ i (conj V (conj E1 E2)) =>
        ex_intro _ i (conj (conj V (conj E1 E2))
          (fun j H => tile_position_injective size tile i j Hd V (proj1 H)
             (eq_trans E1 (eq_sym (proj1 (proj2 H)))) (eq_trans E2 (eq_sym (proj2 (proj2 H))))))
    end).
Qed.
Print Assumptions C02_each_position_once.

Example C02_nonvacuous :
  wf ex_t /\ numel ex_t <> 0 /\ tile_divides (shape ex_t) [2; 3; 1] /\ valid (shape ex_t) [3; 4; 1].
Proof.
  split; [reflexivity|]. split; [vm_compute; discriminate|]. split.
  - repeat constructor; [exists 2|exists 2|exists 2]; reflexivity.
  - repeat constructor.
Qed.

(** C03: the announced parameter count is the number of rows (tiles). *)
Theorem C03_parameter_count :
  forall (A : Type) (g : granularity) (t : tensor A) (ta : tile_arg),
    wf t -> numel t <> 0 -> tile_size g (shape t) = Ok ta ->
    tile_divides (shape t) (resolve_tile (shape t) ta) ->
    exists n m d, parameter_dimensionality g (shape t) = Ok n /\
      tiles_to_rows t ta = Ok (mkT [n; m] d) /\
      n = prod (grid (shape t) (resolve_tile (shape t) ta)).
Proof. exact @parameter_count. Qed.
Print Assumptions C03_parameter_count.

(** ... and every granularity with positive sizes and strict blocks yields such a tile. *)
Theorem C03_tile_compatible :
  forall g s ta,
    Forall (fun n => 0 < n) s -> regular g -> tile_size g s = Ok ta ->
    tile_divides s (resolve_tile s ta).
Proof. exact granularity_compatible. Qed.
Print Assumptions C03_tile_compatible.

Example C03_nonvacuous :
  tile_size (PerBlock [1%Z] [3] [(-1)%Z] true) (shape ex_t) = Ok (Tile [4; 3; 1]) /\
  parameter_dimensionality (PerBlock [1%Z] [3] [(-1)%Z] true) (shape ex_t) = Ok 4 /\
  regular (PerBlock [1%Z] [3] [(-1)%Z] true) /\ Forall (fun n => 0 < n) (shape ex_t).
Proof. repeat split; try reflexivity; repeat constructor. Qed.

(** C04 *)
Theorem C04_granularity_recovery :
  forall s t,
    Forall (fun n => 0 < n) s -> tile_divides s t ->
    exists ta, tile_size (granularity_from_sizes s t) s = Ok ta /\ resolve_tile s ta = t.
Proof. exact granularity_recovery. Qed.
Print Assumptions C04_granularity_recovery.

Example C04_nonvacuous :
  Forall (fun n => 0 < n) [6; 4; 8; 1] /\ tile_divides [6; 4; 8; 1] [2; 1; 8; 1].
Proof. split; [repeat constructor|]. repeat constructor; [exists 3|exists 4|exists 1|exists 1]; reflexivity. Qed.

(** The docstring promises the same for any tile; a tile that does not divide the data
    (accepted with strict_blocks=False) is recovered as a strict block and then rejected. *)
Theorem C04_nondividing_refuted :
  exists s t, Forall (fun n => 0 < n) s /\
    tile_size (PerBlock [0%Z] t [] false) s = Ok (Tile t) /\
    tile_size (granularity_from_sizes s t) s = Err ValueError.
Proof. exact (ex_intro _ [5] (ex_intro _ [2] (conj (Forall_cons 5 (le_n_S 0 4 (Nat.le_0_l 4)) (Forall_nil _)) (conj eq_refl eq_refl)))). Qed.
Print Assumptions C04_nondividing_refuted.

(** C67: granularities that compare equal induce the same tiling, except PerBlock. *)
Theorem C67_granularity_equality_partial :
  forall a b, (forall d s p k, a <> PerBlock d s p k) -> granularity_eq a b = true -> a = b.
Proof. exact granularity_eq_sound. Qed.
Print Assumptions C67_granularity_equality_partial.

Theorem C67_granularity_equality_refuted :
  exists a b s, granularity_eq a b = true /\
    tile_size a s = Ok (Tile [4; 2]) /\ tile_size b s = Ok (Tile [4; 4]).
Proof.
  exact (ex_intro _ (PerBlock [1%Z] [2] [] true) (ex_intro _ (PerBlock [1%Z] [4] [] true)
    (ex_intro _ [4; 8] (conj eq_refl (conj eq_refl eq_refl))))).
Qed.
Print Assumptions C67_granularity_equality_refuted.
