(** C05-C13 and C68: affine quantization. *)
From Verif Require Import Prelude TilingModel TilingSpec AffineModel AffineSpec AffineProofs AffineTensorProofs.
From Coq Require Import QArith Qabs Lqa.
Local Open Scope Q_scope.

(** The rounding used everywhere below is nearest, ties to even, and unique. *)
Theorem C05_rounding_is_nearest_even :
  forall q, nearest_even q (round_half_even q) /\ forall z, nearest_even q z -> z = round_half_even q.
Proof. exact (fun q => conj (round_nearest_even q) (fun z H => nearest_even_unique q z _ H (round_nearest_even q))). Qed.
Print Assumptions C05_rounding_is_nearest_even.

(** C05: every stored code is in the signed [b]-bit range. *)
Theorem C05_codes_in_range :
  forall t scale ta b out off res,
    quantize_by_tile t scale ta b out off = Ok res -> Forall (code b) (data res).
Proof. exact quantize_by_tile_codes. Qed.
Print Assumptions C05_codes_in_range.

Theorem C05_elementwise_total_in_range :
  forall s o b x, ~ s == 0 -> exists z, quantize_elem s o b x = Ok z /\ code b z.
Proof.
  exact (fun s o b x Hs => match quantize_total s o b x Hs with
         | ex_intro _ z E => ex_intro _ z (conj E (quantize_in_range s o b x z E)) end).
Qed.
Print Assumptions C05_elementwise_total_in_range.

Definition ex_x : tensor Q := mkT [2; 4]%nat [0; 13 # 10; -(7 # 2); 100; 1 # 3; 5; -(1 # 2); 3 # 2].
Example C05_nonvacuous :
  quantize_by_tile ex_x [1 # 2; 1 # 4] (Tile [1; 4]%nat) 3 (FloatT 23) (Some [0; 3 # 2])
  = Ok (mkT [2; 4]%nat [0; 3; -4; 3; -1; 3; -4; 3]%Z).
Proof. vm_compute. reflexivity. Qed.

(** C06: half-step error inside the (reported) range, for any offset. *)
Theorem C06_rounding_error :
  forall s o b x, 0 < s ->
    let '(lo, hi) := quantization_range s o b in
    lo <= x <= hi ->
    exists z, quantize_elem s o b x = Ok z /\ Qabs (dequantize_elem s o z - x) <= (1#2) * s.
Proof. exact quantize_error. Qed.
Print Assumptions C06_rounding_error.

(** C06: saturation to the ends of the range. *)
Theorem C06_saturation :
  forall s o b x z, 0 < s -> integral_offset o -> quantize_elem s o b x = Ok z ->
    let '(lo, hi) := quantization_range s o b in
    (x <= lo -> dequantize_elem s o z == lo) /\ (hi <= x -> dequantize_elem s o z == hi).
Proof. exact quantize_saturates. Qed.
Print Assumptions C06_saturation.

Example C06_nonvacuous :
  0 < (1#10) /\ integral_offset (Some 3) /\
  fst (quantization_range (1#10) (Some 3) 4) <= 1 # 3 <= snd (quantization_range (1#10) (Some 3) 4) /\
  quantize_elem (1#10) (Some 3) 4 (1 # 3) = Ok 0%Z /\ quantize_elem (1#10) (Some 3) 4 17 = Ok 7%Z.
Proof. repeat split; try reflexivity; try (exists 3%Z; reflexivity); vm_compute; discriminate. Qed.

(** With a fractional offset the grid is shifted by the rounding of the offset, so the
    reported range end is not reached exactly. *)
Theorem C06_fractional_offset_refuted :
  exists s o b x z, 0 < s /\ quantize_elem s o b x = Ok z /\ x <= fst (quantization_range s o b) /\
    ~ dequantize_elem s o z == fst (quantization_range s o b).
Proof. exact fractional_offset_witness. Qed.
Print Assumptions C06_fractional_offset_refuted.

(** C07: codes are fixpoints; quantize-dequantize is idempotent. *)
Theorem C07_grid_fixpoint :
  forall s o b z, ~ s == 0 -> code b z -> quantize_elem s o b (dequantize_elem s o z) = Ok z.
Proof. exact quantize_dequantize. Qed.
Print Assumptions C07_grid_fixpoint.

Theorem C07_idempotent :
  forall s o b x z, ~ s == 0 -> quantize_elem s o b x = Ok z ->
    quantize_elem s o b (dequantize_elem s o z) = Ok z.
Proof. exact (fun s o b x z Hs E => quantize_dequantize s o b z Hs (quantize_in_range s o b x z E)). Qed.
Print Assumptions C07_idempotent.

Example C07_nonvacuous : code 4 (-8) /\ quantize_elem (-(1#3)) (Some (5#2)) 4 17 = Ok (-8)%Z.
Proof. split; [vm_compute; split; discriminate | reflexivity]. Qed.

(** C08 *)
Theorem C08_monotone :
  forall s o b x y zx zy, 0 < s -> x <= y ->
    quantize_elem s o b x = Ok zx -> quantize_elem s o b y = Ok zy ->
    (zx <= zy)%Z /\ dequantize_elem s o zx <= dequantize_elem s o zy.
Proof. exact quantize_mono. Qed.
Print Assumptions C08_monotone.

Example C08_nonvacuous :
  quantize_elem (1#3) (Some (5#2)) 4 (1#5) = Ok (-1)%Z /\ quantize_elem (1#3) (Some (5#2)) 4 (9#5) = Ok 3%Z.
Proof. split; reflexivity. Qed.

(** C09: for every tile [i] with min < max, the scale is positive and the quantization
    range covers [min, max]; exactly at the lower end when asymmetric, and exactly at the
    upper end when the range is not narrower than the float32-eps floor on the scale;
    one-sided quantization covers exactly [0, max]. *)
Theorem C09_range_covered :
  forall ranges b sym allow ss oo i mn mx,
    parameters_for_range ranges b sym allow = Ok (ss, oo) ->
    nth_error ranges i = Some (mn, mx) -> mn < mx ->
    exists s, nth_error ss i = Some s /\ 0 < s /\
      (oo <> None -> nth_offset oo i <> None) /\
      fst (quantization_range s (nth_offset oo i) b) <= mn /\
      mx <= snd (quantization_range s (nth_offset oo i) b) /\
      (sym = false -> fst (quantization_range s (nth_offset oo i) b) == mn) /\
      (sym = false -> eps32 * QofZ (2 ^ Zpos b - 1) <= mx - mn ->
         snd (quantization_range s (nth_offset oo i) b) == mx) /\
      (sym = true -> oo <> None -> fst (quantization_range s (nth_offset oo i) b) == 0 /\
         (eps32 * QofZ (2 ^ Zpos b - 1) <= mx -> snd (quantization_range s (nth_offset oo i) b) == mx)).
Proof. exact parameters_for_range_covers. Qed.
Print Assumptions C09_range_covered.

Theorem C09_total :
  forall ranges b sym allow, ranges <> [] -> (sym = true -> b <> 1%positive) ->
    exists ss oo, parameters_for_range ranges b sym allow = Ok (ss, oo) /\ length ss = length ranges.
Proof. exact parameters_for_range_total. Qed.
Print Assumptions C09_total.

Example C09_nonvacuous :
  parameters_for_range [(-(1), 3); (2, 5)] 4 false true = Ok ([4 # 15; 3 # 15], Some [-(1) / (4#15) - (-(8)); 2 / (3#15) - (-(8))]) /\
  eps32 * QofZ (2 ^ 4 - 1) <= 3 - -(1).
Proof. split; [vm_compute; reflexivity|vm_compute; discriminate]. Qed.

(** One-bit symmetric quantization has integer_maximum 0: a division by zero. *)
Theorem C09_one_bit_symmetric_refuted :
  parameters_for_range [(-(1), 1)] 1 true false = Err ZeroDivisionError.
Proof. exact one_bit_witness. Qed.
Print Assumptions C09_one_bit_symmetric_refuted.

(** Half-step accuracy on the requested range, despite the rounding of the offset: the
    composition of setting a range and quantizing. *)
Theorem C09_set_range_then_quantize :
  forall ranges b sym allow ss oo i mn mx x s,
    parameters_for_range ranges b sym allow = Ok (ss, oo) ->
    nth_error ranges i = Some (mn, mx) -> mn < mx -> mn <= x <= mx -> nth_error ss i = Some s ->
    exists z, quantize_elem s (nth_offset oo i) b x = Ok z /\
      Qabs (dequantize_elem s (nth_offset oo i) z - x) <= (1#2) * s.
Proof. exact range_then_quantize. Qed.
Print Assumptions C09_set_range_then_quantize.

(** C10 *)
Theorem C10_set_then_get :
  forall q mn mx, lq_symmetric q = false -> lq_offset q <> None ->
    eps32 * QofZ (2 ^ Zpos (lq_bits q) - 1) <= mx - mn ->
    exists q', lq_set_range q mn mx = Ok q' /\ fst (lq_get_range q') == mn /\ snd (lq_get_range q') == mx.
Proof. exact set_get_range. Qed.
Print Assumptions C10_set_then_get.

Theorem C10_get_then_set :
  forall q o, lq_symmetric q = false -> lq_offset q = Some o -> eps32 <= lq_scale q ->
    exists q' o', lq_set_range q (fst (lq_get_range q)) (snd (lq_get_range q)) = Ok q' /\
      lq_scale q' == lq_scale q /\ lq_offset q' = Some o' /\ o' == o.
Proof. exact get_set_range. Qed.
Print Assumptions C10_get_then_set.

Example C10_nonvacuous :
  let q := mkLq 8 false true (1#7) (Some (13#5)) in
  lq_symmetric q = false /\ lq_offset q = Some (13#5) /\ eps32 <= lq_scale q /\
  eps32 * QofZ (2 ^ Zpos (lq_bits q) - 1) <= 5 - -(2).
Proof. repeat split; try reflexivity; vm_compute; discriminate. Qed.

(** Without the width hypothesis: a very narrow range is widened by the eps floor. *)
Theorem C10_narrow_range_refuted :
  exists q mn mx q', lq_symmetric q = false /\ mn < mx /\ lq_set_range q mn mx = Ok q' /\
    ~ snd (lq_get_range q') == mx.
Proof. exact narrow_range_witness. Qed.
Print Assumptions C10_narrow_range_refuted.

(** C11: whenever dynamic quantization yields finite codes, every element of every tile is
    reproduced within half a step. *)
Theorem C11_dynamic_half_step_partial :
  forall rows b sym allow q ss os i row s o j x z qrow,
    quantize_dynamic_rows rows b sym allow = Ok (q, ss, os) ->
    nth_error rows i = Some row -> nth_error row j = Some x ->
    nth_error q i = Some qrow -> nth_error qrow j = Some z ->
    nth_error ss i = Some s -> nth_error os i = Some o ->
    0 < s /\ code b z /\ Qabs ((QofZ z + QofZ o) * s - x) <= (1 # 2) * s.
Proof. exact dynamic_error. Qed.
Print Assumptions C11_dynamic_half_step_partial.

(** It always does for non-empty tiles in asymmetric mode. *)
Theorem C11_dynamic_asymmetric_total :
  forall rows b allow, rows <> [] -> Forall (fun r => r <> []) rows ->
    exists q ss os, quantize_dynamic_rows rows b false allow = Ok (q, ss, os) /\
      length q = length rows /\ length ss = length rows /\ length os = length rows /\
      (forall i row qrow, nth_error rows i = Some row -> nth_error q i = Some qrow -> length qrow = length row).
Proof. exact dynamic_total. Qed.
Print Assumptions C11_dynamic_asymmetric_total.

Example C11_nonvacuous :
  exists q ss os, quantize_dynamic_rows [[1; -(2); 3#7]; [5; 5; 6]] 4 false true = Ok (q, ss, os) /\
    nth_error q 1 = Some [-8; -8; 7]%Z.
Proof. eexists _, _, _. split; vm_compute; reflexivity. Qed.

(** Symmetric dynamic quantization of data with an all-zero tile divides zero by a zero
    scale (NaN codes in torch). *)
Theorem C11_zero_tile_refuted :
  quantize_dynamic_rows [[0; 0]; [-(1); 1]] 8 true true = Err ZeroDivisionError.
Proof. exact zero_tile_witness. Qed.
Print Assumptions C11_zero_tile_refuted.

(** C12 *)
Theorem C12_quantize_elementwise :
  forall t scale ta b out off,
    wf t -> numel t <> 0%nat -> tile_divides (shape t) (resolve_tile (shape t) ta) ->
    length scale = prod (grid (shape t) (resolve_tile (shape t) ta)) ->
    (forall l, off = Some l -> length l = length scale) ->
    (forall s, In s scale -> ~ s == 0) ->
    can_support_bitwidth out b = true ->
    exists res, quantize_by_tile t scale ta b out off = Ok res /\ shape res = shape t /\ wf res /\
      forall idx x, valid (shape t) idx -> at_index t idx = Some x ->
        exists s z, nth_error scale (tile_row (shape t) (resolve_tile (shape t) ta) idx) = Some s /\
          at_index res idx = Some z /\
          quantize_elem s (nth_offset off (tile_row (shape t) (resolve_tile (shape t) ta) idx)) b x = Ok z.
Proof. exact quantize_by_tile_elementwise. Qed.
Print Assumptions C12_quantize_elementwise.

Theorem C12_dequantize_elementwise :
  forall t scale ta off,
    wf t -> numel t <> 0%nat -> tile_divides (shape t) (resolve_tile (shape t) ta) ->
    length scale = prod (grid (shape t) (resolve_tile (shape t) ta)) ->
    (forall l, off = Some l -> length l = length scale) ->
    exists res, dequantize_by_tile t scale ta off = Ok res /\ shape res = shape t /\ wf res /\
      forall idx z, valid (shape t) idx -> at_index t idx = Some z ->
        exists s, nth_error scale (tile_row (shape t) (resolve_tile (shape t) ta) idx) = Some s /\
          at_index res idx =
            Some (dequantize_elem s (nth_offset off (tile_row (shape t) (resolve_tile (shape t) ta) idx)) z).
Proof. exact dequantize_by_tile_elementwise. Qed.
Print Assumptions C12_dequantize_elementwise.

Example C12_nonvacuous :
  wf ex_x /\ numel ex_x <> 0%nat /\ tile_divides (shape ex_x) (resolve_tile (shape ex_x) (Tile [1; 2]%nat)) /\
  length [1#2; 1#4; 3; 5] = prod (grid (shape ex_x) (resolve_tile (shape ex_x) (Tile [1; 2]%nat))) /\
  can_support_bitwidth (FloatT 23) 8 = true.
Proof.
  split; [reflexivity|]. split; [vm_compute; discriminate|]. split.
  - constructor; [split; [auto | exists 2%nat; reflexivity]|].
    constructor; [split; [auto | exists 2%nat; reflexivity]|constructor].
  - split; reflexivity.
Qed.

(** C13: gradients of one tile.  [ste_derivative] is the forward-mode derivative of
    (clamp(round(x/s - o)) + o) * s with the straight-through rule for round. *)
Theorem C13_straight_through_gradients :
  forall s o b xg dins dsc dof,
    ~ s == 0 -> grad_row s o b xg = Ok (dins, dsc, dof) ->
    Forall2 (fun d p => d == snd p * ste_derivative s o b (fst p) 1 0 0) dins xg /\
    dsc == qsum (map (fun p => snd p * ste_derivative s o b (fst p) 0 1 0) xg) /\
    match o with
    | None => dof = None
    | Some _ => exists v, dof = Some v /\ v == qsum (map (fun p => snd p * ste_derivative s o b (fst p) 0 0 1) xg)
    end.
Proof. exact grad_row_spec. Qed.
Print Assumptions C13_straight_through_gradients.

Theorem C13_input_gradient_mask :
  forall s o b x, ~ s == 0 ->
    ste_derivative s o b x 1 0 0 ==
      (if (integer_minimum b <=? round_half_even (x / s - QofZ (infer_offset o)))%Z &&
          (round_half_even (x / s - QofZ (infer_offset o)) <=? integer_maximum b)%Z then 1 else 0).
Proof. exact ste_input_derivative. Qed.
Print Assumptions C13_input_gradient_mask.

Example C13_nonvacuous :
  exists dins dsc dof, grad_row (1#2) (Some 1) 3 [(3#5, 2); (100, 3); (-(50), 1)] = Ok (dins, dsc, dof) /\
    nth_error dins 0 = Some 2 /\ nth_error dins 1 = Some 0.
Proof. eexists _, _, _. split; [vm_compute; reflexivity|]. split; reflexivity. Qed.

(** C68: an accepted floating point output dtype stores all codes exactly; an integer
    dtype does when it has at least num_bits bits. *)
Theorem C68_float_storage_exact :
  forall m b z, can_support_bitwidth (FloatT m) b = true -> code b z -> store (FloatT m) z = Some z.
Proof. exact float_store_exact. Qed.
Print Assumptions C68_float_storage_exact.

Theorem C68_int_storage_exact_partial :
  forall w b z, (Pos.to_nat b <= w)%nat -> code b z -> store (IntT w true) z = Some z.
Proof. exact int_store_exact. Qed.
Print Assumptions C68_int_storage_exact_partial.

Example C68_nonvacuous :
  can_support_bitwidth (FloatT 10) 12 = true /\ code 12 (-2048) /\ (Pos.to_nat 8 <= 8)%nat.
Proof. split; [reflexivity|]. split; [vm_compute; split; discriminate|]. apply le_n. Qed.

(** But the check also accepts 10-bit codes for int8 and signed codes for uint8. *)
Theorem C68_int_storage_refuted :
  (can_support_bitwidth (IntT 8 true) 10 = true /\ code 10 300 /\ store (IntT 8 true) 300 = Some 44%Z) /\
  (can_support_bitwidth (IntT 8 false) 8 = true /\ code 8 (-1) /\ store (IntT 8 false) (-1) = Some 255%Z).
Proof. exact int_store_witness. Qed.
Print Assumptions C68_int_storage_refuted.
