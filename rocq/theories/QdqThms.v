(** Properties of the QDQ lowering: C79, C80. *)
From Verif Require Import Prelude TilingModel TilingSpec AffineModel AffineSpec EncModel QdqModel QdqSpec
  QdqProofs.
From Coq Require Import QArith.
Local Open Scope nat_scope.
Local Open Scope list_scope.

(** ** C79: the QDQ graph computes the quantizer *)

(** QuantizeLinear gives the code of the quantizer, or a neighbour of it; the same code unless
    x / scale is halfway between integers and the offset is odd. *)
Theorem C79_codes_partial : forall cast t scale tile b out off res o,
  onnx_cast cast -> wf t -> Forall (fun k => 0 < k) (shape t) ->
  tensor_or_channel (shape t) tile (length scale) ->
  (forall os, off = Some os -> length os = length scale) -> (forall s, In s scale -> ~ (s == 0)%Q) ->
  quantize_by_tile t scale (Tile tile) b out off = Ok res ->
  quantize_lowering (static (shape t)) scale tile (IntBits b) off = Ok o ->
  zero_points_fit (o_type o) off ->
  forall idx x, valid (shape t) idx -> at_index t idx = Some x ->
  exists z z', at_index res idx = Some z /\ quantize_linear cast o (shape t) idx x = Some z' /\
    (Z.abs (z' - z) <= 1)%Z /\
    ((forall s, nth_error scale (tile_row (shape t) tile idx) = Some s ->
        ~ odd_tie x s (nth_offset off (tile_row (shape t) tile idx))) -> z' = z).
Proof. exact lowering_codes. Qed.
Print Assumptions C79_codes_partial.

(** DequantizeLinear decodes every code as the quantizer does. *)
Theorem C79_values_partial : forall cast shape tile scale off ty idx q s,
  onnx_cast cast -> Forall (fun k => 0 < k) shape -> tensor_or_channel shape tile (length scale) ->
  (forall os, off = Some os -> length os = length scale) -> zero_points_fit ty off -> valid shape idx ->
  nth_error scale (tile_row shape tile idx) = Some s ->
  exists v, dequantize_linear cast (dequantize_lowering (static shape) ty scale tile off) shape idx q = Some v /\
    (v == dequantize_elem s (nth_offset off (tile_row shape tile idx)) q)%Q.
Proof. exact lowering_values. Qed.
Print Assumptions C79_values_partial.

(** Of the whole bit widths exactly 4, 8 and 16 are accepted, stored in that many bits. *)
Theorem C79_accepted : forall dims scale tile b off,
  ((exists o, quantize_lowering dims scale tile (IntBits b) off = Ok o) <->
    (b = 4 \/ b = 8 \/ b = 16)%positive) /\
  forall o, quantize_lowering dims scale tile (IntBits b) off = Ok o -> storage_bits (o_type o) = b.
Proof.
  intros. split; [apply lowering_accepted|]. intros o H. now apply lowering_inv in H as (_ & _ & _ & E).
Qed.
Print Assumptions C79_accepted.

(** Not at ties with an odd offset: 0.5 with scale 1 and offset 1 is quantized to 0 (which stands
    for 1), the exported graph gives -1 (which stands for 0). *)
Theorem C79_tie_refuted : forall cast, onnx_cast cast ->
  exists o, quantize_lowering (static [1]) [1%Q] [1] (IntBits 8) (Some [1%Q]) = Ok o /\
    zero_points_fit (o_type o) (Some [1%Q]) /\
    rmap (fun r => at_index r [0]) (quantize_by_tile (mkT [1] [1#2]) [1%Q] (Tile [1]) 8 (FloatT 24) (Some [1%Q]))
      = Ok (Some 0%Z) /\
    quantize_linear cast o [1] [0] (1#2) = Some (-1)%Z.
Proof.
  intros cast Hc. eexists. split; [reflexivity|]. cbn [o_type].
  assert (R : in_range INT8 (-1)) by (split; vm_compute; discriminate).
  split; [|split; [reflexivity|]].
  - intros os o [= <-] [<-|[]]. exact R.
  - unfold quantize_linear. cbn [o_axis o_scale o_zero o_type length onnx_position Nat.eqb nth_error].
    change (ff_zero_point [1%Q] (Some [1%Q])) with [(-1)%Z]. cbn [nth_error].
    rewrite (proj2 (Hc INT8 (-1)%Z) R). reflexivity.
Qed.
Print Assumptions C79_tie_refuted.

(** Not if the zero point does not fit the storage type: with 8 bits for the range [1, 2] (scale
    1/255, offset 383) the value 1.5 is quantized to 383/255; whatever the cast makes of -383,
    the exported graph gives at most 1. *)
Theorem C79_zero_point_refuted : forall cast, onnx_cast cast ->
  exists o z v, quantize_lowering (static [1]) [(1#255)%Q] [1] (IntBits 8) (Some [(383#1)%Q]) = Ok o /\
    rmap (fun r => at_index r [0])
      (quantize_by_tile (mkT [1] [(3#2)%Q]) [(1#255)%Q] (Tile [1]) 8 (FloatT 24) (Some [(383#1)%Q])) = Ok (Some 0%Z) /\
    (dequantize_elem (1#255) (Some (383#1)) 0 == 383 # 255)%Q /\
    quantize_linear cast o [1] [0] (3#2) = Some z /\
    dequantize_linear cast (dequantize_lowering (static [1]) (o_type o) [(1#255)%Q] [1] (Some [(383#1)%Q])) [1] [0] z
      = Some v /\ (v <= 1)%Q.
Proof.
  intros cast Hc. destruct (Hc INT8 (-383)%Z) as [[L U] _].
  change (storage_min INT8) with (-128)%Z in L. change (storage_max INT8) with 127%Z in U.
  assert (Hz : saturate INT8 (382 + cast INT8 (-383)%Z)%Z = 127%Z).
  { unfold saturate. change (storage_min INT8) with (-128)%Z. change (storage_max INT8) with 127%Z. lia. }
  exists (mkQdq [(1#255)%Q] [(-383)%Z] (Some 0) INT8), 127%Z,
    (inject_Z (127 - cast INT8 (-383))%Z * (1#255))%Q.
  split; [reflexivity|]. split; [reflexivity|]. split; [reflexivity|]. split.
  - unfold quantize_linear. cbn [o_axis o_scale o_zero o_type length onnx_position Nat.eqb nth_error].
    change (round_half_even ((3#2) / (1#255))) with 382%Z. now rewrite Hz.
  - split; [reflexivity|]. unfold Qle, Qmult, inject_Z. cbn [Qnum Qden]. lia.
Qed.
Print Assumptions C79_zero_point_refuted.

(** Not for blocks: the tile (2, 2) of a (4, 2) tensor has no side 1, so no axis is written and
    the two scales are applied to the two columns. *)
Theorem C79_blocks_refuted : forall cast, onnx_cast cast ->
  exists o, quantize_lowering (static [4; 2]) [1%Q; (10#1)%Q] [2; 2] (IntBits 8) None = Ok o /\
    rmap (fun r => at_index r [0; 1])
      (quantize_by_tile (mkT [4; 2] (repeat (50#1)%Q 8)) [1%Q; (10#1)%Q] (Tile [2; 2]) 8 (FloatT 24) None)
      = Ok (Some 50%Z) /\
    quantize_linear cast o [4; 2] [0; 1] (50#1) = Some 5%Z.
Proof.
  intros cast Hc. eexists. split; [reflexivity|]. split; [reflexivity|].
  unfold quantize_linear. cbn [o_axis o_scale o_zero o_type].
  change (onnx_position (ff_axis [2; 2] (static [4; 2])) (length [1%Q; (10 # 1)%Q]) [4; 2] [0; 1]) with (Some 1).
  cbn [nth_error ff_zero_point map].
  rewrite (proj2 (Hc INT8 0%Z)) by (split; vm_compute; discriminate). reflexivity.
Qed.
Print Assumptions C79_blocks_refuted.

(** A fractional bit width is truncated, although the dtype lookup would refuse it. *)
Theorem C79_fractional_refuted :
  (exists o, quantize_lowering (static [1]) [1%Q] [1] (FracBits (9#2)) None = Ok o /\ o_type o = INT4) /\
  ff_quant_dtype (9#2) = Err ExportError.
Proof. split; [eexists; split; reflexivity|reflexivity]. Qed.
Print Assumptions C79_fractional_refuted.

(** Non-vacuity: a 1x1 convolution weight (2, 3, 1, 1) per output channel, with offsets; and a
    cast that wraps around. *)
Definition wrap (ty : storage) (z : Z) : Z :=
  ((z - storage_min ty) mod (storage_max ty - storage_min ty + 1) + storage_min ty)%Z.
Lemma wrap_cast : onnx_cast wrap.
Proof.
  intros ty z. unfold wrap, in_range.
  assert (P : (0 < storage_max ty - storage_min ty + 1)%Z) by (destruct ty; reflexivity).
  pose proof (Z.mod_pos_bound (z - storage_min ty) _ P). split; [lia|]. intros H'.
  rewrite Z.mod_small by lia. lia.
Qed.

Example C79_nonvacuous :
  let t := mkT [2; 3; 1; 1] [1%Q; (-3)%Q; (1#3)%Q; 7%Q; (5#2)%Q; 100%Q] in
  let scale := [(1#2)%Q; (1#4)%Q] in let off := Some [(3#2)%Q; (-5)%Q] in let tile := [1; 3; 1; 1] in
  onnx_cast wrap /\ wf t /\ Forall (fun k => 0 < k) (shape t) /\
  tensor_or_channel (shape t) tile (length scale) /\ (forall s, In s scale -> ~ (s == 0)%Q) /\
  exists res o, quantize_by_tile t scale (Tile tile) 8 (FloatT 24) off = Ok res /\
    data res = [0; -8; -1; 33; 15; 127]%Z /\
    quantize_lowering (static (shape t)) scale tile (IntBits 8) off = Ok o /\
    zero_points_fit (o_type o) off /\ o_zero o = [-2; 5]%Z /\
    map (fun ix => quantize_linear wrap o (shape t) (fst ix) (snd ix))
      [([0;0;0;0], 1%Q); ([0;1;0;0], (-3)%Q); ([0;2;0;0], (1#3)%Q); ([1;0;0;0], 7%Q); ([1;1;0;0], (5#2)%Q);
       ([1;2;0;0], 100%Q)] = map Some (data res).
Proof.
  cbn zeta. split; [exact wrap_cast|]. split; [reflexivity|]. split; [repeat constructor|].
  split; [exact (one_channel _ _ _ [] 2 [3; 1; 1] eq_refl eq_refl eq_refl)|].
  split; [intros s [<-|[<-|[]]]; discriminate|].
  eexists. eexists. split; [reflexivity|]. split; [reflexivity|]. split; [reflexivity|]. split; [|split; reflexivity].
  intros os o [= <-] [<-|[<-|[]]]; split; vm_compute; discriminate.
Qed.

(** ** C80: the caller's export options *)

(** If the options are accepted, every option of the caller and every lowering of the caller is
    kept; the opset defaults to 21 and is never below; only the two operators the caller did not
    lower get a lowering, for the opset used. *)
Theorem C80_options_kept : forall available o r, with_ff_qdq_lowerings available o = Ok r ->
  exists v t t', (o = ONone \/ exists d, o = ODict d) /\
    (given o key_opset = Some (VInt v) \/ (given o key_opset = None /\ v = 21%Z)) /\
    (given o key_table = Some (VTable t) \/ (given o key_table = None /\ t = [])) /\
    (21 <= v)%Z /\ available v = true /\
    lookup r key_opset = Some (VInt v) /\ lookup r key_table = Some (VTable t') /\
    (forall k, k <> key_opset -> k <> key_table -> lookup r k = given o k) /\
    (forall k l, lookup t k = Some l -> lookup t' k = Some l) /\
    (forall k, lookup t k = None ->
      lookup t' k = if k =? 0 then Some (FFQuantize v) else if k =? 1 then Some (FFDequantize v) else None).
Proof. exact options_sound. Qed.
Print Assumptions C80_options_kept.

(** Options are refused exactly if they are not a dictionary, the table is not, the opset is not
    a number (TypeError), or the opset is below 21 or not available (ExportError). *)
Theorem C80_options_refused : forall available o,
  (with_ff_qdq_lowerings available o = Err TypeError <->
     o = ONotDict \/
     (exists w, given o key_table = Some w /\ forall t, w <> VTable t) \/
     (exists w, given o key_opset = Some w /\ forall v, w <> VInt v)) /\
  (with_ff_qdq_lowerings available o = Err ExportError <->
     o <> ONotDict /\ (forall w, given o key_table = Some w -> exists t, w = VTable t) /\
     exists v, (given o key_opset = Some (VInt v) \/ (given o key_opset = None /\ v = 21%Z)) /\
       ((v < 21)%Z \/ available v = false)) /\
  (forall e, with_ff_qdq_lowerings available o = Err e -> e = TypeError \/ e = ExportError).
Proof. exact options_errors. Qed.
Print Assumptions C80_options_refused.

(** Non-vacuity: the caller lowers quantize_by_tile and sets another option. *)
Example C80_nonvacuous :
  with_ff_qdq_lowerings (fun v => (v <=? 23)%Z) (ODict [(5, VOther 7); (key_table, VTable [(0, UserLowering 9); (4, UserLowering 3)])]) =
  Ok [(5, VOther 7); (key_table, VTable [(0, UserLowering 9); (4, UserLowering 3); (1, FFDequantize 21)]);
      (key_opset, VInt 21)] /\
  with_ff_qdq_lowerings (fun v => (v <=? 23)%Z) (ODict [(key_opset, VInt 20)]) = Err ExportError /\
  with_ff_qdq_lowerings (fun v => (v <=? 23)%Z) (ODict [(key_opset, VInt 24)]) = Err ExportError /\
  with_ff_qdq_lowerings (fun v => (v <=? 23)%Z) (ODict [(key_table, VOther 1)]) = Err TypeError.
Proof. repeat split. Qed.
