(** C14: structural operations on quantized tensors commute with dequantization. *)
From Verif Require Import Prelude TilingModel TilingSpec GranularityModel AffineModel AffineSpec
  StructuralModel StructuralSpec StructuralProofs.
From Coq Require Import QArith.
Local Open Scope nat_scope.

(** Per-tensor quantized data: reshape/view, transpose, indexing, expand, take_along_dim
    and contiguous, with every argument (errors included). *)
Theorem C14_reshape s q : per_tensor q -> rbind (k_reshape s q) dequantize = rbind (dequantize q) (t_reshape s).
Proof. exact (per_tensor_op_commutes _ q (reshape_relocates s)). Qed.
Print Assumptions C14_reshape.
Theorem C14_transpose a b q : per_tensor q -> rbind (k_transpose a b q) dequantize = rbind (dequantize q) (t_transpose a b).
Proof. exact (per_tensor_op_commutes _ q (transpose_relocates a b)). Qed.
Print Assumptions C14_transpose.
Theorem C14_getitem sl q : per_tensor q -> rbind (k_getitem sl q) dequantize = rbind (dequantize q) (t_getitem sl).
Proof. exact (per_tensor_op_commutes _ q (getitem_relocates sl)). Qed.
Print Assumptions C14_getitem.
Theorem C14_expand s q : per_tensor q -> rbind (k_expand s q) dequantize = rbind (dequantize q) (t_expand s).
Proof. exact (per_tensor_op_commutes _ q (expand_relocates s)). Qed.
Print Assumptions C14_expand.
Theorem C14_take_along i d q : per_tensor q -> rbind (k_take_along i d q) dequantize = rbind (dequantize q) (t_take_along i d).
Proof. exact (per_tensor_op_commutes _ q (take_along_relocates i d)). Qed.
Print Assumptions C14_take_along.
Theorem C14_contiguous q : per_tensor q -> rbind (k_contiguous q) dequantize = dequantize q.
Proof.
  intros H. unfold k_contiguous. rewrite (per_tensor_op_commutes (fun A t => Ok t) q id_relocates H).
  destruct (dequantize q); reflexivity.
Qed.
Print Assumptions C14_contiguous.

(** Indexing per-channel quantized data with any tuple of integers, slices, ellipsis and
    new axes that is valid for the data. *)
Theorem C14_getitem_per_channel sl q ta dims d :
  well_quantized q ta -> qgran q = PerChannel dims -> t_getitem sl (raw q) = Ok d ->
  exists q', k_getitem_per_channel sl q = Ok q' /\ raw q' = d /\
             dequantize q' = rbind (dequantize q) (t_getitem sl).
Proof. exact (getitem_per_channel_commutes sl q ta dims d). Qed.
Print Assumptions C14_getitem_per_channel.

(** Inserting a dimension, for per-tensor and per-tile data. *)
Theorem C14_unsqueeze_per_tensor dim q : per_tensor q ->
  rbind (k_unsqueeze dim q) dequantize = rbind (dequantize q) (t_unsqueeze dim).
Proof. exact (unsqueeze_per_tensor_commutes dim q). Qed.
Print Assumptions C14_unsqueeze_per_tensor.
Theorem C14_unsqueeze_per_tile_partial dim q tile : well_quantized q (Tile tile) -> qgran q = PerTile tile ->
  rbind (k_unsqueeze dim q) dequantize = rbind (dequantize q) (t_unsqueeze dim).
Proof. exact (unsqueeze_per_tile_commutes dim q tile). Qed.
Print Assumptions C14_unsqueeze_per_tile_partial.
(** The same statement is false for per-channel data: the result has other values. *)
Theorem C14_unsqueeze_per_channel_refuted :
  well_quantized unsq_q (Tile [2; 1]) /\
  exists q' r r', k_unsqueeze 0 unsq_q = Ok q' /\ rbind (dequantize unsq_q) (t_unsqueeze 0) = Ok r /\
    dequantize q' = Ok r' /\ ~ tensor_Qeq r' r.
Proof. exact unsqueeze_per_channel_wrong. Qed.
Print Assumptions C14_unsqueeze_per_channel_refuted.

(** Multiplying by a number, at every granularity. *)
Theorem C14_scalar_multiply c q ta : well_quantized q ta ->
  exists r r', dequantize q = Ok r /\ dequantize (k_scalar_multiply c q) = Ok r' /\ tensor_Qeq r' (tmap (Qmult c) r).
Proof. exact (scalar_multiply_commutes c q ta). Qed.
Print Assumptions C14_scalar_multiply.

(** Concatenation when all tensors have an offset or none has. *)
Theorem C14_cat_partial dim ts d :
  Forall per_tensor ts -> cat_predicate None None ts = true ->
  (Forall (fun q => qoffset q = None) ts \/ Forall (fun q => qoffset q <> None) ts) ->
  t_cat dim (map raw ts) = Ok d ->
  exists q' ds r r', k_cat dim ts = Ok q' /\ dequantize q' = Ok r /\
    rmapM dequantize ts = Ok ds /\ t_cat dim ds = Ok r' /\ tensor_Qeq r r'.
Proof. exact (cat_commutes dim ts d). Qed.
Print Assumptions C14_cat_partial.
(** A tensor with an offset after one without is accepted and loses its offset. *)
Theorem C14_cat_refuted :
  Forall per_tensor [cat_a; cat_b] /\ cat_predicate None None [cat_a; cat_b] = true /\
  exists q' r ds r', k_cat 0 [cat_a; cat_b] = Ok q' /\ dequantize q' = Ok r /\
    rmapM dequantize [cat_a; cat_b] = Ok ds /\ t_cat 0 ds = Ok r' /\ ~ tensor_Qeq r r'.
Proof. exact cat_loses_offset. Qed.
Print Assumptions C14_cat_refuted.

(** The k greatest (or smallest) entries, for a positive scale: values and positions. *)
Theorem C14_topk_partial s o largest k l : (0 < s)%Q ->
  k_topk_fibre s o largest k l = topk_fibre Qle_bool largest k (map (dequantize_elem s o) l).
Proof. exact (topk_commutes s o largest k l). Qed.
Print Assumptions C14_topk_partial.
(** With a negative scale (which multiplying by a negative number produces) the smallest
    entries are returned. *)
Theorem C14_topk_refuted :
  exists s o k l r r', k_topk_fibre s o true k l = Ok r /\
    topk_fibre Qle_bool true k (map (dequantize_elem s o) l) = Ok r' /\ map fst r <> map fst r'.
Proof.
  exists (-1)%Q, None, 1, [1; 2]%Z. do 2 eexists. split; [vm_compute; reflexivity|]. split; [vm_compute; reflexivity|].
  vm_compute. discriminate.
Qed.
Print Assumptions C14_topk_refuted.

(** Concrete cases: a per-channel tensor indexed with [..., None, 1:, 0]. *)
Definition ex_q : qtensor :=
  mkQT (mkT [2; 3; 2] [1; 2; 3; 4; 5; 6; 7; 8; 9; 10; 11; 12]%Z) [1; 2; 3]%Q (Some [0; 1; 2]%Q) (PerChannel [-2]%Z).
Example C14_nonvacuous :
  well_quantized ex_q (Tile [2; 1; 2]) /\
  exists d q', t_getitem [SEllipsis; SNone; SSlice (Some 1%Z) None None; SInt 0] (raw ex_q) = Ok d /\
    shape d = [2; 1; 2] /\ k_getitem_per_channel [SEllipsis; SNone; SSlice (Some 1%Z) None None; SInt 0] ex_q = Ok q' /\
    qgran q' = PerChannel [2%Z] /\ length (qscale q') = 2.
Proof.
  split.
  - split; [reflexivity|]. split; [reflexivity|]. split; [|split; [reflexivity|intros o H; injection H as <-; reflexivity]].
    constructor; [split; [simpl; lia|exists 1; reflexivity]|].
    constructor; [split; [simpl; lia|exists 3; reflexivity]|].
    constructor; [split; [simpl; lia|exists 1; reflexivity]|constructor].
  - do 2 eexists. split; [vm_compute; reflexivity|]. split; [reflexivity|]. split; [vm_compute; reflexivity|].
    split; reflexivity.
Qed.
Example C14_nonvacuous_per_tensor :
  per_tensor (mkQT (mkT [2; 3] [1; 2; 3; 4; 5; 6]%Z) [2]%Q (Some [1]%Q) PerTensor) /\
  (exists q', k_reshape [3; -1]%Z (mkQT (mkT [2; 3] [1; 2; 3; 4; 5; 6]%Z) [2]%Q (Some [1]%Q) PerTensor) = Ok q' /\ shape (raw q') = [3; 2]) /\
  cat_predicate None None [cat_b; cat_b] = true.
Proof.
  split; [|split].
  - split; [reflexivity|]. split; [reflexivity|]. split; [reflexivity|]. intros o H; injection H as <-; reflexivity.
  - eexists. split; [vm_compute; reflexivity|reflexivity].
  - reflexivity.
Qed.
