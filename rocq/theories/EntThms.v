From Verif Require Import Prelude TilingModel TilingSpec GranularityModel GranularitySpec AffineModel
  AffineSpec EntModel EntSpec EntProofs EntTensorProofs EntDynamicProofs.
From Coq Require Import QArith Qabs.
Local Open Scope nat_scope.

(** The four-element tensor used in examples. *)
Definition ex_data : dten := mkD (FloatT 23) (mkT [2; 2] [3 # 10; 5; 7 # 4; -(1 # 3)]%Q).

(** C120: all static entry points agree.  On every tensor with elements, in and out of export
    mode, [quantize_per_granularity] has the same outcome (error, or codes and dequantized
    values) as the quantization function with parameters of that granularity; leaving the
    granularity of a context out means one tile.  (The full claim, for every tensor, is
    refuted by [C120_empty_refuted].) *)
Theorem C120_agree_partial :
  forall export x scale offset g b out,
    numel (d_val x) <> 0 ->
    same_outcome (st_per_granularity export x scale offset g b out)
                 (quantize export x (static_context scale offset (Some g) b out None)) /\
    st_per_tensor export x scale offset b out
      = quantize export x (static_context scale offset None b out None).
Proof. intros. split; [now apply st_granularity_same|reflexivity]. Qed.
Print Assumptions C120_agree_partial.

(** C120: [quantize_per_block] succeeds exactly where the granularity of strict blocks does,
    with the same result. *)
Theorem C120_blocks :
  forall export x scale offset channel_axis block_axis block_size b out r,
    Forall (fun d => 0 < d) (shape (d_val x)) -> 0 < block_size ->
    st_per_block export x scale offset channel_axis block_axis block_size b out = Ok r <->
    st_per_granularity export x scale offset
      (PerBlock [block_axis] [block_size] [channel_axis] true) b out = Ok r.
Proof. intros. now apply st_block_same. Qed.
Print Assumptions C120_blocks.

(** C120: for floating point data, a granularity with positive sizes, one scale and offset
    for all tiles or one per tile, and a dtype that holds the codes, the call succeeds; every
    code is the code closest to x / scale - offset of the tile of the element; and
    dequantizing gives a tensor of the dtype of the data with (code + offset) * scale. *)
Theorem C120_elements_partial :
  forall x scale offset g ta b out,
    wf (d_val x) -> Forall (fun d => 0 < d) (shape (d_val x)) -> float_dtype (d_dtype x) ->
    regular g -> tile_size g (shape (d_val x)) = Ok ta ->
    let tile := resolve_tile (shape (d_val x)) ta in
    let n := prod (grid (shape (d_val x)) tile) in
    per_tile n scale -> (forall a, offset = Some a -> per_tile n a) -> nonzero scale ->
    holds_codes (or_dtype out (d_dtype x)) b ->
    exists c p v,
      st_per_granularity false x scale offset g b out = Ok (Quantized c p) /\
      c_dtype c = or_dtype out (d_dtype x) /\ dequantize c p = Ok v /\ d_dtype v = d_dtype x /\
      quantizes (d_val x) tile scale offset b (c_raw c) (d_val v).
Proof.
  intros x scale offset g ta b out Hwf Hpos Hx Hreg Ht tile n Hs Ho Hnz Hh.
  destruct (static_elements x scale offset g ta b out Hwf Hpos Hx Hreg Ht Hs Ho Hnz Hh)
    as (c & p & v & E & D & V & T & _ & _ & Q).
  pose proof (st_granularity_same false x scale offset g b out (numel_positive _ Hwf Hpos)) as S.
  unfold static_context in S. rewrite E in S.
  destruct (st_per_granularity false x scale offset g b out) as [[c' p'|y]|e]; cbn in S; try contradiction.
  destruct S as [-> S]. exists c, p', v. rewrite S. auto.
Qed.
Print Assumptions C120_elements_partial.

Example C120_nonvacuous :
  wf (d_val ex_data) /\ regular (PerChannel [0%Z]) /\
  tile_size (PerChannel [0%Z]) (shape (d_val ex_data)) = Ok (Tile [1; 2]) /\
  per_tile 2 (Ten [1 # 10; 1 # 4]%Q) /\ holds_codes (IntT 8 true) 4 /\
  st_per_granularity false ex_data (Ten [1 # 10; 1 # 4]%Q) None (PerChannel [0%Z]) 4 (Some (IntT 8 true))
  = Ok (Quantized (mkC (IntT 8 true) (mkT [2; 2] [3; 7; 7; -1]%Z))
         (Static (mkS (Ten [1 # 10; 1 # 4]%Q) None 4 (PerChannel [0%Z]) (Some (IntT 8 true)) (Some (FloatT 23))))) /\
  st_per_block false ex_data (Num (1 # 2)) None 0 (-1) 1 4 None
  = st_per_granularity false ex_data (Num (1 # 2)) None (PerBlock [(-1)%Z] [1] [0%Z] true) 4 None.
Proof. repeat split; try (vm_compute; reflexivity); cbn; auto; try lia. Qed.

(** C120, counterexample: an empty tensor with blocks that need not divide it is quantized by
    a context and refused by [quantize_per_granularity]. *)
Theorem C120_empty_refuted :
  let x := mkD (FloatT 23) (mkT [0; 5] []) in
  let g := PerBlock [1%Z] [2] [] false in
  st_per_granularity false x (Num 1) None g 8 None = Err ValueError /\
  quantize false x (static_context (Num 1) None (Some g) 8 None None)
  = Ok (Quantized (mkC (FloatT 23) (mkT [0; 5] []))
         (Static (mkS (Num 1) None 8 g None (Some (FloatT 23))))).
Proof. cbv zeta. split; vm_compute; reflexivity. Qed.
Print Assumptions C120_empty_refuted.

(** C120, counterexample: integer data.  Dequantization happens in the dtype of the data, so
    that a scale given as a number is truncated to an integer: 3 and 5 with scale 1/2 become
    0 and 0. *)
Theorem C120_integer_data_refuted :
  let x := mkD (IntT 32 true) (mkT [2] [3; 5]%Q) in
  exists c p, st_per_tensor false x (Num (1 # 2)) None 8 None = Ok (Quantized c p) /\
    c_raw c = mkT [2] [6; 10]%Z /\
    rmap (fun v => (d_dtype v, map Qred (data (d_val v)))) (dequantize c p) = Ok (IntT 32 true, [0; 0]%Q).
Proof. cbv zeta. eexists _, _. repeat split; vm_compute; reflexivity. Qed.
Print Assumptions C120_integer_data_refuted.

(** C120, counterexample: [block_size] is documented as the number of blocks along the axis.
    It is their size: one row of eight elements with block size 4 has two blocks, and four
    scales are refused. *)
Theorem C120_block_count_refuted :
  let x := mkD (FloatT 23) (mkT [1; 8] (repeat 1%Q 8)) in
  st_per_block false x (Ten [1; 1; 1; 1]%Q) None 0 1 4 8 None = Err RuntimeError /\
  exists c p, st_per_block false x (Ten [1; 1 # 2]%Q) None 0 1 4 8 None = Ok (Quantized c p) /\
    c_raw c = mkT [1; 8] [1; 1; 1; 1; 2; 2; 2; 2]%Z.
Proof. cbv zeta. split; [vm_compute; reflexivity|]. eexists _, _. split; vm_compute; reflexivity. Qed.
Print Assumptions C120_block_count_refuted.

(** C121: a quantized tensor can be made again from its own parameters: whatever parameters
    were asked for, static or dynamic, with or without an inference function, the parameters
    of the result are static and quantizing the same data with them gives the same result. *)
Theorem C121_static_again :
  forall x p c p',
    quantize false x p = Ok (Quantized c p') ->
    (exists q, p' = Static q) /\ quantize false x p' = Ok (Quantized c p').
Proof. intros x p c p' H. split; [eapply quantize_static_params|eapply quantize_again]; eauto. Qed.
Print Assumptions C121_static_again.

(** C121: with an inference function the result is that of the scale and offset it returns. *)
Theorem C121_inferred :
  forall x p infer s o c p',
    y_infer p = Some infer -> infer x = Ok (s, o) ->
    quantize false x (Dynamic p) = Ok (Quantized c p') ->
    quantize false x (Static (mkS (Ten s) (option_map Ten o) (y_bits p) (y_gran p) (y_qdtype p) (y_ddtype p)))
    = Ok (Quantized c p').
Proof. exact inferred_params. Qed.
Print Assumptions C121_inferred.

(** C121: dynamic entry points agree with the granularity they stand for. *)
Theorem C121_agree :
  forall x g b symmetric one_sided out,
    numel (d_val x) <> 0 ->
    same_outcome (dy_per_granularity false x g b symmetric one_sided out)
                 (quantize false x (dynamic_context g b symmetric one_sided out None)).
Proof. intros. now apply dy_granularity_same. Qed.
Print Assumptions C121_agree.

Theorem C121_blocks :
  forall x channel_axis block_axis block_size b symmetric one_sided out r,
    Forall (fun d => 0 < d) (shape (d_val x)) -> 0 < block_size ->
    dy_per_block false x channel_axis block_axis block_size b symmetric one_sided out = Ok r <->
    dy_per_granularity false x (PerBlock [block_axis] [block_size] [channel_axis] true) b symmetric one_sided out
    = Ok r.
Proof. intros. now apply dy_block_same. Qed.
Print Assumptions C121_blocks.

(** C121: where dynamic quantization succeeds, there is a positive scale and an offset for
    every tile, the codes are those of these parameters, and every dequantized element lies
    within half a scale of the element. *)
Theorem C121_half_step :
  forall x g ta b symmetric one_sided out c p,
    wf (d_val x) -> Forall (fun d => 0 < d) (shape (d_val x)) -> float_dtype (d_dtype x) ->
    regular g -> tile_size g (shape (d_val x)) = Ok ta -> holds_codes (or_dtype out (d_dtype x)) b ->
    quantize false x (dynamic_context g b symmetric one_sided out None) = Ok (Quantized c p) ->
    let tile := resolve_tile (shape (d_val x)) ta in
    exists scale offset v,
      p = Static (mkS (Ten scale) (Some (Ten offset)) b g out (Some (d_dtype x))) /\
      length scale = prod (grid (shape (d_val x)) tile) /\ length offset = length scale /\
      dequantize c p = Ok v /\ d_dtype v = d_dtype x /\
      quantizes (d_val x) tile (Ten scale) (Some (Ten offset)) b (c_raw c) (d_val v) /\
      forall idx xv, valid (shape (d_val x)) idx -> at_index (d_val x) idx = Some xv ->
        exists s w, nth_error scale (tile_row (shape (d_val x)) tile idx) = Some s /\ (0 < s)%Q /\
          at_index (d_val v) idx = Some w /\ (Qabs (w - xv) <= (1 # 2) * s)%Q.
Proof.
  intros x g ta b sym one out c p Hwf Hpos Hx Hreg Ht Hh H tile.
  destruct (dynamic_half_step x g ta b sym one out c p Hwf Hpos Hx Hreg Ht Hh H)
    as (s & o & v & A & B & C & D & E & _ & _ & F & G).
  exists s, o, v. auto 10.
Qed.
Print Assumptions C121_half_step.

Example C121_nonvacuous :
  exists c p, quantize false ex_data (dynamic_context (PerChannel [0%Z]) 4 false true None None)
              = Ok (Quantized c p) /\ c_raw c = mkT [2; 2] [-8; 7; 7; -8]%Z /\
    exists q, p = Static q /\ map Qred (match s_scale q with Ten l => l | Num q => [q] end) = [47 # 150; 5 # 36]%Q.
Proof. eexists _, _. split; [vm_compute; reflexivity|]. split; [reflexivity|]. eexists. split; [reflexivity|vm_compute; reflexivity]. Qed.

(** C122: export mode.  Without explicit dtypes, exporting gives an ordinary tensor exactly
    where eager quantization and dequantization succeed, and it is the dequantized tensor. *)
Theorem C122_export_eager :
  forall x scale offset b g v,
    quantize true x (static_context scale offset (Some g) b None None) = Ok (Plain v) <->
    exists c p, quantize false x (static_context scale offset (Some g) b None None) = Ok (Quantized c p) /\
      dequantize c p = Ok v.
Proof.
  intros. split; [apply export_eager_back|]. intros (c & p & H & Hv). eapply export_eager; eauto.
Qed.
Print Assumptions C122_export_eager.

(** C122: with floating point dtypes the values are those of eager mode.  (For integer
    storage this is refuted by [C122_integer_storage_refuted].) *)
Theorem C122_export_values_partial :
  forall x scale offset b g out deq c p v,
    float_dtype (d_dtype x) ->
    (forall f, out = Some f -> float_dtype f) -> (forall f, deq = Some f -> float_dtype f) ->
    quantize false x (static_context scale offset (Some g) b out deq) = Ok (Quantized c p) ->
    dequantize c p = Ok v ->
    exists v', quantize true x (static_context scale offset (Some g) b out deq) = Ok (Plain v') /\
      d_val v' = d_val v.
Proof. intros. eapply export_eager_float; eauto. Qed.
Print Assumptions C122_export_values_partial.

(** C122: dynamic quantization is refused, and attaching codes gives the tensor they stand
    for. *)
Theorem C122_dynamic_refused :
  forall x p, quantize true x (Dynamic p) = Err ExportError.
Proof. reflexivity. Qed.
Print Assumptions C122_dynamic_refused.

Theorem C122_attach :
  forall c p v,
    attach true c p = Ok (Plain v) <-> exists o, attach false c p = Ok o /\ dequantized o = Ok v.
Proof.
  intros c p v. split.
  - unfold attach. intros H. exists (Quantized c p). split; [reflexivity|]. cbn [dequantized].
    destruct (dequantize c p); cbn in H; [now injection H as ->|discriminate].
  - intros (o & Ho & Hv). injection Ho as <-. now apply attach_export.
Qed.
Print Assumptions C122_attach.

Example C122_nonvacuous :
  exists v, quantize true ex_data (static_context (Num (1 # 2)) (Some (Num (1#4))) (Some PerTensor) 4 None None)
            = Ok (Plain v) /\
    map Qred (data (d_val v)) = [1 # 2; 7 # 2; 2; -(1 # 2)]%Q.
Proof. eexists. split; vm_compute; reflexivity. Qed.

(** C122, counterexample: codes stored as 8-bit integers.  Export mode dequantizes to the
    dtype of the codes: 3/2 with scale 1/2 is 3/2 in eager mode and 1 in export mode, and 0
    if the scale is given as a number. *)
Theorem C122_integer_storage_refuted :
  let x := mkD (FloatT 23) (mkT [1] [3 # 2]%Q) in
  let values r := match r with
                  | Ok o => rmap (fun v => map Qred (data (d_val v))) (dequantized o)
                  | Err e => Err e
                  end in
  values (quantize false x (static_context (Ten [1 # 2]%Q) None None 4 (Some (IntT 8 true)) None)) = Ok [3 # 2]%Q /\
  values (quantize true x (static_context (Ten [1 # 2]%Q) None None 4 (Some (IntT 8 true)) None)) = Ok [1]%Q /\
  values (quantize true x (static_context (Num (1 # 2)) None None 4 (Some (IntT 8 true)) None)) = Ok [0]%Q.
Proof. cbv zeta. repeat split; vm_compute; reflexivity. Qed.
Print Assumptions C122_integer_storage_refuted.

(** C122, counterexample: the dtype asked for is ignored in export mode. *)
Theorem C122_dtype_refuted :
  let x := mkD (FloatT 23) (mkT [1] [3 # 2]%Q) in
  let dtypes r := match r with Ok o => rmap d_dtype (dequantized o) | Err e => Err e end in
  dtypes (quantize false x (static_context (Num (1 # 2)) None None 4 None (Some (FloatT 10)))) = Ok (FloatT 10) /\
  dtypes (quantize true x (static_context (Num (1 # 2)) None None 4 None (Some (FloatT 10)))) = Ok (FloatT 23).
Proof. cbv zeta. split; vm_compute; reflexivity. Qed.
Print Assumptions C122_dtype_refuted.
