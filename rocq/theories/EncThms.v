(** Properties of exported encodings: C61, C62, C63, C75. *)
From Coq Require Import String.
From Verif Require Import Prelude TilingModel TilingSpec GranularityModel AffineModel AffineSpec
  EncModel EncSpec EncLpbqProofs EncProofs EncV2Proofs EncHandlerProofs EncMetaProofs EncTotalProofs EncWitness.
From Coq Require Import QArith Qabs Lia.
Local Open Scope nat_scope.
Local Open Scope list_scope.

(** ** C61: LPBQ *)

Theorem C61_lpbq_compression c d bws e b ss oo s t name p h x :
  lpbq_new c d = Ok bws -> describes e b ss oo s t -> Forall (fun q => (0 < q)%Q) ss ->
  add_encoding (HV1 (Some bws) v1_init) name e p = Ok h -> build_encodings h p = [(name, EV1 (V1Lpbq x))] ->
  exists l chans blks rest,
    s = lpbq_shape l chans blks (lp_block x) rest /\ t = lpbq_tile l (lp_block x) rest /\
    Zpos b = c /\ Zpos (lp_compressed x) = c /\ Zpos (lp_bw x) = d /\
    lp_offset x = repeat (inject_Z (- 2 ^ (d - 1))) chans /\
    compresses b l chans blks ss (lp_int_scale x) (lp_scale x).
Proof. exact (lpbq_exported c d bws e b ss oo s t name p h x). Qed.
Print Assumptions C61_lpbq_compression.

Theorem C61_lpbq_accepted c d bws e b ss oo l chans blks bs rest name p :
  lpbq_new c d = Ok bws -> Zpos b = c -> 1 < chans -> 1 < blks -> 1 < bs ->
  describes e b ss oo (lpbq_shape l chans blks bs rest) (lpbq_tile l bs rest) ->
  Forall (fun q => (0 < q)%Q) ss -> offsets_zero oo ->
  exists h x, add_encoding (HV1 (Some bws) v1_init) name e p = Ok h /\
    build_encodings h p = [(name, EV1 (V1Lpbq x))].
Proof. exact (lpbq_accepted c d bws e b ss oo l chans blks bs rest name p). Qed.
Print Assumptions C61_lpbq_accepted.

(** Weights: the integer [z * n], read with the channel's scale and offset, is the
    dequantized weight up to [|z|] channel scales. *)
Theorem C61_lpbq_weights c d bws e b ss oo s t name p h x :
  lpbq_new c d = Ok bws -> describes e b ss oo s t -> Forall (fun q => (0 < q)%Q) ss -> offsets_zero oo ->
  add_encoding (HV1 (Some bws) v1_init) name e p = Ok h -> build_encodings h p = [(name, EV1 (V1Lpbq x))] ->
  exists l chans blks rest,
    s = lpbq_shape l chans blks (lp_block x) rest /\ t = lpbq_tile l (lp_block x) rest /\
    forall y w idx z v, wf y -> shape y = s -> dequantize_by_tile y ss (Tile t) oo = Ok w ->
      valid s idx -> at_index y idx = Some z -> at_index w idx = Some v ->
      exists S o n, nth_error (lp_scale x) (channel_of l idx) = Some S /\
        nth_error (lp_offset x) (channel_of l idx) = Some o /\
        nth_error (lp_int_scale x) (block_at l chans blks (channel_of l idx) (block_of l (lp_block x) idx)) = Some n /\
        (Qabs (qnn_decode S o (stored (lp_bw x) (z * n)) - v) <= inject_Z (Z.abs z) * S)%Q.
Proof. exact (lpbq_weights c d bws e b ss oo s t name p h x). Qed.
Print Assumptions C61_lpbq_weights.

Theorem C61_codes_fit b d z n :
  (2 * Zpos b <= Zpos d)%Z -> code b z -> (1 <= n <= 2 ^ Zpos b)%Z -> code d (z * n).
Proof. exact (lpbq_fits b d z n). Qed.
Print Assumptions C61_codes_fit.

Example C61_nonvacuous :
  lpbq_new 4 8 = Ok (4%positive, 8%positive) /\ describes w_rows 4 w_ss None [2; 4] [1; 2] /\
  describes w_cols 4 w_ss None [4; 2] [2; 1] /\ Forall (fun q => (0 < q)%Q) w_ss /\ offsets_zero None /\
  (exists x, built (add_encoding (HV1 (Some (4%positive, 8%positive)) v1_init) "w" w_rows true) true
     = [("w"%string, EV1 (V1Lpbq x))] /\ lp_int_scale x = [5; 16; 1; 16]%Z) /\
  (exists x, built (add_encoding (HV1 (Some (4%positive, 8%positive)) v1_init) "w" w_cols true) true
     = [("w"%string, EV1 (V1Lpbq x))] /\ lp_int_scale x = [16; 16; 2; 11]%Z) /\
  [2; 4] = lpbq_shape Row_blocks 2 2 2 [] /\ [1; 2] = lpbq_tile Row_blocks 2 [].
Proof.
  split; [reflexivity|]. split; [exact w_rows_describes|]. split; [exact w_cols_describes|].
  split; [repeat constructor|]. split; [intros os H; discriminate H|].
  repeat split; eexists; split; vm_compute; reflexivity.
Qed.

(** Without all offsets zero the weights bound fails: an LPBQ encoding is accepted as soon as
    one offset is zero, and all offsets are dropped. *)
Theorem C61_offsets_dropped_refuted :
  exists e b ss oo s t h x y w idx z v S o n,
    describes e b ss oo s t /\ Forall (fun q => (0 < q)%Q) ss /\
    add_encoding (HV1 (Some (4%positive, 8%positive)) v1_init) "w" e true = Ok h /\
    build_encodings h true = [("w"%string, EV1 (V1Lpbq x))] /\
    wf y /\ shape y = s /\ dequantize_by_tile y ss (Tile t) oo = Ok w /\ valid s idx /\
    at_index y idx = Some z /\ at_index w idx = Some v /\
    nth_error (lp_scale x) (channel_of Row_blocks idx) = Some S /\
    nth_error (lp_offset x) (channel_of Row_blocks idx) = Some o /\
    nth_error (lp_int_scale x) (block_at Row_blocks 2 2 (channel_of Row_blocks idx) (block_of Row_blocks (lp_block x) idx)) = Some n /\
    (inject_Z (Z.abs z) * S < Qabs (qnn_decode S o (stored (lp_bw x) (z * n)) - v))%Q.
Proof.
  exists w_mixed, 4%positive, w_ss, (Some w_mixed_os), [2; 4], [1; 2]. do 2 eexists.
  exists (w_codes [2; 4] 1%Z). eexists. exists [0; 2], 1%Z. do 4 eexists.
  split; [exact w_mixed_describes|]. split; [repeat constructor|].
  split; [vm_compute; reflexivity|]. split; [vm_compute; reflexivity|]. split; [reflexivity|]. split; [reflexivity|].
  split; [vm_compute; reflexivity|]. split; [repeat constructor|].
  split; [vm_compute; reflexivity|]. split; [vm_compute; reflexivity|]. split; [vm_compute; reflexivity|].
  split; [vm_compute; reflexivity|]. split; [vm_compute; reflexivity|]. vm_compute. reflexivity.
Qed.
Print Assumptions C61_offsets_dropped_refuted.

(** ** C62: encodings describe the quantizer *)

Theorem C62_v1_decode l e b ss oo s t name p h k sym bw scale offset :
  describes e b ss oo s t -> add_encoding (HV1 l v1_init) name e p = Ok h ->
  build_encodings h p = [(name, EV1 (V1Plain k sym bw scale offset))] ->
  bw = b /\ scale = ss /\ length offset = length ss /\
  forall x w idx z v, wf x -> shape x = s -> dequantize_by_tile x ss (Tile t) oo = Ok w ->
    valid s idx -> at_index x idx = Some z -> at_index w idx = Some v ->
    exists sc o, nth_error scale (v1_position k s t idx) = Some sc /\
      nth_error offset (v1_position k s t idx) = Some o /\ (v == qnn_decode sc o (stored b z))%Q.
Proof. exact (v1_decodes l e b ss oo s t name p h k sym bw scale offset). Qed.
Print Assumptions C62_v1_decode.

Theorem C62_legacy_decode e b ss oo s t name p h es :
  describes e b ss oo s t -> add_encoding (HLegacy legacy_init) name e p = Ok h ->
  build_encodings h p = [(name, ELegacy es)] ->
  length es = length ss /\
  (forall en, In en es -> le_bw en = b /\
     (le_min en == qnn_decode (le_scale en) (inject_Z (le_offset en)) 0)%Q /\
     (le_max en == qnn_decode (le_scale en) (inject_Z (le_offset en)) (2 ^ Zpos b - 1))%Q) /\
  forall x w idx z v, wf x -> shape x = s -> dequantize_by_tile x ss (Tile t) oo = Ok w ->
    valid s idx -> at_index x idx = Some z -> at_index w idx = Some v ->
    exists en, nth_error es (legacy_position (length es) idx) = Some en /\
      (v == qnn_decode (le_scale en) (inject_Z (le_offset en)) (stored b z))%Q.
Proof. exact (legacy_decodes e b ss oo s t name p h es). Qed.
Print Assumptions C62_legacy_decode.

(** Missing: offsets of which some are zero and some are not, and blocks with offsets. *)
Theorem C62_v2_decode_partial e b ss oo s t name p q h x :
  describes e b ss oo s t -> offsets_zero oo \/ offsets_nonzero oo /\ v2_block x = None ->
  add_encoding (HV2 v2_init) name e p = Ok h -> build_encodings h q = [(name, EV2 x)] ->
  v2_bw x = b /\
  forall y w idx z v, wf y -> shape y = s -> dequantize_by_tile y ss (Tile t) oo = Ok w ->
    valid s idx -> at_index y idx = Some z -> at_index w idx = Some v -> v2_decode x idx z v.
Proof. exact (v2_decodes e b ss oo s t name p q h x). Qed.
Print Assumptions C62_v2_decode_partial.

(** Missing: offsets of which some are zero and some are not. *)
Theorem C62_flag_partial h0 name e p h x b ss oo s t : fresh h0 -> describes e b ss oo s t ->
  offsets_zero oo \/ offsets_nonzero oo ->
  add_encoding h0 name e p = Ok h -> build_encodings h p = [(name, x)] ->
  (flagged x true <-> offsets_zero oo) /\ (flagged x false <-> offsets_nonzero oo).
Proof. exact (flag_correct h0 name e p h x b ss oo s t). Qed.
Print Assumptions C62_flag_partial.

(** Per-tensor and per-channel quantizers are accepted by all handlers, block quantizers by
    the 1.0.0 (without LPBQ) and 2.0.0 handlers. *)
Theorem C62_accepted h0 e b ss oo s t name p : fresh h0 -> describes e b ss oo s t ->
  s = t \/ (exists d r, 1 < d /\ s = d :: r /\ t = 1 :: r) ->
  exists h x, add_encoding h0 name e p = Ok h /\ build_encodings h p = [(name, x)].
Proof. exact (simple_accepted h0 e b ss oo s t name p). Qed.
Print Assumptions C62_accepted.

Theorem C62_blocks_accepted h0 e b ss oo l chans blks bs rest name p :
  h0 = HV1 None v1_init \/ h0 = HV2 v2_init -> 1 < chans -> 1 < blks -> 1 < bs ->
  describes e b ss oo (lpbq_shape l chans blks bs rest) (lpbq_tile l bs rest) ->
  exists h x, add_encoding h0 name e p = Ok h /\ build_encodings h p = [(name, x)].
Proof. exact (block_accepted h0 e b ss oo l chans blks bs rest name p). Qed.
Print Assumptions C62_blocks_accepted.

Example C62_nonvacuous :
  describes w_asym 8 [1#1; 1#2] (Some [7#1; 5#1]) [2; 3] [1; 3] /\ offsets_nonzero (Some [7#1; 5#1]) /\
  describes w_block 8 [1#2; 1#2; 1#2; 1#2] (Some [5#1; 5#1; 5#1; 5#1]) [2; 4] [1; 2] /\
  (exists sc o, built (add_encoding (HV1 None v1_init) "w" w_asym true) true
     = [("w"%string, EV1 (V1Plain K_per_channel false 8 sc o))]) /\
  (exists sc o, built (add_encoding (HV1 None v1_init) "w" w_block true) true
     = [("w"%string, EV1 (V1Plain (K_per_block 2) false 8 sc o))]) /\
  (exists es, built (add_encoding (HLegacy legacy_init) "w" w_asym false) false = [("w"%string, ELegacy es)]) /\
  (exists x, built (add_encoding (HV2 v2_init) "w" w_asym true) true = [("w"%string, EV2 x)] /\ v2_block x = None) /\
  (exists w, dequantize_by_tile (w_codes [2; 3] (-3)) [1#1; 1#2] (Tile [1; 3]) (Some [7#1; 5#1]) = Ok w /\
     at_index w [1; 2] = Some ((-3 + 5) * (1#2))%Q).
Proof.
  split; [exact w_asym_describes|]. split; [exists [7#1; 5#1]; split; [reflexivity|repeat constructor; vm_compute; discriminate]|].
  split; [exact w_block_describes|].
  repeat split; repeat eexists; vm_compute; reflexivity.
Qed.

(** A quantizer with one zero and one non-zero offset is flagged symmetric. *)
Theorem C62_flag_refuted : exists e b ss oo s t, describes e b ss oo s t /\ ~ offsets_zero oo /\
  forall h0, fresh h0 -> exists h x, add_encoding h0 "w" e true = Ok h /\ build_encodings h true = [("w"%string, x)] /\
    flagged x true.
Proof.
  exists w_chan, 8%positive, [1#1; 1#2], (Some [0; 5#1]%Q), [2; 3], [1; 3].
  split; [exact w_chan_describes|]. split.
  { intros H. specialize (H _ eq_refl). inversion H as [|? ? _ H']. inversion H' as [|? ? H'' _]. vm_compute in H''. discriminate. }
  intros h0 F. destruct F as [|l|]; do 2 eexists; (split; [vm_compute; reflexivity|]); (split; [vm_compute; reflexivity|]);
    cbn [flagged]; repeat constructor.
Qed.
Print Assumptions C62_flag_refuted.

(** Its 2.0.0 entry has no zero point and does not decode to the dequantized value. *)
Theorem C62_v2_mixed_refuted : exists e b ss oo s t h x y w idx z v,
  describes e b ss oo s t /\ add_encoding (HV2 v2_init) "w" e true = Ok h /\
  build_encodings h true = [("w"%string, EV2 x)] /\ wf y /\ shape y = s /\
  dequantize_by_tile y ss (Tile t) oo = Ok w /\ valid s idx /\ at_index y idx = Some z /\ at_index w idx = Some v /\
  v2_zero_point x = None /\ ~ v2_decode x idx z v.
Proof.
  exists w_chan, 8%positive, [1#1; 1#2], (Some [0; 5#1]%Q), [2; 3], [1; 3]. do 2 eexists.
  exists (w_codes [2; 3] 1%Z). eexists. exists [1; 0], 1%Z. eexists.
  split; [exact w_chan_describes|]. split; [vm_compute; reflexivity|]. split; [vm_compute; reflexivity|].
  split; [reflexivity|]. split; [reflexivity|]. split; [vm_compute; reflexivity|]. split; [repeat constructor|].
  split; [vm_compute; reflexivity|]. split; [vm_compute; reflexivity|]. split; [reflexivity|].
  intros (s & Hs & _ & Hv). vm_compute in Hs. injection Hs as <-. vm_compute in Hv. discriminate.
Qed.
Print Assumptions C62_v2_mixed_refuted.

(** The zero points of 2.0.0 entries of a per-tensor and of a block quantizer follow
    different conventions: both quantizers give every code the same value, their entries have
    the same scale and different zero points, so no reading of scale and zero point is right
    for both. *)
Theorem C62_v2_zero_point_refuted : exists e e' b ss ss' oo oo' s t t' h h' x x' sc o o',
  describes e b ss oo s t /\ describes e' b ss' oo' s t' /\
  (forall y w w', wf y -> shape y = s -> dequantize_by_tile y ss (Tile t) oo = Ok w ->
     dequantize_by_tile y ss' (Tile t') oo' = Ok w' ->
     forall idx v v', valid s idx -> at_index w idx = Some v -> at_index w' idx = Some v' -> (v == v')%Q) /\
  add_encoding (HV2 v2_init) "w" e true = Ok h /\ build_encodings h true = [("w"%string, EV2 x)] /\
  add_encoding (HV2 v2_init) "w" e' true = Ok h' /\ build_encodings h' true = [("w"%string, EV2 x')] /\
  v2_unsigned x = v2_unsigned x' /\ v2_bw x = v2_bw x' /\
  (exists y y', v2_zero_point x = Some y /\ v2_zero_point x' = Some y' /\
     forall idx, valid s idx -> v2_value x (v2_scale x) idx = Some sc /\ v2_value x' (v2_scale x') idx = Some sc /\
       v2_value x y idx = Some o /\ v2_value x' y' idx = Some o') /\ ~ (o == o')%Q.
Proof.
  exists w_tensor, w_block, 8%positive, [1#2], [1#2; 1#2; 1#2; 1#2], (Some [5#1]), (Some [5#1; 5#1; 5#1; 5#1]),
    [2; 4], [2; 4], [1; 2]. do 4 eexists. exists (1#2)%Q. do 2 eexists.
  split; [exact w_tensor_describes|]. split; [exact w_block_describes|]. split.
  { intros y w w' W Hs E E' idx v v' V Hv Hv'.
    destruct (nth_error_lt_some (data y) (ravel (shape y) idx)) as (z & Hz).
    { unfold wf in W. rewrite W, Hs. now apply TilingProofs.ravel_lt. }
    destruct (deq_at _ _ _ _ _ _ _ _ _ _ _ w_tensor_describes W Hs E V Hz Hv) as (sc & H1 & L1 & O1 & ->).
    destruct (deq_at _ _ _ _ _ _ _ _ _ _ _ w_block_describes W Hs E' V Hz Hv') as (sc' & H2 & L2 & O2 & ->).
    remember (tile_row [2; 4] [2; 4] idx) as i. remember (tile_row [2; 4] [1; 2] idx) as j.
    destruct i as [|i]; [|cbn in L1; lia]. do 4 (destruct j as [|j]; [vm_compute in H1, H2; injection H1 as <-; injection H2 as <-; reflexivity|]).
    cbn in L2; lia. }
  split; [vm_compute; reflexivity|]. split; [vm_compute; reflexivity|]. split; [vm_compute; reflexivity|].
  split; [vm_compute; reflexivity|]. split; [reflexivity|]. split; [reflexivity|]. split.
  { do 2 eexists. split; [vm_compute; reflexivity|]. split; [vm_compute; reflexivity|].
    intros idx V. apply valid_cons_inv in V as (i & idx' & -> & Hi & V). apply valid_cons_inv in V as (j & idx'' & -> & Hj & V).
    inversion V; subst. do 2 (destruct i as [|i]; [do 4 (destruct j as [|j]; [vm_compute; repeat split; reflexivity|]); lia|]). lia. }
  vm_compute. discriminate.
Qed.
Print Assumptions C62_v2_zero_point_refuted.

(** A 1.0.0 block entry does not say along which dimension the blocks run: two quantizers
    that give some element different values have the same entry. *)
Theorem C62_v1_block_axis_refuted : exists e e' b ss s t t' h h' y w w' idx v v',
  describes e b ss None s t /\ describes e' b ss None s t' /\
  add_encoding (HV1 None v1_init) "w" e true = Ok h /\ add_encoding (HV1 None v1_init) "w" e' true = Ok h' /\
  build_encodings h true = build_encodings h' true /\
  wf y /\ shape y = s /\ dequantize_by_tile y ss (Tile t) None = Ok w /\ dequantize_by_tile y ss (Tile t') None = Ok w' /\
  valid s idx /\ at_index w idx = Some v /\ at_index w' idx = Some v' /\ ~ (v == v')%Q.
Proof.
  exists w_sq_rows, w_sq_cols, 8%positive, sq_ss, [4; 4], [1; 2], [2; 1]. do 2 eexists.
  exists (w_codes [4; 4] 1%Z). do 2 eexists. exists [1; 1]. do 2 eexists.
  split; [exact w_sq_rows_describes|]. split; [exact w_sq_cols_describes|].
  split; [vm_compute; reflexivity|]. split; [vm_compute; reflexivity|]. split; [vm_compute; reflexivity|].
  split; [reflexivity|]. split; [reflexivity|]. split; [vm_compute; reflexivity|]. split; [vm_compute; reflexivity|].
  split; [repeat constructor|]. split; [vm_compute; reflexivity|]. split; [vm_compute; reflexivity|].
  vm_compute. discriminate.
Qed.
Print Assumptions C62_v1_block_axis_refuted.

(** ** C63: names *)

Theorem C63_names_first_wins h0 ops q : fresh h0 ->
  NoDup (map fst (build_encodings (run h0 ops) q)) /\
  forall name x, In (name, x) (build_encodings (run h0 ops) q) <->
    exists e p h, first_added h0 (since_clear ops) name q e p /\
      add_encoding h0 name e p = Ok h /\ build_encodings h q = [(name, x)].
Proof. exact (names_first_wins h0 ops q). Qed.
Print Assumptions C63_names_first_wins.

(** Extraction from an ONNX graph adds the annotated objects in order, whatever the handler
    was used for before. *)
Theorem C63_extraction h0 ops g h : fresh h0 -> extract_encodings g (run h0 ops) = Ok h ->
  exists calls, Forall2 (fun '(n, m, p) o => exists e, quant_params_from_metadata m = Ok e /\ o = Add n e p) (annotated g) calls /\
    h = run h0 calls.
Proof. exact (extraction h0 ops g h). Qed.
Print Assumptions C63_extraction.

Theorem C63_history_independent h0 ops g : fresh h0 -> extract_encodings g (run h0 ops) = extract_encodings g h0.
Proof. exact (clear_forgets h0 ops g). Qed.
Print Assumptions C63_history_independent.

Definition w_meta (b : positive) : option metadata := Some (mkMeta [1#2] [5#1] b false (Some ([4], [4]))).
Definition w_graph : proto :=
  mkProto [("w"%string, w_meta 4)] [("w"%string, w_meta 5); ("x"%string, w_meta 6)]
          [(w_meta 7, ["y"%string; "x"%string]); (None, ["z"%string])] [("y"%string, w_meta 9)].

Example C63_nonvacuous :
  (let ops := [Add "a" w_asym true; Clear; Add "b" w_asym true; Add "b" w_chan true; Add "b" w_chan false] in
   map fst (build_encodings (run (HV1 None v1_init) ops) true) = ["b"%string] /\
   build_encodings (run (HV1 None v1_init) ops) true = built (add_encoding (HV1 None v1_init) "b" w_asym true) true /\
   first_added (HV1 None v1_init) (since_clear ops) "b" true w_asym true) /\
  (exists h, extract_encodings w_graph (HV2 v2_init) = Ok h /\
     map (fun '(n, x) => (n, match x with EV2 x => v2_bw x | _ => 1%positive end)) (build_encodings h true) =
     [("w"%string, 4%positive); ("x"%string, 6%positive); ("y"%string, 7%positive)]).
Proof.
  split; [split; [reflexivity|split; [vm_compute; reflexivity|]]|].
  - exists [], [Add "b" w_chan true; Add "b" w_chan false]. split; [reflexivity|]. split; [reflexivity|].
    split; [eexists; vm_compute; reflexivity|intros e' p' []].
  - eexists. split; vm_compute; reflexivity.
Qed.

(** ** C75: from the quantizer through the ONNX metadata to the encoding *)

Theorem C75_metadata_round_trip b ss os shape tile sp :
  length os = length ss -> length ss = prod (grid shape tile) ->
  Forall (fun n => 0 < n) shape -> tile_divides shape tile ->
  ff_quantizer_spec ss (Some os) (IntBits b) (Some tile) (Some shape) = Ok sp ->
  exists e os', quant_params_from_metadata (apply_quant_spec_metadata sp) = Ok e /\
    describes e b ss (Some os') shape tile /\ Forall2 Qeq os os'.
Proof. exact (metadata_round_trip b ss os shape tile sp). Qed.
Print Assumptions C75_metadata_round_trip.

Theorem C75_end_to_end l b ss os s t sp name p h k sym bw scale offset :
  length os = length ss -> length ss = prod (grid s t) ->
  Forall (fun n => 0 < n) s -> tile_divides s t ->
  ff_quantizer_spec ss (Some os) (IntBits b) (Some t) (Some s) = Ok sp ->
  (let? e := quant_params_from_metadata (apply_quant_spec_metadata sp) in
   add_encoding (HV1 l v1_init) name e p) = Ok h ->
  build_encodings h p = [(name, EV1 (V1Plain k sym bw scale offset))] ->
  bw = b /\ scale = ss /\ length offset = length ss /\
  forall x w idx z v, wf x -> shape x = s -> dequantize_by_tile x ss (Tile t) (Some os) = Ok w ->
    valid s idx -> at_index x idx = Some z -> at_index w idx = Some v ->
    exists sc o, nth_error scale (v1_position k s t idx) = Some sc /\
      nth_error offset (v1_position k s t idx) = Some o /\ (v == qnn_decode sc o (stored b z))%Q.
Proof. exact (end_to_end l b ss os s t sp name p h k sym bw scale offset). Qed.
Print Assumptions C75_end_to_end.

Example C75_nonvacuous : exists sp sc o,
  ff_quantizer_spec [1#1; 1#2] (Some [7#1; 5#1]) (IntBits 8) (Some [1; 3]) (Some [2; 3]) = Ok sp /\
  built (let? e := quant_params_from_metadata (apply_quant_spec_metadata sp) in
         add_encoding (HV1 None v1_init) "w" e true) true = [("w"%string, EV1 (V1Plain K_per_channel false 8 sc o))] /\
  tile_divides [2; 3] [1; 3].
Proof.
  do 3 eexists. split; [reflexivity|]. split; [vm_compute; reflexivity|].
  exact (d_divides _ _ _ _ _ _ w_asym_describes).
Qed.

(** A quantizer without offset cannot be annotated. *)
Theorem C75_no_offset_refuted : forall ss b tile shape,
  ff_quantizer_spec ss None (IntBits b) tile shape = Err AssertionError.
Proof. reflexivity. Qed.
Print Assumptions C75_no_offset_refuted.
