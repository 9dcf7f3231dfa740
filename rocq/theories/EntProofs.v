From Verif Require Import Prelude TilingModel TilingSpec TilingProofs GranularityModel GranularitySpec
  GranularityProofs AffineModel AffineSpec AffineProofs AffineTensorProofs EntModel EntSpec.
From Coq Require Import QArith Qabs Qround Lqa.
Local Open Scope nat_scope.

(** ** Shapes *)

Lemma rows_to_tiles_shape {A} (q t : tensor A) size ta : rows_to_tiles q size ta = Ok t -> shape t = size.
Proof.
  unfold rows_to_tiles. intros H.
  destruct (numel q =? 0).
  { unfold reshape in H. destruct (_ =? _) in H; [injection H as <-; reflexivity|discriminate]. }
  destruct (check_tile_compatibility _ _) in H; cbn [rbind] in H; [|discriminate].
  destruct (prod _ =? 0) in H; [discriminate|].
  destruct (negb _) in H; [discriminate|].
  destruct (num_dim_blocks _ _) in H; cbn [rbind] in H; [|discriminate].
  destruct (omapM _ _) in H; [|discriminate].
  destruct (reshape _ _) in H; cbn [rbind] in H; [|discriminate].
  destruct (permute _ _) in H; cbn [rbind] in H; [|discriminate].
  unfold reshape in H. destruct (_ =? _) in H; [injection H as <-; reflexivity|discriminate].
Qed.

Lemma quantize_by_tile_shape t scale ta b out off z :
  quantize_by_tile t scale ta b out off = Ok z -> shape z = shape t.
Proof.
  unfold quantize_by_tile. intros H.
  apply rbind_ok in H as (r & _ & H). apply rbind_ok in H as (d & _ & H). apply rbind_ok in H as (u & _ & H).
  apply rbind_ok in H as (res & Hr & H). destruct (can_support_bitwidth _ _); [|discriminate].
  injection H as <-. eapply rows_to_tiles_shape; eauto.
Qed.

Lemma quantize_affine_shape x scale offset ta b out c :
  quantize_affine x scale offset ta b out = Ok c -> shape (c_raw c) = shape (d_val x) /\ c_dtype c = out.
Proof.
  unfold quantize_affine. intros H. apply rbind_ok in H as (z & Hz & H). injection H as <-.
  cbn. split; [|reflexivity]. eapply quantize_by_tile_shape; eauto.
Qed.

Lemma quantize_dynamic_shape x ta b sym one out c s o :
  quantize_dynamic_affine x ta b sym one out = Ok (c, s, o) -> shape (c_raw c) = shape (d_val x) /\ c_dtype c = out.
Proof.
  unfold quantize_dynamic_affine. intros H.
  apply rbind_ok in H as (r & _ & H). apply rbind_ok in H as (rg & _ & H). apply rbind_ok in H as ([sc of] & _ & H).
  apply rbind_ok in H as (d & _ & H). apply rbind_ok in H as (u & _ & H).
  apply rbind_ok in H as (res & Hr & H). destruct (can_support_bitwidth _ _); [|discriminate].
  injection H as <- <- <-. cbn. split; [|reflexivity]. eapply rows_to_tiles_shape; eauto.
Qed.

(** A tile that does not divide the data is refused by the kernels too. *)
Lemma tiles_to_rows_refused (t : tensor Q) tile e :
  numel t <> 0 -> check_tile_compatibility (shape t) tile = Err e -> tiles_to_rows t (Tile tile) = Err e.
Proof.
  intros Hn H. unfold tiles_to_rows. destruct (numel t =? 0) eqn:E; [apply Nat.eqb_eq in E; contradiction|].
  cbn [resolve_tile]. rewrite H. reflexivity.
Qed.

Lemma quantize_affine_refused x scale offset tile b out e :
  numel (d_val x) <> 0 -> check_tile_compatibility (shape (d_val x)) tile = Err e ->
  quantize_affine x scale offset (Tile tile) b out = Err e.
Proof.
  intros Hn H. unfold quantize_affine, quantize_by_tile. cbn [resolve_tile].
  rewrite (tiles_to_rows_refused _ _ _ Hn H). reflexivity.
Qed.

Lemma dynamic_affine_refused x tile b sym one out e :
  numel (d_val x) <> 0 -> check_tile_compatibility (shape (d_val x)) tile = Err e ->
  quantize_dynamic_affine x (Tile tile) b sym one out = Err e.
Proof.
  intros Hn H. unfold quantize_dynamic_affine. cbn [resolve_tile].
  rewrite (tiles_to_rows_refused _ _ _ Hn H). reflexivity.
Qed.

Lemma same_refl a : same_outcome a a.
Proof. destruct a as [[c p|x]|e]; cbn; auto. Qed.

(** ** Static entry points *)

Lemma st_by_tile_same export x scale offset g t b out :
  numel (d_val x) <> 0 -> tile_size g (shape (d_val x)) = Ok (Tile t) ->
  same_outcome (st_by_tile export x scale offset t b out)
               (quantize export x (Static (mkS scale offset b g out None))).
Proof.
  intros Hn Hg. unfold st_by_tile, quantize, export_quantize, static_quantize.
  cbn [s_gran s_scale s_offset s_bits s_qdtype s_ddtype]. rewrite Hg. cbn [rbind].
  assert (Ht : tile_size (PerTile t) (shape (d_val x)) =
               let? _ := check_tile_compatibility (shape (d_val x)) t in Ok (Tile t)) by reflexivity.
  rewrite Ht. destruct (check_tile_compatibility (shape (d_val x)) t) as [[]|e] eqn:Ec; cbn [rbind].
  - destruct (quantize_affine x scale offset (Tile t) b (or_dtype out (d_dtype x))) as [c|e] eqn:Eq; cbn [rbind].
    2: destruct export; reflexivity.
    destruct export.
    + destruct (dequantize_affine c scale offset (Tile t) (Some (or_dtype out (d_dtype x)))); reflexivity.
    + cbn [same_outcome]. split; [reflexivity|]. apply quantize_affine_shape in Eq as [Es _].
      unfold dequantize. cbn [s_gran s_scale s_offset s_ddtype]. rewrite Es, Ht, Hg. reflexivity.
  - rewrite (quantize_affine_refused _ _ _ _ _ _ _ Hn Ec). cbn [rbind]. destruct export; reflexivity.
Qed.

Lemma st_granularity_same export x scale offset g b out :
  numel (d_val x) <> 0 ->
  same_outcome (st_per_granularity export x scale offset g b out)
               (quantize export x (static_context scale offset (Some g) b out None)).
Proof.
  intros Hn. unfold static_context. destruct g as [|dims|dims sizes pc strict|t].
  - apply same_refl.
  - apply same_refl.
  - unfold st_per_granularity.
    destruct (tile_size (PerBlock dims sizes pc strict) (shape (d_val x))) as [[|t]|e] eqn:E; cbn [rbind].
    + exfalso. revert E. clear. cbn. destruct (negb _); [discriminate|].
      destruct (set_dims_1 _ _); cbn; [|discriminate]. destruct (set_blocks _ _ _ _ _); discriminate.
    + now apply st_by_tile_same.
    + unfold quantize, export_quantize, static_quantize. cbn [s_gran]. rewrite E. destruct export; reflexivity.
  - unfold st_per_granularity.
    destruct (tile_size (PerTile t) (shape (d_val x))) as [[|t']|e] eqn:E; cbn [rbind].
    + exfalso. revert E. clear. cbn. destruct (check_tile_compatibility _ _); discriminate.
    + now apply st_by_tile_same.
    + unfold quantize, export_quantize, static_quantize. cbn [s_gran]. rewrite E. destruct export; reflexivity.
Qed.

(** ** Dynamic entry points *)

Lemma dy_by_tile_same export x g t b sym one out :
  numel (d_val x) <> 0 -> tile_size g (shape (d_val x)) = Ok (Tile t) ->
  same_outcome (dy_by_tile export x t b sym one out)
               (quantize export x (Dynamic (mkY b g sym one out None None))).
Proof.
  intros Hn Hg. unfold dy_by_tile, quantize, export_quantize, dynamic_quantize.
  cbn [y_infer y_gran y_bits y_symmetric y_one_sided y_qdtype]. destruct export; [reflexivity|].
  assert (Ht : tile_size (PerTile t) (shape (d_val x)) =
               let? _ := check_tile_compatibility (shape (d_val x)) t in Ok (Tile t)) by reflexivity.
  rewrite Hg, Ht. destruct (check_tile_compatibility (shape (d_val x)) t) as [[]|e] eqn:Ec; cbn [rbind].
  - destruct (quantize_dynamic_affine x (Tile t) b sym one (or_dtype out (d_dtype x))) as [[[c s] o]|e] eqn:Eq;
      cbn [rbind]; [|reflexivity].
    cbn [same_outcome]. split; [reflexivity|]. apply quantize_dynamic_shape in Eq as [Es _].
    unfold dequantize, static_from_dynamic. cbn [s_gran s_scale s_offset s_ddtype y_gran y_ddtype].
    rewrite Es, Ht, Hg. reflexivity.
  - rewrite (dynamic_affine_refused _ _ _ _ _ _ _ Hn Ec). reflexivity.
Qed.

Lemma dy_granularity_same x g b sym one out :
  numel (d_val x) <> 0 ->
  same_outcome (dy_per_granularity false x g b sym one out)
               (quantize false x (dynamic_context g b sym one out None)).
Proof.
  intros Hn. unfold dynamic_context. destruct g as [|dims|dims sizes pc strict|t].
  - apply same_refl.
  - apply same_refl.
  - unfold dy_per_granularity.
    destruct (tile_size (PerBlock dims sizes pc strict) (shape (d_val x))) as [[|t]|e] eqn:E; cbn [rbind].
    + exfalso. revert E. clear. cbn. destruct (negb _); [discriminate|].
      destruct (set_dims_1 _ _); cbn; [|discriminate]. destruct (set_blocks _ _ _ _ _); discriminate.
    + now apply dy_by_tile_same.
    + unfold quantize, dynamic_quantize. cbn [y_infer y_gran]. rewrite E. reflexivity.
  - unfold dy_per_granularity.
    destruct (tile_size (PerTile t) (shape (d_val x))) as [[|t']|e] eqn:E; cbn [rbind].
    + exfalso. revert E. clear. cbn. destruct (check_tile_compatibility _ _); discriminate.
    + now apply dy_by_tile_same.
    + unfold quantize, dynamic_quantize. cbn [y_infer y_gran]. rewrite E. reflexivity.
Qed.

(** ** Blocks *)

Lemma py_set_index l d v l' : py_set l d v = Ok l' -> exists k, py_index (length l) d = Ok k /\ l' = set_nth l k v.
Proof. unfold py_set. destruct (py_index (length l) d) as [k|]; cbn; [|discriminate]. intros [= <-]. eauto. Qed.

Lemma py_index_get l d k : py_index (length l) d = Ok k -> exists v, py_get l d = Ok v /\ nth_error l k = Some v.
Proof.
  intros H. unfold py_get. rewrite H. cbn [rbind]. pose proof (py_index_bound _ _ _ H) as Hb.
  destruct (nth_error_lt_some l k Hb) as [v Hv]. rewrite Hv. eauto.
Qed.

Lemma set_nth_nth_error l k v : k < length l -> nth_error (set_nth l k v) k = Some v.
Proof. revert k. induction l as [|a l IH]; intros [|k] H; cbn in *; try lia; [reflexivity|]. apply IH. lia. Qed.

Lemma forallb_combine_nth (f : nat * nat -> bool) l l' k a c :
  forallb f (combine l l') = true -> nth_error l k = Some a -> nth_error l' k = Some c -> f (a, c) = true.
Proof.
  intros H Ha Hc. rewrite forallb_forall in H. apply H. eapply nth_error_In. eapply nth_error_combine; eauto.
Qed.

(** A compatible block tile is the tile of the block granularity. *)
Lemma block_tile_granularity s ch ax n t :
  Forall (fun d => 0 < d) s -> 0 < n -> block_tile s ch ax n = Ok t ->
  check_tile_compatibility s t = Ok tt -> tile_size (PerBlock [ax] [n] [ch] true) s = Ok (Tile t).
Proof.
  intros Hpos Hn Hb Hc. unfold block_tile in Hb. destruct (py_set s ch 1) as [t1|] eqn:E1; cbn [rbind] in Hb; [|discriminate].
  cbn [tile_size set_dims_1 set_blocks length Nat.eqb negb]. rewrite E1. cbn [rbind].
  apply py_set_index in E1 as (k1 & K1 & ->). pose proof (py_set_index _ _ _ _ Hb) as (k & K & ->).
  rewrite set_nth_length in K. destruct (py_index_get s ax k K) as (d & Gd & Nd).
  rewrite Gd. cbn [rbind].
  pose proof (py_index_bound _ _ _ K) as Kb.
  unfold check_tile_compatibility in Hc. rewrite !set_nth_length, Nat.eqb_refl in Hc. cbn [negb] in Hc.
  destruct (forallb _ _) eqn:F in Hc; [|discriminate].
  pose proof (forallb_combine_nth _ _ _ k _ _ F Nd (set_nth_nth_error (set_nth s k1 1) k n ltac:(rewrite set_nth_length; exact Kb))) as G.
  cbn beta iota in G. assert (Hd : d mod n = 0).
  { destruct (d mod n =? 0) eqn:E; [now apply Nat.eqb_eq in E|]. exfalso.
    assert (E0 : 0 <? n = true) by (apply Nat.ltb_lt; lia). rewrite E0 in G. discriminate. }
  assert (0 < d). { rewrite Forall_forall in Hpos. apply Hpos. eapply nth_error_In; eauto. }
  assert (Hle : d <? n = false).
  { apply Nat.ltb_ge. destruct (Nat.le_gt_cases n d); [assumption|]. rewrite Nat.mod_small in Hd by lia. lia. }
  rewrite Hle. assert (E0 : n =? 0 = false) by (apply Nat.eqb_neq; lia). rewrite E0. cbn [andb].
  rewrite Hd. cbn [Nat.eqb negb andb]. rewrite Hb. reflexivity.
Qed.

Lemma granularity_block_tile s ch ax n t :
  tile_size (PerBlock [ax] [n] [ch] true) s = Ok (Tile t) -> block_tile s ch ax n = Ok t.
Proof.
  cbn [tile_size set_dims_1 set_blocks length Nat.eqb negb]. unfold block_tile.
  destruct (py_set s ch 1) as [t1|]; cbn [rbind]; [|discriminate].
  destruct (py_get s ax) as [d|]; cbn [rbind]; [|discriminate].
  destruct (d <? n); [discriminate|]. destruct (true && (n =? 0)); [discriminate|].
  destruct (true && negb (d mod n =? 0)); [discriminate|].
  destruct (py_set t1 ax n) as [t2|]; cbn [rbind rmap]; [|discriminate]. now intros [= ->].
Qed.

Lemma by_tile_ok_compatible export x scale offset t b out r :
  st_by_tile export x scale offset t b out = Ok r -> check_tile_compatibility (shape (d_val x)) t = Ok tt.
Proof.
  unfold st_by_tile, quantize, export_quantize, static_quantize. cbn [s_gran tile_size].
  destruct (check_tile_compatibility (shape (d_val x)) t) as [[]|e]; [reflexivity|]. cbn. destruct export; discriminate.
Qed.

Lemma dy_tile_ok_compatible x t b sym one out r :
  dy_by_tile false x t b sym one out = Ok r -> check_tile_compatibility (shape (d_val x)) t = Ok tt.
Proof.
  unfold dy_by_tile, quantize, dynamic_quantize. cbn [y_gran y_infer tile_size].
  destruct (check_tile_compatibility (shape (d_val x)) t) as [[]|e]; [reflexivity|]. discriminate.
Qed.

Lemma st_block_same export x scale offset ch ax n b out r :
  Forall (fun d => 0 < d) (shape (d_val x)) -> 0 < n ->
  st_per_block export x scale offset ch ax n b out = Ok r <->
  st_per_granularity export x scale offset (PerBlock [ax] [n] [ch] true) b out = Ok r.
Proof.
  intros Hpos Hn. unfold st_per_block, st_per_granularity. split.
  - intros H. destruct (block_tile _ ch ax n) as [t|] eqn:Et; cbn [rbind] in H; [|discriminate].
    rewrite (block_tile_granularity _ _ _ _ _ Hpos Hn Et (by_tile_ok_compatible _ _ _ _ _ _ _ _ H)). exact H.
  - intros H. destruct (tile_size _ _) as [[|t]|] eqn:Et; cbn [rbind] in H; try discriminate.
    rewrite (granularity_block_tile _ _ _ _ _ Et). exact H.
Qed.

Lemma dy_block_same x ch ax n b sym one out r :
  Forall (fun d => 0 < d) (shape (d_val x)) -> 0 < n ->
  dy_per_block false x ch ax n b sym one out = Ok r <->
  dy_per_granularity false x (PerBlock [ax] [n] [ch] true) b sym one out = Ok r.
Proof.
  intros Hpos Hn. unfold dy_per_block, dy_per_granularity. split.
  - intros H. destruct (block_tile _ ch ax n) as [t|] eqn:Et; cbn [rbind] in H; [|discriminate].
    rewrite (block_tile_granularity _ _ _ _ _ Hpos Hn Et (dy_tile_ok_compatible _ _ _ _ _ _ _ H)). exact H.
  - intros H. destruct (tile_size _ _) as [[|t]|] eqn:Et; cbn [rbind] in H; try discriminate.
    rewrite (granularity_block_tile _ _ _ _ _ Et). exact H.
Qed.

(** ** Dynamic quantization is static quantization with the reported parameters *)

Lemma round_offsets os (scale : list Q) : infer_offsets (Some (map QofZ os)) scale = os.
Proof. cbn. rewrite map_map. rewrite <- (map_id os) at 2. apply map_ext. intros z. apply round_QofZ. Qed.

Lemma dynamic_static_affine x ta b sym one out c s o :
  quantize_dynamic_affine x ta b sym one out = Ok (c, s, o) ->
  quantize_affine x (Ten s) (Some (Ten o)) ta b out = Ok c.
Proof.
  unfold quantize_dynamic_affine, quantize_affine, quantize_by_tile. cbn [as_tensor option_map]. intros H.
  apply rbind_ok in H as (r & Hr & H). apply rbind_ok in H as (rg & _ & H). apply rbind_ok in H as ([sc of] & _ & H).
  apply rbind_ok in H as (d & Hd & H). apply rbind_ok in H as (u & Hu & H).
  apply rbind_ok in H as (res & Hs & H). destruct (can_support_bitwidth _ _) eqn:E; [|discriminate].
  injection H as <- <- <-. rewrite round_offsets, Hr. cbn [rbind]. rewrite Hd. cbn [rbind]. rewrite Hu. cbn [rbind].
  rewrite Hs. cbn [rbind]. reflexivity.
Qed.

Lemma static_quantize_again x p c p' :
  static_quantize x p = Ok (Quantized c p') -> quantize false x p' = Ok (Quantized c p').
Proof.
  unfold static_quantize. intros H. apply rbind_ok in H as (ta & Ht & H). apply rbind_ok in H as (c' & Hc & H).
  injection H as <- <-. unfold quantize, static_quantize. cbn [s_gran s_scale s_offset s_bits s_qdtype s_ddtype or_dtype].
  rewrite Ht. cbn [rbind]. rewrite Hc. reflexivity.
Qed.

Lemma quantize_again x p c p' :
  quantize false x p = Ok (Quantized c p') -> quantize false x p' = Ok (Quantized c p').
Proof.
  destruct p as [p|p]; cbn [quantize]; [apply static_quantize_again|].
  unfold dynamic_quantize. destruct (y_infer p) as [infer|].
  - intros H. apply rbind_ok in H as ([s o] & _ & H). eapply static_quantize_again; eauto.
  - intros H. apply rbind_ok in H as (ta & Ht & H). apply rbind_ok in H as ([[c' s] o] & Hc & H).
    injection H as <- <-. unfold quantize, static_quantize, static_from_dynamic.
    cbn [s_gran s_scale s_offset s_bits s_qdtype s_ddtype or_dtype option_map].
    rewrite Ht. cbn [rbind]. rewrite (dynamic_static_affine _ _ _ _ _ _ _ _ _ Hc). reflexivity.
Qed.

Lemma quantize_static_params x p c p' :
  quantize false x p = Ok (Quantized c p') -> exists q, p' = Static q.
Proof.
  destruct p as [p|p]; cbn [quantize].
  - unfold static_quantize. intros H. apply rbind_ok in H as (ta & _ & H). apply rbind_ok in H as (c' & _ & H).
    injection H as <- <-. eauto.
  - unfold dynamic_quantize. destruct (y_infer p) as [infer|].
    + intros H. apply rbind_ok in H as ([s o] & _ & H). unfold static_quantize in H.
      apply rbind_ok in H as (ta & _ & H). apply rbind_ok in H as (c' & _ & H). injection H as <- <-. eauto.
    + intros H. apply rbind_ok in H as (ta & _ & H). apply rbind_ok in H as ([[c' s] o] & _ & H).
      injection H as <- <-. eauto.
Qed.

(** The parameters of the result: those asked for, and those inferred. *)
Lemma inferred_params x p infer s o c p' :
  y_infer p = Some infer -> infer x = Ok (s, o) ->
  quantize false x (Dynamic p) = Ok (Quantized c p') ->
  quantize false x (Static (mkS (Ten s) (option_map Ten o) (y_bits p) (y_gran p) (y_qdtype p) (y_ddtype p)))
  = Ok (Quantized c p').
Proof.
  intros Hi Hs H. cbn [quantize] in *. unfold dynamic_quantize in H. rewrite Hi, Hs in H. cbn [rbind] in H.
  unfold static_quantize, static_from_dynamic in *. cbn [s_gran s_scale s_offset s_bits s_qdtype s_ddtype or_dtype] in *.
  exact H.
Qed.

(** ** Export mode *)

Lemma export_eager x scale offset b g :
  forall c p v, quantize false x (Static (mkS scale offset b g None None)) = Ok (Quantized c p) ->
    dequantize c p = Ok v ->
    quantize true x (Static (mkS scale offset b g None None)) = Ok (Plain v).
Proof.
  intros c p v H Hv. cbn [quantize] in *. unfold static_quantize in H. unfold export_quantize.
  cbn [s_gran s_scale s_offset s_bits s_qdtype s_ddtype or_dtype] in *.
  apply rbind_ok in H as (ta & Ht & H). apply rbind_ok in H as (c' & Hc & H). injection H as <- <-.
  rewrite Ht. cbn [rbind]. rewrite Hc. cbn [rbind].
  unfold dequantize in Hv. cbn [s_gran s_scale s_offset s_ddtype] in Hv.
  rewrite (proj1 (quantize_affine_shape _ _ _ _ _ _ _ Hc)), Ht in Hv. cbn [rbind] in Hv. rewrite Hv. reflexivity.
Qed.

Lemma export_eager_back x scale offset b g v :
  quantize true x (Static (mkS scale offset b g None None)) = Ok (Plain v) ->
  exists c p, quantize false x (Static (mkS scale offset b g None None)) = Ok (Quantized c p) /\
    dequantize c p = Ok v.
Proof.
  intros H. cbn [quantize] in *. unfold export_quantize in H. unfold static_quantize.
  cbn [s_gran s_scale s_offset s_bits s_qdtype s_ddtype or_dtype] in *.
  apply rbind_ok in H as (ta & Ht & H). apply rbind_ok in H as (c & Hc & H). apply rbind_ok in H as (v' & Hv & H).
  injection H as <-. rewrite Ht. cbn [rbind]. rewrite Hc. cbn [rbind]. eexists _, _. split; [reflexivity|].
  unfold dequantize. cbn [s_gran s_scale s_offset s_ddtype].
  rewrite (proj1 (quantize_affine_shape _ _ _ _ _ _ _ Hc)), Ht. exact Hv.
Qed.

(** With floating point dtypes the values agree, whatever the dtypes are. *)
Lemma dequantize_affine_float c scale offset ta m m' v :
  dequantize_affine c scale offset ta (Some (FloatT m)) = Ok v ->
  exists v', dequantize_affine c scale offset ta (Some (FloatT m')) = Ok v' /\ d_val v' = d_val v.
Proof.
  unfold dequantize_affine. intros H. apply rbind_ok in H as (t & Ht & H). injection H as <-.
  change (option_map (as_tensor (FloatT m')) offset) with (option_map (as_tensor (FloatT m)) offset).
  change (as_tensor (FloatT m') scale) with (as_tensor (FloatT m) scale).
  rewrite Ht. cbn [rbind]. eexists. split; reflexivity.
Qed.

Lemma export_eager_float x scale offset b g q d c p v :
  float_dtype (d_dtype x) -> (forall f, q = Some f -> float_dtype f) -> (forall f, d = Some f -> float_dtype f) ->
  quantize false x (Static (mkS scale offset b g q d)) = Ok (Quantized c p) -> dequantize c p = Ok v ->
  exists v', quantize true x (Static (mkS scale offset b g q d)) = Ok (Plain v') /\ d_val v' = d_val v.
Proof.
  intros [m Hx] Hq Hd H Hv. cbn [quantize] in *. unfold static_quantize in H. unfold export_quantize.
  cbn [s_gran s_scale s_offset s_bits s_qdtype s_ddtype] in *.
  apply rbind_ok in H as (ta & Ht & H). apply rbind_ok in H as (c' & Hc & H). injection H as <- <-.
  rewrite Ht. cbn [rbind]. rewrite Hc. cbn [rbind].
  unfold dequantize in Hv. cbn [s_gran s_scale s_offset s_ddtype] in Hv.
  rewrite (proj1 (quantize_affine_shape _ _ _ _ _ _ _ Hc)), Ht in Hv. cbn [rbind] in Hv.
  assert (exists m1, or_dtype q (d_dtype x) = FloatT m1) as [m1 E1].
  { destruct q as [f|]; cbn; [destruct (Hq f eq_refl) as [m1 ->]; eauto|eauto]. }
  assert (exists m2, or_dtype d (d_dtype x) = FloatT m2) as [m2 E2].
  { destruct d as [f|]; cbn; [destruct (Hd f eq_refl) as [m2 ->]; eauto|eauto]. }
  rewrite E2 in Hv. rewrite E1.
  destruct (dequantize_affine_float _ _ _ _ m2 m1 _ Hv) as (v' & Ev & Ed). rewrite Ev. cbn [rbind]. eauto.
Qed.

Lemma attach_export c p v : dequantize c p = Ok v -> attach true c p = Ok (Plain v).
Proof. intros H. unfold attach. rewrite H. reflexivity. Qed.
