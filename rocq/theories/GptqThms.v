(** GPTQ: C37, C38, C83 and C84. *)
From Verif Require Import Prelude TilingModel TilingSpec GranularityModel GranularitySpec AffineModel AffineSpec FuseModel FuseSpec
  GptqModel GptqSpec GptqHessianProofs GptqColumnProofs GptqTopProofs GptqFixProofs GptqGroupProofs GptqTotalProofs GptqWitness.
From Coq Require Import QArith Permutation.
Local Open Scope nat_scope.

(** ** C37 *)

(** For every dataset of usable entries whose first entry has a sample, the result is
    2/N times the sum of x x^T over all samples, if no tensor that is scaled in place
    occurs twice.  Only such tensors change, and they change by a factor. *)
Theorem C37_hessian_partial :
  forall l n s ds xss,
    Forall2 (entry l n s) ds xss -> (forall xs, hd_error xss = Some xs -> xs <> []) -> no_reuse l s ds ->
    exists h s', calculate_hessian l n s ds = Ok (h, s') /\ is_hessian n (concat xss) h /\
      forall id, act_data (s' id) = act_data (s id) /\
        (s' id <> s id -> l = Linear /\ act_aliases (s id) = true /\ In [id] ds).
Proof. exact hessian_value. Qed.
Print Assumptions C37_hessian_partial.

(** Splits and orders of the same samples give the same Hessian. *)
Theorem C37_order_independent_partial :
  forall l n s ds xss ds' xss' h h' s1 s1',
    Forall2 (entry l n s) ds xss -> (forall xs, hd_error xss = Some xs -> xs <> []) -> no_reuse l s ds ->
    Forall2 (entry l n s) ds' xss' -> (forall xs, hd_error xss' = Some xs -> xs <> []) -> no_reuse l s ds' ->
    Permutation (concat xss) (concat xss') ->
    calculate_hessian l n s ds = Ok (h, s1) -> calculate_hessian l n s ds' = Ok (h', s1') ->
    forall i j, i < n -> j < n -> (h i j == h' i j)%Q.
Proof. exact hessian_order. Qed.
Print Assumptions C37_order_independent_partial.

(** Entries of the wrong form are refused wherever they occur: several arguments, a
    tensor without three dimensions, the wrong number of features (also a grouped
    convolution). *)
Theorem C37_bad_entries_rejected :
  forall l n s ds args, In args ds -> bad_entry l n s args -> forall r, calculate_hessian l n s ds <> Ok r.
Proof. intros l n s ds args H B r E. destruct (bad_rejected l n s ds args H B) as [x X]. congruence. Qed.
Print Assumptions C37_bad_entries_rejected.

Theorem C37_empty_first_entry_rejected :
  forall l n s args ds, entry l n s args [] -> calculate_hessian l n s (args :: ds) = Err ZeroDivisionError.
Proof. exact empty_rejected. Qed.
Print Assumptions C37_empty_first_entry_rejected.

(** The caller's tensor is multiplied by sqrt(2 / N). *)
Theorem C37_calibration_tensor_is_scaled :
  forall n s id b q h s',
    shape (act_data (s id)) = [b; q; n] -> b * q <> 0 -> act_aliases (s id) = true ->
    calculate_hessian Linear n s [[id]] = Ok (h, s') ->
    (act_sq (s' id) == act_sq (s id) * (2 / inject_Z (Z.of_nat (b * q))))%Q.
Proof. exact scaled_first. Qed.
Print Assumptions C37_calibration_tensor_is_scaled.

(** The calibration tensors are scaled in place, so a second layer that gets the same
    dataset gets another Hessian: 4 where the first layer got 2. *)
Theorem C37_dataset_for_two_layers_refuted :
  exists s ds h s1 h' s2, calculate_hessian Linear 1 s ds = Ok (h, s1) /\
    calculate_hessian Linear 1 s1 ds = Ok (h', s2) /\ ~ (h 0%nat 0%nat == h' 0%nat 0%nat)%Q.
Proof.
  destruct second_layer_differs as (h & s1 & h' & s2 & A & B & C & D). exists one_sample, [[0]], h, s1, h', s2.
  split; [exact A|]. split; [exact B|]. rewrite C, D. discriminate.
Qed.
Print Assumptions C37_dataset_for_two_layers_refuted.

(** A tensor that occurs twice in a dataset is scaled twice: the Hessian is 3 where
    2/N times the sum of x x^T is 2. *)
Theorem C37_repeated_tensor_refuted :
  exists s ds xss h s1, Forall2 (entry Linear 1 s) ds xss /\ (forall xs, hd_error xss = Some xs -> xs <> []) /\
    calculate_hessian Linear 1 s ds = Ok (h, s1) /\ ~ is_hessian 1 (concat xss) h.
Proof.
  destruct reuse_differs as (h & s1 & A & B & _ & _).
  exists one_sample, [[0]; [0]], [[fun i => nth i [1%Q] 0%Q]; [fun i => nth i [1%Q] 0%Q]], h, s1. split; [|split; [|split; [exact A|]]].
  - constructor; [|constructor; [|constructor]]; (exists 0; split; [reflexivity|]; split; [exists 1, 1; split; reflexivity|reflexivity]).
  - intros xs H. injection H as <-. discriminate.
  - intros H. destruct (H 0 0 ltac:(lia) ltac:(lia)) as [_ K]. rewrite B in K.
    assert (N : ~ (0 = 0 /\ (moment (concat [[fun i => nth i [1%Q] 0%Q]; [fun i => nth i [1%Q] 0%Q]]) 0%nat 0%nat == 0)%Q)).
    { intros [_ X]. vm_compute in X. discriminate. }
    specialize (K N). vm_compute in K. discriminate.
Qed.
Print Assumptions C37_repeated_tensor_refuted.

Example C37_nonvacuous :
  (exists xss, Forall2 (entry Linear 2 two_tensors) [[0]; [1]; [1]] xss /\ (forall xs, hd_error xss = Some xs -> xs <> []) /\
     no_reuse Linear two_tensors [[0]; [1]; [1]]) /\
  bad_entry Linear 2 two_tensors [0; 1] /\ act_aliases (two_tensors 0) = true.
Proof. split; [exact two_tensors_entries|]. split; [left; discriminate|reflexivity]. Qed.

(** ** C38 *)

(** The written weight is a fixed point of the resulting quantizer on the weight's own
    shape, for every layer, weight, granularity, Hessian factor, damping, column order and
    positive block size.  [estimate], [argsort] and [cholesky] are arbitrary.  [precise]:
    the weight's floating point format represents the codes. *)
Theorem C38_fixed_point_partial :
  forall estimate argsort cholesky,
    (forall l, Permutation (argsort l) (seq 0 (length l))) ->
    forall l fmt weight q0 s ds damp actorder rows cols tile,
    flat_shape l (shape weight) = Ok (rows, cols) ->
    (forall q, estimate q0 (mkT [rows; cols] (data weight)) = Ok q -> q_gran q = q_gran q0 /\ fits_matrix rows cols tile q) ->
    forall block_size w' q' s' ta,
    (0 < block_size)%Z ->
    gptq estimate argsort cholesky l fmt weight (Some q0) s ds block_size damp actorder = Ok (w', q', s') ->
    tile_size (q_gran q') (shape weight) = Ok ta ->
    let a := mkAffine (q_scale q') (q_offset q') ta (q_bits q') (q_out q') in
    precise fmt a -> affine_qdq fmt a w' = Ok w'.
Proof. exact gptq_fixed. Qed.
Print Assumptions C38_fixed_point_partial.

(** Every element is the (rounded) dequantized value of a code of its own tile. *)
Theorem C38_on_grid :
  forall estimate argsort cholesky,
    (forall l, Permutation (argsort l) (seq 0 (length l))) ->
    forall l fmt weight q0 s ds block_size damp actorder rows cols tile,
    flat_shape l (shape weight) = Ok (rows, cols) ->
    (forall q, estimate q0 (mkT [rows; cols] (data weight)) = Ok q -> fits_matrix rows cols tile q) ->
    (0 < block_size)%Z ->
    forall w' q' s',
    gptq estimate argsort cholesky l fmt weight (Some q0) s ds block_size damp actorder = Ok (w', q', s') ->
    forall r c, r < rows -> c < cols -> exists sc z, scale_of rows cols tile q' r c = Some sc /\ ~ (sc == 0)%Q /\
      code (q_bits q') z /\
      nth_error (data w') (r * cols + c) = Some (cast fmt (dequantize_elem sc (offset_of rows cols tile q' r c) z)).
Proof. exact gptq_on_grid. Qed.
Print Assumptions C38_on_grid.

(** The weight is the result of the GPTQ recurrence: column after column in the chosen
    order, each corrected by the errors of all columns before it, then snapped. *)
Theorem C38_recurrence :
  forall estimate argsort cholesky,
    (forall l, Permutation (argsort l) (seq 0 (length l))) ->
    forall l fmt weight q0 s ds block_size damp actorder rows cols tile,
    flat_shape l (shape weight) = Ok (rows, cols) ->
    (forall q, estimate q0 (mkT [rows; cols] (data weight)) = Ok q -> fits_matrix rows cols tile q) ->
    (0 < block_size)%Z ->
    forall w' q' s',
    gptq estimate argsort cholesky l fmt weight (Some q0) s ds block_size damp actorder = Ok (w', q', s') ->
    exists q h order m hinv y e,
      estimate q0 (mkT [rows; cols] (data weight)) = Ok q /\ settings q q' /\
      calculate_hessian l cols s ds = Ok (h, s') /\ Permutation order (seq 0 cols) /\ (actorder = false -> order = seq 0 cols) /\
      damped cols damp h (fun p => nth p order 0) m /\ cholesky cols m = Ok hinv /\
      fits_matrix rows cols tile q' /\ can_support_bitwidth (q_out q') (q_bits q') = true /\
      recurrence rows cols tile q' (fun r c => nth (r * cols + c) (data weight) 0%Q) (fun p => nth p order 0) hinv y e /\
      shape w' = shape weight /\ length (data w') = rows * cols /\
      (forall r p, r < rows -> p < cols -> nth_error (data w') (r * cols + nth p order 0) = Some (cast fmt (y r p))).
Proof.
  intros e0 a0 c0 A l fmt w q0 s ds bs dm ao rows cols tile Hs He Hb w' q' s' H.
  destruct (gptq_recurrence e0 a0 c0 A l fmt w q0 s ds bs dm ao rows cols tile Hs He Hb w' q' s' H)
    as (q & h & order & hinv & y & e & K1 & K2 & K3 & K4 & K5 & K6 & K).
  exists q, h, order, (dampen cols dm (fun i j => h (nth i order 0) (nth j order 0))), hinv, y, e.
  split; [exact K1|]. split; [exact K2|]. split; [exact K3|]. split; [exact K4|]. split; [exact K5|].
  split; [apply (dampen_damped cols dm h (fun p => nth p order 0))|]. split; [exact K6|exact K].
Qed.
Print Assumptions C38_recurrence.

(** The recurrence determines its values. *)
Theorem C38_recurrence_unique :
  forall rows cols tile q w order hinv y e y' e',
    (forall p, p < cols -> ~ (hinv p p == 0)%Q) ->
    recurrence rows cols tile q w order hinv y e -> recurrence rows cols tile q w order hinv y' e' ->
    forall r p, r < rows -> p < cols -> y r p = y' r p /\ (e r p == e' r p)%Q.
Proof. intros until 1; intros A B; exact (recurrence_unique _ _ _ _ _ _ _ _ _ _ _ A B H). Qed.
Print Assumptions C38_recurrence_unique.

(** GPTQ succeeds for nonzero scales and a nonzero diagonal, unless symmetric scales of
    groups are recomputed. *)
Theorem C38_total :
  forall estimate argsort cholesky,
    (forall l, Permutation (argsort l) (seq 0 (length l))) ->
    forall l fmt weight q0 s ds block_size damp actorder rows cols tile,
    flat_shape l (shape weight) = Ok (rows, cols) -> (0 < block_size)%Z ->
    forall q h s',
    check_granularity l (q_gran q0) = Ok tt ->
    estimate q0 (mkT [rows; cols] (data weight)) = Ok q -> q_gran q = q_gran q0 -> fits_matrix rows cols tile q ->
    (forall r c sc, r < rows -> c < cols -> scale_of rows cols tile q r c = Some sc -> ~ (sc == 0)%Q) ->
    can_support_bitwidth (q_out q) (q_bits q) = true ->
    (q_symmetric q = false \/ actorder = true \/
     (forall a b c d, q_gran q0 <> PerBlock a b c d) /\ (forall t, q_gran q0 <> PerTile t) \/ nth 1 tile 0 = cols) ->
    calculate_hessian l cols s ds = Ok (h, s') ->
    (forall m, exists hinv, cholesky cols m = Ok hinv /\ forall p, p < cols -> ~ (hinv p p == 0)%Q) ->
    exists w' q', gptq estimate argsort cholesky l fmt weight (Some q0) s ds block_size damp actorder = Ok (w', q', s').
Proof. exact gptq_total. Qed.
Print Assumptions C38_total.

(** Refusals: no linear quantizer, a convolution with another granularity than per tensor
    or per output channel, blocks that need not fit, block size zero. *)
Theorem C38_rejections :
  forall estimate argsort cholesky fmt weight s ds damp actorder,
    (forall l bs, gptq estimate argsort cholesky l fmt weight None s ds bs damp actorder = Err ValueError) /\
    (forall u q bs, q_gran q <> PerTensor -> q_gran q <> PerChannel [0%Z] ->
       gptq estimate argsort cholesky (Conv2d u) fmt weight (Some q) s ds bs damp actorder = Err NotImplementedError) /\
    (forall q a b c bs, q_gran q = PerBlock a b c false ->
       gptq estimate argsort cholesky Linear fmt weight (Some q) s ds bs damp actorder = Err ValueError) /\
    (forall l q r, gptq estimate argsort cholesky l fmt weight (Some q) s ds 0 damp actorder <> Ok r).
Proof.
  intros. split; [intros; apply reject_quantizer|]. split; [intros; now apply reject_conv|].
  split; [intros; eapply reject_loose; eassumption|intros; apply reject_zero_block].
Qed.
Print Assumptions C38_rejections.

(** Channel lists other than (0), (1) and (0, 1), such as (-1) or (1, 0), never work. *)
Theorem C38_other_channels_rejected :
  forall estimate argsort cholesky fmt weight s ds damp actorder q dims o i bs r,
    q_gran q = PerChannel dims -> dims <> [0%Z] -> dims <> [1%Z] -> dims <> [0%Z; 1%Z] ->
    (forall t q', estimate q t = Ok q' -> q_gran q' = q_gran q) ->
    shape weight = [o; i] -> 0 < i -> (0 < bs)%Z ->
    gptq estimate argsort cholesky Linear fmt weight (Some q) s ds bs damp actorder <> Ok r.
Proof. exact reject_channels. Qed.
Print Assumptions C38_other_channels_rejected.

(** A group of weights that are all zero gets the symmetric scale zero, and quantizing it
    divides zero by zero (nan in torch), for every block size. *)
Theorem C38_zero_group_refuted :
  forall bs, (0 < bs)%Z ->
    gptq group_estimate demo_sort demo_cholesky Linear Exact zero_weight (Some zero_quantizer) demo_act [[0]] bs 0 false
      = Err ZeroDivisionError.
Proof. exact dead_group. Qed.
Print Assumptions C38_zero_group_refuted.

Example C38_nonvacuous :
  (forall l, Permutation (demo_sort l) (seq 0 (length l))) /\
  flat_shape Linear (shape group_weight) = Ok (2, 2) /\ fits_matrix 2 2 [2; 1] group_quantizer /\
  run_data (group_run 1) = Ok ([1; 4 # 5; 0; 4 # 5]%Q, [1; 4 # 5]%Q) /\
  flat_shape (Conv2d conv_unfold) (shape conv_weight) = Ok (2, 2) /\ fits_matrix 2 2 [1; 2] conv_quantizer /\
  run_data (conv_run Exact 1) = Ok ([3 # 4; -3 # 2; 1 # 3; 2]%Q, [1 # 4; 1 # 3]%Q) /\
  exists ta, tile_size (q_gran conv_quantizer) (shape conv_weight) = Ok ta.
Proof.
  split; [exact demo_sort_perm|]. split; [reflexivity|]. split; [exact group_fits|]. split; [exact group_one|].
  split; [reflexivity|]. split; [exact conv_fits|]. split; [exact conv_result|]. eexists. reflexivity.
Qed.

(** ** C83 *)

(** Without recomputed group scales, all positive block sizes give the same result. *)
Theorem C83_block_size_partial :
  forall estimate argsort cholesky,
    (forall l, Permutation (argsort l) (seq 0 (length l))) ->
    forall l fmt weight q0 s ds damp actorder rows cols tile,
    flat_shape l (shape weight) = Ok (rows, cols) ->
    (forall q, estimate q0 (mkT [rows; cols] (data weight)) = Ok q -> q_gran q = q_gran q0 /\ fits_matrix rows cols tile q) ->
    forall bs bs' r,
    (actorder = true \/ (forall a b c d, q_gran q0 <> PerBlock a b c d) /\ (forall t, q_gran q0 <> PerTile t) \/ nth 1 tile 0 = cols) ->
    (0 < bs)%Z -> (0 < bs')%Z ->
    gptq estimate argsort cholesky l fmt weight (Some q0) s ds bs damp actorder = Ok r ->
    gptq estimate argsort cholesky l fmt weight (Some q0) s ds bs' damp actorder = Ok r.
Proof. exact block_size_irrelevant. Qed.
Print Assumptions C83_block_size_partial.

(** With one scale per group of columns the block size changes the weight: a group that
    starts inside a block gets its scale from weights without the corrections of this block. *)
Theorem C83_block_size_refuted :
  exists w1 q1 s1 w2 q2 s2, group_run 1 = Ok (w1, q1, s1) /\ group_run 2 = Ok (w2, q2, s2) /\
    ~ (nth 3 (data w1) 0 == nth 3 (data w2) 0)%Q.
Proof.
  destruct (group_run 1) as [[[w1 q1] s1]|] eqn:E; [|exfalso; revert E; vm_compute; discriminate].
  exists w1, q1, s1, (mkT [2; 2] [1; 0; 0; 1]%Q), group_quantizer, demo_act. split; [reflexivity|]. split; [exact stale_run|].
  revert E. vm_compute. intros E. injection E as <- _ _. vm_compute. discriminate.
Qed.
Print Assumptions C83_block_size_refuted.

(** A negative block size is accepted, no column is processed and the weight becomes zero. *)
Theorem C83_negative_block_size_refuted :
  forall estimate argsort cholesky fmt weight s ds damp actorder l q bs w' q' s', (bs < 0)%Z ->
    gptq estimate argsort cholesky l fmt weight (Some q) s ds bs damp actorder = Ok (w', q', s') ->
    forall x, In x (data w') -> (x == 0)%Q.
Proof. exact negative_block. Qed.
Print Assumptions C83_negative_block_size_refuted.

Example C83_nonvacuous :
  run_data (conv_run Exact 1) = Ok ([3 # 4; -3 # 2; 1 # 3; 2]%Q, [1 # 4; 1 # 3]%Q) /\
  run_data (conv_run Exact 2) = Ok ([3 # 4; -3 # 2; 1 # 3; 2]%Q, [1 # 4; 1 # 3]%Q) /\
  run_data (group_run (-1)) = Ok ([0; 0; 0; 0]%Q, [1; 1]%Q).
Proof. split; [exact conv_result|]. split; vm_compute; reflexivity. Qed.

(** ** C84 *)

(** With one scale per group of columns, the scale of a group comes from the range of the
    weights corrected by the errors of the columns before the block in which the group
    starts. *)
Theorem C84_group_scales_partial :
  forall estimate argsort cholesky,
    (forall l, Permutation (argsort l) (seq 0 (length l))) ->
    forall l fmt weight q0 s ds block_size damp actorder rows cols tile,
    flat_shape l (shape weight) = Ok (rows, cols) -> (0 < block_size)%Z ->
    forall q rb cb w' q' s',
    actorder = false -> estimate q0 (mkT [rows; cols] (data weight)) = Ok q -> q_gran q = q_gran q0 -> fits_matrix rows cols tile q ->
    (exists a b c d, q_gran q0 = PerBlock a b c d) \/ (exists t, q_gran q0 = PerTile t) ->
    tile = [rb; cb] -> 1 < cols / cb ->
    gptq estimate argsort cholesky l fmt weight (Some q0) s ds block_size damp actorder = Ok (w', q', s') ->
    exists h m hinv y e,
      calculate_hessian l cols s ds = Ok (h, s') /\
      damped cols damp h (fun p => p) m /\ cholesky cols m = Ok hinv /\
      recurrence rows cols tile q' (fun r c => nth (r * cols + c) (data weight) 0%Q) (fun p => p) hinv y e /\
      (forall r c, r < rows -> c < cols -> nth_error (data w') (r * cols + c) = Some (cast fmt (y r c))) /\
      forall g, g < cols / cb ->
        group_scaled rows cols rb cb q'
          (corrected (fun r c => nth (r * cols + c) (data weight) 0%Q) e hinv (g * cb / Z.to_nat block_size * Z.to_nat block_size)) g.
Proof.
  intros e0 a0 c0 A l fmt w q0 s ds bs dm ao rows cols tile Hs Hb q rb cb w' q' s' H1 H2 H3 H4 H5 H6 H7 H8.
  destruct (gptq_groups e0 a0 c0 l fmt w q0 s ds bs dm ao rows cols tile Hs Hb q rb cb w' q' s' H1 H2 H3 H4 H5 H6 H7 H8)
    as (h & hinv & y & e & K1 & K2 & K).
  eexists h, _, hinv, y, e. split; [exact K1|]. split; [|split; [exact K2|exact K]].
  intros i j Hi Hj. rewrite (dampen_damped cols dm h (fun p => nth p (seq 0 cols) 0) i j Hi Hj), !seq_nth by assumption.
  cbn [Nat.add]. erewrite map_ext_in; [reflexivity|]. intros k Hk. apply in_seq in Hk. cbn beta. rewrite !seq_nth by lia. reflexivity.
Qed.
Print Assumptions C84_group_scales_partial.

(** If the group width is a multiple of the block size, that is all columns before the group. *)
Theorem C84_aligned_groups_partial :
  forall estimate argsort cholesky,
    (forall l, Permutation (argsort l) (seq 0 (length l))) ->
    forall l fmt weight q0 s ds block_size damp actorder rows cols tile,
    flat_shape l (shape weight) = Ok (rows, cols) -> (0 < block_size)%Z ->
    forall q rb cb w' q' s',
    actorder = false -> estimate q0 (mkT [rows; cols] (data weight)) = Ok q -> q_gran q = q_gran q0 -> fits_matrix rows cols tile q ->
    (exists a b c d, q_gran q0 = PerBlock a b c d) \/ (exists t, q_gran q0 = PerTile t) ->
    tile = [rb; cb] -> 1 < cols / cb -> (exists m, cb = m * Z.to_nat block_size) ->
    gptq estimate argsort cholesky l fmt weight (Some q0) s ds block_size damp actorder = Ok (w', q', s') ->
    exists h m hinv y e,
      calculate_hessian l cols s ds = Ok (h, s') /\
      damped cols damp h (fun p => p) m /\ cholesky cols m = Ok hinv /\
      recurrence rows cols tile q' (fun r c => nth (r * cols + c) (data weight) 0%Q) (fun p => p) hinv y e /\
      forall g, g < cols / cb ->
        group_scaled rows cols rb cb q' (corrected (fun r c => nth (r * cols + c) (data weight) 0%Q) e hinv (g * cb)) g.
Proof.
  intros e0 a0 c0 A l fmt w q0 s ds bs dm ao rows cols tile Hs Hb q rb cb w' q' s' H1 H2 H3 H4 H5 H6 H7 [m M] H8.
  destruct (C84_group_scales_partial e0 a0 c0 A l fmt w q0 s ds bs dm ao rows cols tile Hs Hb q rb cb w' q' s' H1 H2 H3 H4 H5 H6 H7 H8)
    as (h & m' & hinv & y & e & K1 & Kd & K2 & K3 & _ & K4).
  exists h, m', hinv, y, e. split; [exact K1|]. split; [exact Kd|]. split; [exact K2|]. split; [exact K3|]. intros g Hg. specialize (K4 g Hg).
  replace (g * cb / Z.to_nat bs * Z.to_nat bs) with (g * cb) in K4; [exact K4|].
  rewrite M, Nat.mul_assoc, Nat.div_mul by lia. reflexivity.
Qed.
Print Assumptions C84_aligned_groups_partial.

(** A group that starts inside a block: its scale is not that of the corrected weights. *)
Theorem C84_groups_inside_blocks_refuted :
  group_run 2 = Ok (mkT [2; 2] [1; 0; 0; 1]%Q, group_quantizer, demo_act) /\
  (forall n m, demo_cholesky n m = Ok stale_h) /\
  recurrence 2 2 [2; 1] group_quantizer (fun r c => nth (r * 2 + c) (data group_weight) 0%Q) (fun p => p) stale_h stale_y stale_e /\
  ~ group_scaled 2 2 2 1 group_quantizer (corrected (fun r c => nth (r * 2 + c) (data group_weight) 0%Q) stale_e stale_h 1) 1.
Proof. split; [exact stale_run|]. split; [reflexivity|]. split; [exact stale_recurrence|exact stale_group]. Qed.
Print Assumptions C84_groups_inside_blocks_refuted.

Example C84_nonvacuous :
  fits_matrix 2 2 [2; 1] group_quantizer /\ 1 < 2 / 1 /\ (exists m, 1 = m * Z.to_nat 1) /\
  run_data (group_run 1) = Ok ([1; 4 # 5; 0; 4 # 5]%Q, [1; 4 # 5]%Q).
Proof. split; [exact group_fits|]. split; [cbn; lia|]. split; [exists 1; reflexivity|exact group_one]. Qed.
