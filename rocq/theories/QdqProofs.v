(** Proofs about the QDQ lowering. *)
From Verif Require Import Prelude TilingModel TilingSpec TilingProofs AffineModel AffineSpec AffineProofs
  AffineTensorProofs EncModel EncLpbqProofs QdqModel QdqSpec.
From Coq Require Import QArith Qround Qabs Lqa.
Local Open Scope nat_scope.
Local Open Scope list_scope.

(** ** The axis *)

Lemma one_axes_in tile i : In i (one_axes tile) <-> nth_error tile i = Some 1.
Proof.
  unfold one_axes. rewrite filter_In, in_seq. split.
  - intros [H E]. apply Nat.eqb_eq in E. rewrite (nth_error_nth' tile 0) by lia. now f_equal.
  - intros H. assert (i < length tile) by (apply nth_error_Some; congruence).
    split; [lia|]. apply Nat.eqb_eq. now apply nth_error_nth.
Qed.

Lemma find_unique {A} (f : A -> bool) l c : In c l -> f c = true ->
  (forall i, In i l -> f i = true -> i = c) -> find f l = Some c.
Proof.
  intros Hc Fc H. destruct (find f l) as [i|] eqn:E.
  - apply find_some in E as [Hi Fi]. f_equal. now apply H.
  - rewrite (find_none _ _ E _ Hc) in Fc. discriminate.
Qed.

Lemma channel_axis s1 d s2 : d <> 1 ->
  ff_axis (s1 ++ 1 :: s2) (static (s1 ++ d :: s2)) = Some (length s1).
Proof.
  intros Hd. set (c := length s1).
  assert (Hc : In c (one_axes (s1 ++ 1 :: s2))).
  { apply one_axes_in. unfold c. rewrite nth_error_app2 by lia. now rewrite Nat.sub_diag. }
  unfold ff_axis. destruct (one_axes (s1 ++ 1 :: s2)) as [|a [|a' l]] eqn:E; [contradiction| |].
  - destruct Hc as [->|[]]. reflexivity.
  - unfold static. rewrite (find_unique _ (a :: a' :: l) c); [reflexivity|exact Hc| |].
    + rewrite nth_error_map. unfold c. rewrite nth_error_app2 by lia. rewrite Nat.sub_diag.
      cbn [nth_error option_map]. now apply negb_true_iff, Nat.eqb_neq.
    + intros i Hi. rewrite <- E in Hi. apply one_axes_in in Hi. rewrite nth_error_map.
      intros F. destruct (Nat.lt_trichotomy i c) as [L|[->|L]]; [|reflexivity|]; exfalso.
      * unfold c in L. rewrite nth_error_app1 in Hi by exact L.
        rewrite nth_error_app1, Hi in F by exact L. discriminate.
      * unfold c in L. rewrite nth_error_app2 in Hi by lia. rewrite nth_error_app2 in F by lia.
        destruct (i - length s1) as [|j] eqn:Ej; [lia|]. cbn in Hi, F. rewrite Hi in F. discriminate.
Qed.

Lemma channel_row s1 : forall d s2 idx, valid (s1 ++ d :: s2) idx ->
  nth_error idx (length s1) = Some (tile_row (s1 ++ d :: s2) (s1 ++ 1 :: s2) idx).
Proof.
  induction s1 as [|n s1 IH]; intros d s2 idx V; cbn [app] in *;
    inversion V as [|i n' idx' r' Hi V']; subst.
  - cbn [length nth_error]. f_equal. symmetry. now apply row_channel.
  - cbn [length nth_error]. rewrite (IH _ _ _ V'). f_equal.
    unfold tile_row, grid, tile_coord, zipmap. cbn [combine map ravel].
    rewrite (Nat.div_small i n) by exact Hi. lia.
Qed.

(** ONNX looks up the parameters of an element at the position of its tile. *)
Lemma position_ok shape tile n idx :
  Forall (fun k => 0 < k) shape -> tensor_or_channel shape tile n -> valid shape idx ->
  onnx_position (ff_axis tile (static shape)) n shape idx = Some (tile_row shape tile idx).
Proof.
  intros P [-> ->|s1 d s2 -> -> ->] V; unfold onnx_position.
  - cbn. f_equal. symmetry. now apply row_tensor.
  - destruct (Nat.eqb_spec d 1) as [->|Hd].
    + f_equal. symmetry. now apply row_tensor.
    + rewrite channel_axis by exact Hd. rewrite nth_error_app2 by lia. rewrite Nat.sub_diag. cbn [nth_error].
      rewrite Nat.eqb_refl. now apply channel_row.
Qed.

(** ** Rounding and zero points *)

Lemma inject_Z_minus a b : inject_Z (a - b) = (inject_Z a - inject_Z b)%Q.
Proof. unfold Z.sub. now rewrite inject_Z_plus, inject_Z_opp. Qed.

Lemma round_shift y o : ~ ((exists k : Z, (y == inject_Z k + (1 # 2))%Q) /\ Z.odd o = true) ->
  round_half_even (y - QofZ o) = (round_half_even y - o)%Z.
Proof.
  intros H. apply (nearest_even_unique (y - QofZ o)); [apply round_nearest_even|].
  destruct (round_nearest_even y) as [B T]. unfold nearest_even. fold QofZ in *.
  assert (E : (y - QofZ o - QofZ (round_half_even y - o) == y - QofZ (round_half_even y))%Q).
  { unfold QofZ. rewrite inject_Z_minus. ring. }
  rewrite E. split; [exact B|]. intros Ht. specialize (T Ht).
  destruct (Z.odd o) eqn:Eo.
  - exfalso. apply H. split; [|reflexivity].
    assert (B2 := round_bounds y).
    destruct (Qlt_le_dec y (QofZ (round_half_even y))) as [L|L].
    + exists (round_half_even y - 1)%Z. rewrite inject_Z_minus. fold QofZ.
      rewrite Qabs_neg in Ht by lra. change (QofZ 1) with 1%Q. lra.
    + exists (round_half_even y). fold QofZ. rewrite Qabs_pos in Ht by lra. lra.
  - rewrite Z.even_sub, T. rewrite <- Z.negb_odd, Eo. reflexivity.
Qed.

Lemma round_shift_near y o : (Z.abs (round_half_even (y - QofZ o) - (round_half_even y - o)) <= 1)%Z.
Proof.
  pose proof (round_bounds y) as B. pose proof (round_bounds (y - QofZ o)) as C.
  assert (L : (QofZ (round_half_even (y - QofZ o) - (round_half_even y - o)) <= QofZ 1)%Q).
  { unfold QofZ in *. rewrite !inject_Z_minus. change (inject_Z 1) with 1%Q. lra. }
  assert (R : (QofZ (-1) <= QofZ (round_half_even (y - QofZ o) - (round_half_even y - o)))%Q).
  { unfold QofZ in *. rewrite !inject_Z_minus. change (inject_Z (-1)) with (-1)%Q. lra. }
  unfold QofZ in L, R. rewrite <- Zle_Qle in L, R. unfold QofZ. lia.
Qed.

Lemma saturate_clamp ty z : saturate ty z =
  clamp z (integer_minimum (storage_bits ty)) (integer_maximum (storage_bits ty)).
Proof.
  unfold saturate, clamp, integer_maximum, integer_minimum, storage_min, storage_max.
  destruct ty; cbn [storage_bits]; vm_compute (2 ^ _)%Z; lia.
Qed.

Lemma clamp_near a b lo hi k : (lo <= hi)%Z -> (Z.abs (a - b) <= k)%Z ->
  (Z.abs (clamp a lo hi - clamp b lo hi) <= k)%Z.
Proof. unfold clamp. lia. Qed.

(** ** The lowered operators *)

Lemma dtype_bits b ty : ff_quant_dtype (QofZ (Zpos b)) = Ok ty -> storage_bits ty = b.
Proof.
  unfold ff_quant_dtype. unfold QofZ. rewrite Qfloor_Z.
  destruct (Qeq_bool _ _); [|discriminate]. cbn [negb].
  destruct (Z.eqb_spec (Zpos b) 4) as [E|_]; [intros [= <-]; now injection E|].
  destruct (Z.eqb_spec (Zpos b) 8) as [E|_]; [intros [= <-]; now injection E|].
  destruct (Z.eqb_spec (Zpos b) 16) as [E|_]; [intros [= <-]; now injection E|]. discriminate.
Qed.

Lemma lowering_inv dims scale tile b off o :
  quantize_lowering dims scale tile (IntBits b) off = Ok o ->
  o_scale o = scale /\ o_zero o = ff_zero_point scale off /\ o_axis o = ff_axis tile dims /\
  storage_bits (o_type o) = b.
Proof.
  unfold quantize_lowering, py_int, bits_value. unfold QofZ at 1. rewrite Qfloor_Z.
  destruct (ff_quant_dtype _) as [ty|] eqn:E; [|discriminate]. intros [= <-]. cbn.
  repeat split; auto. now apply dtype_bits.
Qed.

Lemma zero_nth scale off i s :
  (forall os, off = Some os -> length os = length scale) -> nth_error scale i = Some s ->
  nth_error (ff_zero_point scale off) i = Some (- infer_offset (nth_offset off i))%Z.
Proof.
  intros L Hs. unfold ff_zero_point, nth_offset, infer_offset. destruct off as [os|].
  - rewrite nth_error_map. specialize (L _ eq_refl).
    destruct (nth_error os i) as [o|] eqn:E; [reflexivity|].
    apply nth_error_None in E. assert (i < length scale) by (apply nth_error_Some; congruence). lia.
  - rewrite nth_error_map, Hs. reflexivity.
Qed.

Lemma zero_fits ty off i : zero_points_fit ty off -> in_range ty (- infer_offset (nth_offset off i)).
Proof.
  intros H. unfold nth_offset, infer_offset. destruct off as [os|].
  - destruct (nth_error os i) as [o|] eqn:E.
    + eapply H; [reflexivity|]. now apply nth_error_In in E.
    + destruct ty; split; vm_compute; discriminate.
  - destruct ty; split; vm_compute; discriminate.
Qed.

Lemma quantize_linear_at cast shape tile scale off b o idx x s z :
  onnx_cast cast -> Forall (fun k => 0 < k) shape -> tensor_or_channel shape tile (length scale) ->
  (forall os, off = Some os -> length os = length scale) ->
  quantize_lowering (static shape) scale tile (IntBits b) off = Ok o ->
  zero_points_fit (o_type o) off -> valid shape idx ->
  nth_error scale (tile_row shape tile idx) = Some s ->
  quantize_elem s (nth_offset off (tile_row shape tile idx)) b x = Ok z ->
  exists z', quantize_linear cast o shape idx x = Some z' /\ (Z.abs (z' - z) <= 1)%Z /\
    (~ odd_tie x s (nth_offset off (tile_row shape tile idx)) -> z' = z).
Proof.
  intros Hc P T L Hl Hz V Hs Hq. set (i := tile_row shape tile idx) in *.
  destruct (lowering_inv _ _ _ _ _ _ Hl) as (Es & Ez & Ea & Eb).
  unfold quantize_linear. rewrite Es, Ez, Ea, (position_ok _ _ _ _ P T V). fold i.
  rewrite Hs, (zero_nth _ _ _ _ L Hs).
  destruct (Hc (o_type o) (- infer_offset (nth_offset off i))%Z) as [_ ->]; [|now apply zero_fits].
  eexists. split; [reflexivity|]. rewrite saturate_clamp, Eb.
  unfold quantize_elem in Hq. destruct (qdiv x s) as [y|] eqn:Ey; [|discriminate]. cbn [rbind] in Hq.
  assert (z = clamp (round_half_even (y - QofZ (infer_offset (nth_offset off i))))
                (integer_minimum b) (integer_maximum b)) as -> by congruence.
  apply qdiv_ok in Ey as [_ ->].
  replace (round_half_even (x / s) + - infer_offset (nth_offset off i))%Z
    with (round_half_even (x / s) - infer_offset (nth_offset off i))%Z by lia.
  split.
  - apply clamp_near; [apply int_min_le_max|].
    pose proof (round_shift_near (x / s) (infer_offset (nth_offset off i))). lia.
  - intros Ht. rewrite (round_shift (x / s)); [reflexivity|exact Ht].
Qed.

Theorem lowering_codes cast t scale tile b out off res o :
  onnx_cast cast -> wf t -> Forall (fun k => 0 < k) (shape t) ->
  tensor_or_channel (shape t) tile (length scale) ->
  (forall os, off = Some os -> length os = length scale) -> (forall s, In s scale -> ~ (s == 0)%Q) ->
  quantize_by_tile t scale (Tile tile) b out off = Ok res ->
  quantize_lowering (static (shape t)) scale tile (IntBits b) off = Ok o ->
  zero_points_fit (o_type o) off ->
  forall idx x, valid (shape t) idx -> at_index t idx = Some x ->
  exists z z', at_index res idx = Some z /\ quantize_linear cast o (shape t) idx x = Some z' /\
    (Z.abs (z' - z) <= 1)%Z /\
    ((forall s, nth_error scale (tile_row (shape t) tile idx) = Some s ->
        ~ odd_tie x s (nth_offset off (tile_row (shape t) tile idx))) -> z' = z).
Proof.
  intros Hc W P T L N Hq Hl Hz idx x V Hx.
  assert (D : tile_divides (shape t) tile).
  { destruct T as [-> _|s1 d s2 E -> _].
    - clear -P. induction P; constructor; auto. split; [auto|]. exists 1. lia.
    - rewrite E in P |- *. clear -P. induction s1 as [|n s1 IH]; cbn in *; inversion_clear P as [|? ? Pn Ps];
        constructor; auto.
      + split; [lia|]. exists d. lia.
      + clear -Ps. induction Ps; constructor; auto. split; [auto|]. exists 1. lia.
      + split; [auto|]. exists 1. lia.
      + exact (IH Ps). }
  assert (HL : length scale = prod (grid (shape t) tile)).
  { destruct T as [-> ->|s1 d s2 E -> ->].
    - symmetry. now apply ones_grid.
    - rewrite E in *. clear -P. induction s1 as [|n s1 IH]; cbn [app] in *; inversion_clear P as [|? ? Pn Ps].
      + unfold grid, zipmap. cbn [combine map]. rewrite prod_cons, Nat.div_1_r.
        fold (zipmap Nat.div s2 s2). fold (grid s2 s2). rewrite (ones_grid _ Ps). lia.
      + unfold grid, zipmap. cbn [combine map]. rewrite prod_cons, Nat.div_same by lia.
        specialize (IH Ps). unfold grid, zipmap in IH. lia. }
  assert (Nn : numel t <> 0).
  { unfold numel. rewrite W. clear -P. induction P as [|n l Hn _ IH]; [discriminate|]. rewrite prod_cons. nia. }
  assert (Hsup : can_support_bitwidth out b = true).
  { unfold quantize_by_tile in Hq. repeat (apply rbind_ok in Hq as (? & _ & Hq)).
    destruct (can_support_bitwidth out b); [reflexivity|discriminate]. }
  destruct (quantize_by_tile_elementwise t scale (Tile tile) b out off W Nn D HL L N Hsup)
    as (res' & E & _ & _ & H).
  assert (res' = res) as -> by congruence.
  destruct (H idx x V Hx) as (s & z & Hs & Hz' & Hqe). cbn [resolve_tile] in *.
  destruct (quantize_linear_at cast (shape t) tile scale off b o idx x s z Hc P T L Hl Hz V Hs Hqe)
    as (z' & E1 & E2 & E3).
  exists z, z'. repeat split; auto.
Qed.

Theorem lowering_values cast shape tile scale off ty idx q s :
  onnx_cast cast -> Forall (fun k => 0 < k) shape -> tensor_or_channel shape tile (length scale) ->
  (forall os, off = Some os -> length os = length scale) -> zero_points_fit ty off -> valid shape idx ->
  nth_error scale (tile_row shape tile idx) = Some s ->
  exists v, dequantize_linear cast (dequantize_lowering (static shape) ty scale tile off) shape idx q = Some v /\
    (v == dequantize_elem s (nth_offset off (tile_row shape tile idx)) q)%Q.
Proof.
  intros Hc P T L Hz V Hs. set (i := tile_row shape tile idx) in *.
  unfold dequantize_linear, dequantize_lowering. cbn [o_scale o_zero o_axis o_type].
  rewrite (position_ok _ _ _ _ P T V). fold i. rewrite Hs, (zero_nth _ _ _ _ L Hs).
  destruct (Hc ty (- infer_offset (nth_offset off i))%Z) as [_ ->]; [|now apply zero_fits].
  eexists. split; [reflexivity|]. unfold dequantize_elem.
  replace (q - - infer_offset (nth_offset off i))%Z with (q + infer_offset (nth_offset off i))%Z by lia.
  rewrite inject_Z_plus. fold QofZ. reflexivity.
Qed.

(** Which bit widths are accepted. *)
Theorem lowering_accepted dims scale tile b off :
  (exists o, quantize_lowering dims scale tile (IntBits b) off = Ok o) <->
  (b = 4 \/ b = 8 \/ b = 16)%positive.
Proof.
  split.
  - intros (o & H). apply lowering_inv in H as (_ & _ & _ & <-). destruct (o_type o); cbn; auto.
  - intros [-> |[-> | ->]]; eexists; reflexivity.
Qed.

(** ** Options *)

Lemma lookup_setdefault {A} d k j (v : A) :
  lookup (setdefault d k v) j =
  match lookup d j with Some w => Some w | None => if j =? k then Some v else None end.
Proof.
  unfold setdefault. destruct (lookup d k) as [w|] eqn:Ek.
  - destruct (lookup d j) eqn:Ej; [reflexivity|]. destruct (Nat.eqb_spec j k) as [->|]; [congruence|reflexivity].
  - unfold lookup in *. clear Ek. induction d as [|[k' w'] d IH]; cbn [find app option_map].
    + rewrite (Nat.eqb_sym k j). destruct (j =? k); reflexivity.
    + destruct (k' =? j); [reflexivity|exact IH].
Qed.

Lemma lookup_put {A} d k j (v : A) :
  lookup (put d k v) j = if j =? k then Some v else lookup d j.
Proof.
  unfold put. destruct (lookup d k) as [w|] eqn:Ek; unfold lookup in *.
  - induction d as [|[k' w'] d IH]; cbn [map find option_map] in *; [discriminate|].
    destruct (Nat.eqb_spec k' k) as [->|Hk].
    + cbn [find]. destruct (Nat.eqb_spec k j) as [->|Hj]; [now rewrite Nat.eqb_refl|].
      destruct (Nat.eqb_spec j k) as [->|]; [congruence|].
      clear IH Ek. induction d as [|[k2 w2] d IH2]; cbn [map find]; [reflexivity|].
      destruct (Nat.eqb_spec k2 k) as [->|]; cbn [find]; [|destruct (k2 =? j); [reflexivity|exact IH2]].
      destruct (Nat.eqb_spec k j) as [E|_]; [congruence|exact IH2].
    + cbn [find]. destruct (Nat.eqb_spec k' j) as [->|]; [|now apply IH].
      destruct (Nat.eqb_spec j k); [congruence|reflexivity].
  - induction d as [|[k' w'] d IH]; cbn [find app option_map] in *.
    + rewrite (Nat.eqb_sym k j). destruct (j =? k); reflexivity.
    + destruct (Nat.eqb_spec k' k) as [->|Hk]; [discriminate|]. specialize (IH Ek).
      destruct (Nat.eqb_spec k' j) as [->|]; [|exact IH].
      destruct (Nat.eqb_spec j k); [congruence|reflexivity].
Qed.

Theorem options_sound available o r : with_ff_qdq_lowerings available o = Ok r ->
  exists v t t', (o = ONone \/ exists d, o = ODict d) /\
    (given o key_opset = Some (VInt v) \/ (given o key_opset = None /\ v = 21%Z)) /\
    (given o key_table = Some (VTable t) \/ (given o key_table = None /\ t = [])) /\
    (21 <= v)%Z /\ available v = true /\
    lookup r key_opset = Some (VInt v) /\ lookup r key_table = Some (VTable t') /\
    (forall k, k <> key_opset -> k <> key_table -> lookup r k = given o k) /\
    (forall k l, lookup t k = Some l -> lookup t' k = Some l) /\
    (forall k, lookup t k = None ->
      lookup t' k = if k =? 0 then Some (FFQuantize v) else if k =? 1 then Some (FFDequantize v) else None).
Proof.
  unfold with_ff_qdq_lowerings. intros H.
  destruct (match o with ODict d => Ok d | ONone => Ok [] | ONotDict => Err TypeError end) as [raw|] eqn:Er;
    [|discriminate]. cbn [rbind] in H.
  assert (G : forall k, given o k = lookup raw k).
  { intros k. destruct o; [|  |discriminate]; injection Er as <-; reflexivity. }
  assert (O : o = ONone \/ exists d, o = ODict d) by (destruct o; [eauto|auto|discriminate]).
  destruct (match lookup raw key_table with None => Ok [] | Some (VTable t) => Ok t | Some _ => Err TypeError end)
    as [t|] eqn:Et; [|discriminate]. cbn [rbind] in H. rewrite lookup_setdefault in H.
  destruct (match match lookup raw key_opset with Some w => Some w | None =>
      if key_opset =? key_opset then Some (VInt 21) else None end with Some (VInt z) => Ok z | _ => Err TypeError end)
    as [v|] eqn:Ev; [|discriminate]. cbn [rbind] in H.
  destruct (Z.ltb_spec v 21) as [|Hv]; [discriminate|].
  destruct (available v) eqn:Ea; [|discriminate]. cbn [negb] in H.
  match type of H with Ok ?a = _ => assert (r = a) as -> by congruence end.
  exists v, t, (setdefault (setdefault t 0 (FFQuantize v)) 1 (FFDequantize v)).
  rewrite !G. split; [exact O|]. split.
  { destruct (lookup raw key_opset) as [[| |]|]; try discriminate; cbn in Ev; [left|right]; split || idtac; congruence. }
  split. { destruct (lookup raw key_table) as [[| |]|]; try discriminate; [left|right; split]; congruence. }
  repeat split; auto.
  - rewrite lookup_put. cbn [Nat.eqb key_opset key_table]. rewrite lookup_setdefault.
    destruct (lookup raw key_opset) as [[| |]|]; cbn in Ev |- *; congruence.
  - rewrite lookup_put. reflexivity.
  - intros k N1 N2. rewrite G, lookup_put, lookup_setdefault.
    apply Nat.eqb_neq in N1, N2. rewrite N1, N2. now destruct (lookup raw k).
  - intros k l E. rewrite !lookup_setdefault, E. reflexivity.
  - intros k E. rewrite !lookup_setdefault, E. destruct (k =? 0); reflexivity.
Qed.

Theorem options_errors available o :
  (with_ff_qdq_lowerings available o = Err TypeError <->
     o = ONotDict \/
     (exists w, given o key_table = Some w /\ forall t, w <> VTable t) \/
     (exists w, given o key_opset = Some w /\ forall v, w <> VInt v)) /\
  (with_ff_qdq_lowerings available o = Err ExportError <->
     o <> ONotDict /\ (forall w, given o key_table = Some w -> exists t, w = VTable t) /\
     exists v, (given o key_opset = Some (VInt v) \/ (given o key_opset = None /\ v = 21%Z)) /\
       ((v < 21)%Z \/ available v = false)) /\
  (forall e, with_ff_qdq_lowerings available o = Err e -> e = TypeError \/ e = ExportError).
Proof.
  unfold with_ff_qdq_lowerings.
  assert (G : forall raw, (o = ODict raw \/ (o = ONone /\ raw = [])) -> forall k, given o k = lookup raw k).
  { intros raw [-> | [-> ->]] k; reflexivity. }
  destruct o as [raw| |].
  3: { cbn [rbind]. split; [split|split; [split|]]; try discriminate; auto.
       - intros (N & _). now destruct N.
       - intros e [= <-]. auto. }
  all: [> specialize (G raw (or_introl eq_refl)) | specialize (G [] (or_intror (conj eq_refl eq_refl)))].
  all: cbn [rbind]; rewrite !G; clear G.
  all: match goal with |- context [setdefault ?r key_opset _] => set (d := r) end.
  all: rewrite lookup_setdefault.
  all: destruct (lookup d key_table) as [[t|z|w]|] eqn:Et.
  all: try discriminate Et.
  all: try (cbn [rbind]; (split; [split|split; [split|]]); try discriminate;
    [intros _; right; left; eexists; split; [reflexivity|discriminate]|reflexivity
    |intros (_ & F & _); destruct (F _ eq_refl); discriminate|intros e [= <-]; auto]).
  all: cbn [rbind]; destruct (lookup d key_opset) as [[t'|v|w']|] eqn:Eo; cbn [rbind Nat.eqb key_opset].
  all: try discriminate Eo.
  all: try ((split; [split|split; [split|]]); try discriminate;
    [intros _; right; right; eexists; split; [reflexivity|discriminate]|reflexivity
    |intros (_ & _ & v & [F|[F _]] & _); discriminate|intros e [= <-]; auto]).
  all: match goal with |- context [(?x <? 21)%Z] => destruct (Z.ltb_spec x 21) as [Lt|Ge] end.
  all: try (match goal with |- context [negb (?f ?x)] => destruct (f x) eqn:Ea end; cbn [negb]).
  all: (split; [split|split; [split|]]).
  all: try discriminate.
  all: try (intros [F|[(w & F & N)|(w & F & N)]];
    [discriminate|injection F as <- || discriminate; exfalso; eapply N; reflexivity
    |injection F as <- || discriminate; exfalso; eapply N; reflexivity]).
  all: try (intros e [= <-]; auto).
  all: try (intros _; split; [discriminate|split; [intros w E; try injection E as <-; try discriminate; eauto|]];
    eexists; split; [eauto|eauto; fail]).
  all: try (intros (_ & _ & v' & [F|[F ->]] & [F'|F']); try injection F as <-; try discriminate; try lia; congruence).
Qed.
