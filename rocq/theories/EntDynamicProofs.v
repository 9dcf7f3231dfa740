From Verif Require Import Prelude TilingModel TilingSpec TilingProofs GranularityModel GranularitySpec
  GranularityProofs AffineModel AffineSpec AffineProofs AffineTensorProofs EntModel EntSpec EntProofs
  EntTensorProofs.
From Coq Require Import QArith Qabs Qround Lqa.
Local Open Scope nat_scope.

Lemma rowwise_in {A B P} (f : P -> A -> result B) r ps n m d i p :
  shape r = [n; m] -> length ps = n -> 0 < m -> rowwise f r ps = Ok d -> nth_error ps i = Some p ->
  exists a c, f p a = Ok c.
Proof.
  intros Hs Hl Hm H Hp. assert (Hi : i < n) by (rewrite <- Hl; apply nth_error_Some; congruence).
  unfold rowwise in H. rewrite Hs, Hl, Nat.eqb_refl in H. cbn [orb] in H.
  apply rbind_ok in H as (l & Hr & _).
  assert (Hrows : (if n =? 1 then n else n) = n) by (destruct (n =? 1); reflexivity). rewrite Hrows in Hr.
  pose proof (nth_error_list_prod n m i 0 Hi Hm) as Hin.
  destruct (rmapM_nth _ _ _ _ _ Hr Hin) as (c & _ & Hc). cbn beta iota in Hc.
  assert (Hidx : (if n =? 1 then 0 else i) = i).
  { destruct (n =? 1) eqn:E; [apply Nat.eqb_eq in E; lia|reflexivity]. }
  rewrite Hidx, Hp in Hc. destruct (nth_error (data r) _) as [a|]; [|discriminate]. eauto.
Qed.

Lemma nth_error_firstn' {A} (l : list A) m j : j < m -> nth_error (firstn m l) j = nth_error l j.
Proof. revert m j. induction l as [|a l IH]; intros [|m] [|j] H; cbn; try lia; try reflexivity. apply IH. lia. Qed.

Lemma nth_error_skipn' {A} (l : list A) k j : nth_error (skipn k l) j = nth_error l (k + j).
Proof. revert k. induction l as [|a l IH]; intros [|k]; cbn; try reflexivity; [now destruct j|]. apply IH. Qed.

Lemma in_row {A} (r : tensor A) n m i j a :
  shape r = [n; m] -> j < m -> at_index r [i; j] = Some a -> In a (row_of m (data r) i).
Proof.
  intros Hs Hj H. unfold at_index in H. rewrite Hs in H. cbn [ravel] in H. unfold prod in H. cbn in H.
  apply nth_error_In with j. unfold row_of. rewrite nth_error_firstn' by assumption. rewrite nth_error_skipn'.
  rewrite <- H. f_equal. lia.
Qed.

Lemma row_extremes_nth (r : tensor Q) rg n m i j a :
  shape r = [n; m] -> row_extremes r = Ok rg -> i < n -> j < m -> at_index r [i; j] = Some a ->
  exists mn mx, nth_error rg i = Some (mn, mx) /\ (mn <= a)%Q /\ (a <= mx)%Q.
Proof.
  intros Hs H Hi Hj Ha. unfold row_extremes in H. rewrite Hs in H.
  assert (Hn : nth_error (seq 0 n) i = Some i).
  { rewrite nth_error_nth' with (d := 0) by (rewrite seq_length; exact Hi). now rewrite seq_nth. }
  destruct (rmapM_nth _ _ _ _ _ H Hn) as ([mn mx] & Hrg & He). cbn beta in He.
  pose proof (in_row _ _ _ _ _ _ Hs Hj Ha) as Hin.
  destruct (list_min (row_of m (data r) i)) as [mn'|] eqn:E1; [|discriminate].
  destruct (list_max (row_of m (data r) i)) as [mx'|] eqn:E2; [|discriminate].
  injection He as -> ->. exists mn, mx. split; [exact Hrg|]. split; [eapply list_min_le|eapply list_max_ge]; eauto.
Qed.

Lemma closest_code_unique b q z z' : closest_code b q z -> closest_code b q z' -> z = z'.
Proof. intros (r & Hr & ->) (r' & Hr' & ->). now rewrite (nearest_even_unique _ _ _ Hr Hr'). Qed.

Lemma static_default x p d :
  s_ddtype p = None -> d = d_dtype x ->
  quantize false x (Static (mkS (s_scale p) (s_offset p) (s_bits p) (s_gran p) (s_qdtype p) (Some d)))
  = quantize false x (Static p).
Proof.
  intros Hd ->. cbn [quantize]. unfold static_quantize. cbn [s_gran s_scale s_offset s_bits s_qdtype s_ddtype].
  rewrite Hd. reflexivity.
Qed.

Lemma dynamic_half_step x g ta b sym one q c p :
  wf (d_val x) -> Forall (fun d => 0 < d) (shape (d_val x)) -> float_dtype (d_dtype x) ->
  regular g -> tile_size g (shape (d_val x)) = Ok ta -> holds_codes (or_dtype q (d_dtype x)) b ->
  quantize false x (Dynamic (mkY b g sym one q None None)) = Ok (Quantized c p) ->
  let tile := resolve_tile (shape (d_val x)) ta in
  exists scale offset v,
    p = Static (mkS (Ten scale) (Some (Ten offset)) b g q (Some (d_dtype x))) /\
    length scale = prod (grid (shape (d_val x)) tile) /\ length offset = length scale /\
    dequantize c p = Ok v /\ d_dtype v = d_dtype x /\ wf (c_raw c) /\ wf (d_val v) /\
    quantizes (d_val x) tile (Ten scale) (Some (Ten offset)) b (c_raw c) (d_val v) /\
    forall idx xv, valid (shape (d_val x)) idx -> at_index (d_val x) idx = Some xv ->
      exists s w, nth_error scale (tile_row (shape (d_val x)) tile idx) = Some s /\ (0 < s)%Q /\
        at_index (d_val v) idx = Some w /\ (Qabs (w - xv) <= (1 # 2) * s)%Q.
Proof.
  intros Hwf Hpos Hx Hreg Ht Hh H tile.
  pose proof (numel_positive _ Hwf Hpos) as Hn.
  pose proof (granularity_compatible _ _ _ Hpos Hreg Ht) as Hd. fold tile in Hd.
  pose proof H as Hagain. apply quantize_again in Hagain.
  cbn [quantize] in H. unfold dynamic_quantize in H.
  cbn [y_infer y_gran y_bits y_symmetric y_one_sided y_qdtype] in H. rewrite Ht in H. cbn [rbind] in H.
  apply rbind_ok in H as ([[c' sc] of] & Hq & H). injection H as -> <-.
  unfold static_from_dynamic in *. cbn [y_bits y_gran y_qdtype y_ddtype or_dtype option_map] in *.
  unfold quantize_dynamic_affine in Hq.
  change (resolve_tile (shape (d_val x)) ta) with tile in Hq.
  apply rbind_ok in Hq as (r & Hr & Hq). apply rbind_ok in Hq as (rg & Hrg & Hq).
  apply rbind_ok in Hq as ([sc' oo] & Hpr & Hq). apply rbind_ok in Hq as (d & Hdd & Hq).
  apply rbind_ok in Hq as (u & Hu & Hq). apply rbind_ok in Hq as (res & Hres & Hq).
  destruct (can_support_bitwidth _ _) in Hq; [|discriminate]. injection Hq as <- <- <-.
  destruct (rows_are_tiles (d_val x) (Tile tile) r Hwf Hn Hd Hr) as (Wr & Sr & Fr). cbn [resolve_tile] in Sr, Fr.
  set (n := prod (grid (shape (d_val x)) tile)) in *. set (m := prod tile) in *.
  assert (Hm : 0 < m) by (apply divides_prod_pos in Hd; exact Hd).
  destruct (parameters_lengths _ _ _ _ _ _ Hpr) as [L1 L2].
  assert (Lrg : length rg = n).
  { unfold row_extremes in Hrg. rewrite Sr in Hrg. apply rmapM_length in Hrg. now rewrite seq_length in Hrg. }
  rewrite Lrg in L1.
  assert (L3 : length (infer_offsets oo sc') = length sc') by now apply length_infer_offsets.
  assert (Hnz : nonzero (Ten sc')).
  { intros s Hin. apply In_nth_error in Hin as [i Hi].
    destruct (rowwise_in _ _ _ _ _ _ _ _ Sr L1 Hm Hdd Hi) as (a & c & Hc). apply qdiv_ok in Hc. apply Hc. }
  destruct (static_elements x (Ten sc') (Some (Ten (map QofZ (infer_offsets oo sc')))) g ta b q Hwf Hpos Hx Hreg Ht)
    as (c2 & p2 & v & E2 & D2 & V2 & T2 & W2 & W3 & Q2).
  { right. exact L1. }
  { intros a Ha. injection Ha as <-. right. rewrite map_length, L3. exact L1. }
  { exact Hnz. }
  { exact Hh. }
  fold tile in Q2.
  pose proof (static_default x (mkS (Ten sc') (Some (Ten (map QofZ (infer_offsets oo sc')))) b g q None)
                (d_dtype x) eq_refl eq_refl) as E3.
  cbn [s_gran s_scale s_offset s_bits s_qdtype s_ddtype] in E3. rewrite E2 in E3. rewrite Hagain in E3.
  injection E3 as Ec Ep. subst c2 p2.
  exists sc', (map QofZ (infer_offsets oo sc')), v.
  split; [reflexivity|]. split; [exact L1|]. split; [now rewrite map_length|]. split; [exact V2|].
  split; [exact T2|]. split; [exact W2|]. split; [exact W3|]. split; [exact Q2|].
  intros idx xv Hv Hxv. destruct Q2 as (_ & _ & Q2). destruct (Q2 idx xv Hv Hxv) as (s & z & oz & As & Az & Ac & _ & Av).
  set (k := tile_row (shape (d_val x)) tile idx) in *.
  pose proof (tile_row_lt _ _ _ Hd Hv) as Hk. pose proof (tile_col_lt _ _ _ Hd Hv) as Hj. fold k n in Hk. fold m in Hj.
  assert (Hs : nth_error sc' k = Some s).
  { rewrite <- (as_tensor_at 0 n (Ten sc') k) in As by (try (right; exact L1); exact Hk).
    cbn [as_tensor] in As. now rewrite expand_one in As. }
  assert (Ho : nth_error (map QofZ (infer_offsets oo sc')) k = Some (QofZ (infer_offset (nth_offset oo k)))).
  { rewrite nth_error_map, (infer_offsets_nth oo sc' k s Hs L2). reflexivity. }
  assert (Ez : oz = infer_offset (nth_offset oo k)).
  { rewrite <- (as_tensor_at 0 n (Ten (map QofZ (infer_offsets oo sc'))) k) in Az
      by (try (right; now rewrite map_length, L3); exact Hk).
    cbn [as_tensor] in Az. rewrite expand_one in Az by now rewrite map_length, L3.
    rewrite Ho in Az. cbn [zero_point] in Az.
    eapply nearest_even_unique; [exact Az|]. rewrite <- (round_QofZ (infer_offset (nth_offset oo k))) at 2.
    apply round_nearest_even. }
  destruct (Fr idx Hv) as [_ Hrx]. change (at_index r [k; tile_col tile idx] = at_index (d_val x) idx) in Hrx.
  rewrite Hxv in Hrx.
  destruct (row_extremes_nth _ _ _ _ _ _ _ Sr Hrg Hk Hj Hrx) as (mn & mx & Hmm & M1 & M2).
  assert (Hle : (mn <= mx)%Q) by lra.
  destruct (covers_weak _ _ _ _ _ _ _ _ _ _ Hpr Hmm Hle Hs) as (C1 & C2 & _ & C4).
  assert (Hs0 : ~ (s == 0)%Q) by (apply Hnz; eapply nth_error_In; eauto).
  assert (Hsp : (0 < s)%Q). { destruct (Qlt_le_dec 0 s); [assumption|]. exfalso. apply Hs0. lra. }
  pose proof (quantize_error s (nth_offset oo k) b xv Hsp) as QE.
  destruct (quantization_range s (nth_offset oo k) b) as [lo hi]. cbn [fst snd] in *.
  destruct QE as (z2 & Eq2 & Herr); [lra|].
  destruct (elem_spec _ _ _ _ _ Eq2) as (oz2 & Z1 & Z2 & Z3).
  assert (Eoz : oz2 = oz).
  { subst oz. destruct (nth_offset oo k) as [qo|]; cbn [zero_point infer_offset] in *; [|exact Z1].
    eapply nearest_even_unique; [exact Z1|apply round_nearest_even]. }
  subst oz2. rewrite (closest_code_unique _ _ _ _ Z2 Ac) in *.
  exists s, ((inject_Z z + inject_Z oz) * s)%Q. split; [exact Hs|]. split; [exact Hsp|]. split; [exact Av|].
  rewrite Z3 in Herr. exact Herr.
Qed.
