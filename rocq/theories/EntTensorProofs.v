From Verif Require Import Prelude TilingModel TilingSpec TilingProofs GranularityModel GranularitySpec
  GranularityProofs AffineModel AffineSpec AffineProofs AffineTensorProofs EntModel EntSpec EntProofs.
From Coq Require Import QArith Qabs Qround Lqa.
Local Open Scope nat_scope.

(** ** One number for all tiles *)

Definition expand {A} (n : nat) (l : list A) : list A := match l with [a] => repeat a n | _ => l end.

Lemma expand_map {A B} (f : A -> B) n l : expand n (map f l) = map f (expand n l).
Proof.
  destruct l as [|a [|c l]]; cbn; try reflexivity. clear. induction n; cbn; [reflexivity|]. now rewrite IHn.
Qed.

Lemma expand_one {A} n (l : list A) : length l = n -> expand n l = l.
Proof. destruct l as [|a [|c l]]; cbn; try reflexivity. intros <-. reflexivity. Qed.

Lemma expand_length {A} n (l : list A) : length l = 1 \/ length l = n -> length (expand n l) = n.
Proof.
  destruct l as [|a [|c l]]; cbn.
  - intros [H|H]; [discriminate|exact H].
  - intros _. apply repeat_length.
  - intros [H|H]; [discriminate|exact H].
Qed.

Lemma rmapM_ext_in {A B} (f g : A -> result B) l : (forall a, In a l -> f a = g a) -> rmapM f l = rmapM g l.
Proof.
  induction l as [|a l IH]; intros H; [reflexivity|]. cbn. rewrite (H a (or_introl eq_refl)).
  destruct (g a); cbn; [|reflexivity]. rewrite IH by (intros; apply H; now right). reflexivity.
Qed.

Lemma nth_error_repeat' {A} (a : A) n i : i < n -> nth_error (repeat a n) i = Some a.
Proof. revert i. induction n; intros [|i] H; cbn; try lia; [reflexivity|]. apply IHn. lia. Qed.

Lemma rowwise_expand {A B P} (f : P -> A -> result B) r ps n m :
  shape r = [n; m] -> 0 < n -> rowwise f r (expand n ps) = rowwise f r ps.
Proof.
  intros Hs Hn. destruct ps as [|p [|p' ps]]; try reflexivity. cbn [expand].
  unfold rowwise. rewrite Hs, repeat_length. cbn [length]. rewrite !Nat.eqb_refl. cbn [orb].
  rewrite orb_true_r. cbn [orb].
  assert (E : (if n =? 1 then n else n) = (if n =? 1 then 1 else n)).
  { destruct (n =? 1) eqn:E; [now apply Nat.eqb_eq in E|reflexivity]. }
  rewrite E. f_equal. apply rmapM_ext_in. intros [i j] Hin. apply in_prod_iff in Hin as [Hi _]. apply in_seq in Hi.
  assert (Hi' : i < n) by (destruct (n =? 1) eqn:E1; [apply Nat.eqb_eq in E1; lia|lia]).
  rewrite nth_error_repeat'; [reflexivity|]. destruct (n =? 1); lia.
Qed.

Lemma rowwise_shape {A B P} (f : P -> A -> result B) r ps n m r' :
  shape r = [n; m] -> 0 < n -> length ps = 1 \/ length ps = n -> rowwise f r ps = Ok r' -> shape r' = [n; m].
Proof.
  intros Hs Hn Hl. unfold rowwise. rewrite Hs.
  destruct ((length ps =? n) || (length ps =? 1) || (n =? 1)); [|discriminate].
  intros H. apply rbind_ok in H as (d & _ & H). injection H as <-. cbn [shape]. f_equal.
  destruct (n =? 1) eqn:E; [apply Nat.eqb_eq in E|reflexivity]. lia.
Qed.

Lemma infer_expand n off scale :
  infer_offsets (option_map (expand n) off) (expand n scale) = expand n (infer_offsets off scale).
Proof. destruct off as [l|]; cbn; now rewrite expand_map. Qed.

Lemma quantize_expand t scale tile b out off :
  wf t -> numel t <> 0 -> tile_divides (shape t) tile ->
  length scale = 1 \/ length scale = prod (grid (shape t) tile) ->
  quantize_by_tile t scale (Tile tile) b out off =
  quantize_by_tile t (expand (prod (grid (shape t) tile)) scale) (Tile tile) b out
    (option_map (expand (prod (grid (shape t) tile))) off).
Proof.
  intros Hwf Hn Hd Hl. set (n := prod (grid (shape t) tile)) in *.
  destruct (tiling_round_trip t (Tile tile) Hwf Hd) as (r & Er & _).
  destruct (rows_are_tiles t (Tile tile) r Hwf Hn Hd Er) as (Wr & Sr & _). cbn [resolve_tile] in Sr. fold n in Sr.
  assert (Hpos : 0 < n). { unfold wf in Hwf. unfold numel in Hn. rewrite Hwf, (divides_grid _ _ Hd) in Hn. fold n in Hn. lia. }
  unfold quantize_by_tile. rewrite Er. cbn [rbind]. rewrite infer_expand.
  rewrite (rowwise_expand _ r scale n _ Sr Hpos).
  destruct (rowwise (fun s x => qdiv x s) r scale) as [d|e] eqn:Ed; cbn [rbind]; [|reflexivity].
  rewrite (rowwise_expand _ d _ n _ (rowwise_shape _ _ _ _ _ _ Sr Hpos Hl Ed) Hpos). reflexivity.
Qed.

Lemma dequantize_expand t scale tile off :
  wf t -> numel t <> 0 -> tile_divides (shape t) tile ->
  (forall l, off = Some l -> length l = 1 \/ length l = prod (grid (shape t) tile)) ->
  length scale = 1 \/ length scale = prod (grid (shape t) tile) ->
  dequantize_by_tile t scale (Tile tile) off =
  dequantize_by_tile t (expand (prod (grid (shape t) tile)) scale) (Tile tile)
    (option_map (expand (prod (grid (shape t) tile))) off).
Proof.
  intros Hwf Hn Hd Ho Hl. set (n := prod (grid (shape t) tile)) in *.
  destruct (tiling_round_trip t (Tile tile) Hwf Hd) as (r & Er & _).
  destruct (rows_are_tiles t (Tile tile) r Hwf Hn Hd Er) as (Wr & Sr & _). cbn [resolve_tile] in Sr. fold n in Sr.
  assert (Hpos : 0 < n). { unfold wf in Hwf. unfold numel in Hn. rewrite Hwf, (divides_grid _ _ Hd) in Hn. fold n in Hn. lia. }
  unfold dequantize_by_tile. rewrite Er. cbn [rbind]. rewrite infer_expand.
  rewrite (rowwise_expand _ r (infer_offsets off scale) n _ Sr Hpos).
  assert (HO : length (infer_offsets off scale) = 1 \/ length (infer_offsets off scale) = n).
  { destruct off as [l|]; cbn; rewrite map_length; auto. }
  destruct (rowwise _ r (infer_offsets off scale)) as [d|e] eqn:Ed; cbn [rbind]; [|reflexivity].
  rewrite (rowwise_expand _ d scale n _ (rowwise_shape _ _ _ _ _ _ Sr Hpos HO Ed) Hpos). reflexivity.
Qed.

Lemma expand_nth (l : list Q) n i :
  length l = 1 \/ length l = n -> i < n -> nth_error (expand n l) i = arg_at (Ten l) i.
Proof.
  destruct l as [|a [|c l]]; cbn [expand arg_at]; try reflexivity. intros _ H. now apply nth_error_repeat'.
Qed.

(** ** Storage *)

Lemma holds_cast d b z : holds_codes d b -> code b z -> cast_code d z = z.
Proof.
  intros H Hz. unfold cast_code. destruct d as [m|w sg]; cbn [holds_codes] in H.
  - rewrite (float_store_exact m b z); auto. unfold can_support_bitwidth. now apply Nat.leb_le.
  - destruct H as [-> H]. now rewrite (int_store_exact w b z).
Qed.

Lemma holds_supported d b : holds_codes d b -> can_support_bitwidth d b = true.
Proof.
  unfold can_support_bitwidth. destruct d as [m|w sg]; cbn; intros H; apply Nat.leb_le; [exact H|]. lia.
Qed.

(** ** The elements *)

Lemma elem_spec s o b x z :
  quantize_elem s o b x = Ok z ->
  exists oz, zero_point o oz /\ closest_code b (x / s - inject_Z oz)%Q z /\
             dequantize_elem s o z = ((inject_Z z + inject_Z oz) * s)%Q.
Proof.
  unfold quantize_elem. intros H. destruct (qdiv x s) as [d|] eqn:Ed; cbn [rbind] in H; [|discriminate].
  apply qdiv_ok in Ed as [_ ->]. injection H as <-.
  exists (infer_offset o). split; [|split].
  - destruct o as [q|]; cbn; [apply round_nearest_even|reflexivity].
  - exists (round_half_even (x / s - QofZ (infer_offset o))%Q). split; [apply round_nearest_even|].
    unfold clamp. pose proof (int_min_le_max b) as Hm. unfold integer_maximum, integer_minimum in *.
    generalize dependent (2 ^ (Zpos b - 1))%Z. intros p Hm.
    generalize (round_half_even (x / s - QofZ (infer_offset o))). intros r. lia.
  - reflexivity.
Qed.

Lemma zero_point_unique o z z' : zero_point o z -> zero_point o z' -> z = z'.
Proof. destruct o as [q|]; cbn; [apply nearest_even_unique|congruence]. Qed.

Lemma numel_positive {A} (t : tensor A) : wf t -> Forall (fun d => 0 < d) (shape t) -> numel t <> 0.
Proof.
  unfold wf, numel. intros -> H. enough (0 < prod (shape t)) by lia.
  induction H as [|d s Hd _ IH]; [apply Nat.lt_0_1|]. rewrite prod_cons. now apply Nat.mul_pos_pos.
Qed.

Lemma as_tensor_lengths m n a : per_tile n a -> length (as_tensor (FloatT m) a) = 1 \/ length (as_tensor (FloatT m) a) = n.
Proof. destruct a as [q|l]; cbn; auto. Qed.

Lemma as_tensor_at m n a i : per_tile n a -> i < n -> nth_error (expand n (as_tensor (FloatT m) a)) i = arg_at a i.
Proof.
  intros Hp Hi. destruct a as [q|l]; cbn [as_tensor cast_num].
  - now rewrite expand_nth by auto.
  - now apply expand_nth.
Qed.

Lemma in_expand {A} n (l : list A) a : In a (expand n l) -> In a l.
Proof. destruct l as [|c [|c' l]]; cbn [expand]; auto. intros H. apply repeat_spec in H as ->. now left. Qed.

Lemma tmap_id_in {A} (f : A -> A) (t : tensor A) : (forall a, In a (data t) -> f a = a) -> tmap f t = t.
Proof.
  destruct t as [s d]. unfold tmap; cbn. intros H. f_equal. rewrite <- (map_id d) at 2. apply map_ext_in. exact H.
Qed.

Lemma static_elements x scale offset g ta b q :
  wf (d_val x) -> Forall (fun d => 0 < d) (shape (d_val x)) -> float_dtype (d_dtype x) ->
  regular g -> tile_size g (shape (d_val x)) = Ok ta ->
  let tile := resolve_tile (shape (d_val x)) ta in
  let n := prod (grid (shape (d_val x)) tile) in
  per_tile n scale -> (forall a, offset = Some a -> per_tile n a) -> nonzero scale ->
  holds_codes (or_dtype q (d_dtype x)) b ->
  exists c p v,
    quantize false x (Static (mkS scale offset b g q None)) = Ok (Quantized c p) /\
    c_dtype c = or_dtype q (d_dtype x) /\ dequantize c p = Ok v /\ d_dtype v = d_dtype x /\
    wf (c_raw c) /\ wf (d_val v) /\
    quantizes (d_val x) tile scale offset b (c_raw c) (d_val v).
Proof.
  intros Hwf Hpos [m Hx] Hreg Ht tile n Hs Ho Hnz Hh.
  pose proof (numel_positive _ Hwf Hpos) as Hn.
  pose proof (granularity_compatible _ _ _ Hpos Hreg Ht) as Hd. fold tile in Hd.
  set (sc := expand n (as_tensor (d_dtype x) scale)).
  set (of := option_map (expand n) (option_map (as_tensor (d_dtype x)) offset)).
  assert (Lsc : length sc = n). { unfold sc. rewrite Hx. apply expand_length. now apply as_tensor_lengths. }
  assert (Lof : forall l, of = Some l -> length l = length sc).
  { intros l Hl. unfold of in Hl. destruct offset as [a|]; cbn in Hl; [|discriminate]. injection Hl as <-.
    rewrite Lsc, Hx. apply expand_length. apply as_tensor_lengths. auto. }
  destruct (quantize_by_tile_elementwise (d_val x) sc (Tile tile) b (or_dtype q (d_dtype x)) of Hwf Hn Hd Lsc Lof)
    as (z & Ez & Sz & Wz & Fz).
  { intros s Hin. unfold sc in Hin. apply in_expand in Hin. rewrite Hx in Hin. destruct scale as [qs|l]; cbn in *.
    - destruct Hin as [<-|[]]. exact Hnz.
    - auto. }
  { now apply holds_supported. }
  cbn [resolve_tile] in Fz.
  assert (Ecast : tmap (cast_code (or_dtype q (d_dtype x))) z = z).
  { apply tmap_id_in. intros a Ha. eapply holds_cast; [exact Hh|].
    pose proof (quantize_by_tile_codes _ _ _ _ _ _ _ Ez) as HF. rewrite Forall_forall in HF. now apply HF. }
  assert (Eq : quantize_affine x scale offset ta b (or_dtype q (d_dtype x)) = Ok (mkC (or_dtype q (d_dtype x)) z)).
  { unfold quantize_affine. assert (Hf : (if is_float (d_dtype x) then d_dtype x else default_dtype) = d_dtype x) by now rewrite Hx.
    rewrite Hf. rewrite quantize_expand; auto.
    - change (resolve_tile (shape (d_val x)) ta) with tile. fold n. fold sc. fold of. rewrite Ez. cbn [rbind].
      rewrite Ecast. reflexivity.
    - rewrite Hx. now apply as_tensor_lengths. }
  assert (Hnz' : numel z <> 0). { unfold numel in *. unfold wf in *. rewrite Wz, Sz, <- Hwf. exact Hn. }
  rewrite <- Sz in Hd.
  assert (Lsc' : length sc = prod (grid (shape z) (resolve_tile (shape z) (Tile tile)))) by (rewrite Sz; exact Lsc).
  destruct (dequantize_by_tile_elementwise z sc (Tile tile) of Wz Hnz' Hd Lsc' Lof) as (v & Ev & Sv & Wv & Fv).
  cbn [resolve_tile] in Fv. rewrite Sz in Fv.
  eexists (mkC _ z), _, (mkD (d_dtype x) v). split; [|split; [reflexivity|split; [|split; [reflexivity|split; [exact Wz|split; [exact Wv|]]]]]].
  - cbn [quantize]. unfold static_quantize. cbn [s_gran s_scale s_offset s_bits s_qdtype s_ddtype].
    rewrite Ht. cbn [rbind]. rewrite Eq. cbn [rbind or_dtype]. reflexivity.
  - unfold dequantize. cbn [s_gran s_scale s_offset s_ddtype c_raw]. rewrite Sz, Ht. cbn [rbind].
    unfold dequantize_affine. cbn [c_raw]. rewrite Sz. change (resolve_tile (shape (d_val x)) ta) with tile.
    rewrite dequantize_expand; auto.
    + rewrite Sz. fold n. fold sc. fold of. rewrite Ev. cbn [rbind]. rewrite Hx. cbn [cast_num].
      rewrite tmap_id_in by reflexivity. reflexivity.
    + rewrite Sz. fold n. intros l Hl. destruct offset as [a|]; cbn in Hl; [|discriminate]. injection Hl as <-.
      rewrite Hx. apply as_tensor_lengths. auto.
    + rewrite Sz. fold n. rewrite Hx. now apply as_tensor_lengths.
  - cbn [c_raw d_val]. split; [exact Sz|]. split; [now rewrite Sv|].
    intros idx xv Hv Hxv k. rewrite Sz in Hd.
    pose proof (tile_row_lt _ _ _ Hd Hv) as Hk. change (k < n) in Hk.
    destruct (Fz idx xv Hv Hxv) as (s & zz & Hs' & Hz & Eqz). fold k in Hs', Eqz.
    destruct (Fv idx zz Hv Hz) as (s' & Hs2 & Hvv). fold k in Hs2, Hvv.
    rewrite Hs' in Hs2. injection Hs2 as <-.
    destruct (elem_spec _ _ _ _ _ Eqz) as (oz & Z1 & Z2 & Z3).
    assert (Eo : nth_offset of k = match offset with Some a => arg_at a k | None => None end).
    { unfold of. destruct offset as [a|]; cbn [option_map nth_offset]; [|reflexivity].
      rewrite Hx. apply as_tensor_at; auto. }
    exists s, zz, oz. rewrite <- Eo. split.
    { rewrite <- Hs'. unfold sc. rewrite Hx. symmetry. now apply as_tensor_at. }
    split; [exact Z1|]. split; [exact Z2|]. split; [exact Hz|]. rewrite Hvv, Z3. reflexivity.
Qed.
