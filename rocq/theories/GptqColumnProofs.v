(** Proofs about the column quantizer of GPTQ. *)
From Verif Require Import Prelude TilingModel TilingSpec TilingProofs GranularityModel GranularitySpec GranularityProofs
  AffineModel AffineSpec AffineProofs AffineTensorProofs FuseModel FuseSpec FuseFloatProofs GptqModel GptqSpec.
From Coq Require Import QArith.
Local Open Scope nat_scope.

Lemma tile_row2 rows cols a b r c : tile_row [rows; cols] [a; b] [r; c] = r / a * (cols / b) + c / b.
Proof. unfold tile_row, grid, tile_coord, zipmap, prod. cbn [combine map ravel fold_right]. unfold prod. cbn [fold_right]. lia. Qed.

Lemma prod2 a b : prod [a; b] = a * b.
Proof. unfold prod. cbn [fold_right]. lia. Qed.

Lemma grid2 rows cols a b : prod (grid [rows; cols] [a; b]) = rows / a * (cols / b).
Proof. unfold grid, zipmap. cbn [combine map]. apply prod2. Qed.

Lemma fits_divides rows cols tile q : fits_matrix rows cols tile q -> tile_divides [rows; cols] tile.
Proof.
  intros (R & C & _ & G & (ta & T & <-) & _).
  apply (granularity_compatible (q_gran q) [rows; cols] ta); auto.
Qed.

Lemma tile_two rows cols tile : tile_divides [rows; cols] tile ->
  exists a b, tile = [a; b] /\ 0 < a /\ 0 < b /\ Nat.divide a rows /\ Nat.divide b cols.
Proof.
  intros D. inversion D as [|? a ? t1 [A1 A2] D1]; subst. inversion D1 as [|? b ? t2 [B1 B2] D2]; subst. inversion D2; subst. eauto 10.
Qed.

Lemma div_lt a r n : 0 < a -> Nat.divide a n -> r < n -> r / a < n / a.
Proof. intros A [k ->] H. rewrite Nat.div_mul by lia. apply Nat.div_lt_upper_bound; lia. Qed.

Lemma nth_error_flat_repeat {A} (f : nat -> A) rb n r : 0 < rb -> r < n * rb ->
  nth_error (flat_map (fun k => repeat (f k) rb) (seq 0 n)) r = Some (f (r / rb)).
Proof.
  intros P. 
  assert (G : forall m a, r < m * rb -> nth_error (flat_map (fun k => repeat (f k) rb) (seq a m)) r = Some (f (a + r / rb))).
  { clear - P. revert r. intros r m. revert r. induction m as [|m IH]; intros r a H; [lia|]. cbn [seq flat_map].
    destruct (Nat.lt_ge_cases r rb) as [L|L].
    - rewrite nth_error_app1 by (rewrite repeat_length; exact L).
      rewrite (Nat.div_small r rb L), Nat.add_0_r. now apply nth_error_repeat.
    - rewrite nth_error_app2 by (rewrite repeat_length; exact L). rewrite repeat_length, IH by lia. do 2 f_equal.
      replace r with ((r - rb) + 1 * rb) at 2 by lia. rewrite Nat.div_add by lia. lia. }
  intros H. rewrite (G n 0 H). reflexivity.
Qed.

Lemma flat_repeat_length {A} (f : nat -> A) rb a n : length (flat_map (fun k => repeat (f k) rb) (seq a n)) = n * rb.
Proof. revert a. induction n as [|n IH]; intros a; [reflexivity|]. cbn [seq flat_map]. rewrite app_length, repeat_length, IH. lia. Qed.

(** The entries selected for a column are those of the tiles of its elements. *)
Lemma column_params_spec rows cols tile q v col :
  fits_matrix rows cols tile q -> length v = length (q_scale q) -> col < cols ->
  exists l, column_params (q_gran q) rows cols v col = Ok l /\ length l = rows /\
    forall r, r < rows -> nth_error l r = nth_error v (tile_row [rows; cols] tile [r; col]).
Proof.
  intros F Lv Hc. pose proof (fits_divides _ _ _ _ F) as D. destruct (tile_two _ _ _ D) as (a & b & -> & A & B & Da & Db).
  destruct F as (R & C & Sg & Rg & (ta & T & Rt) & L & _). rewrite grid2 in L. rewrite L in Lv. clear L.
  assert (Blk : forall g, g = q_gran q -> (match g with PerBlock _ _ _ s => s = true | PerTile _ => True | _ => False end) ->
    exists l, column_params g rows cols v col = Ok l /\ length l = rows /\
      forall r, r < rows -> nth_error l r = nth_error v (tile_row [rows; cols] [a; b] [r; col])).
  { intros g Eg K.
    assert (X : column_params g rows cols v col =
       let? (rb, cb) := block_sides g rows cols in
       if (rb =? 0) || (cb =? 0) then Err ZeroDivisionError else
       if negb (length v =? (rows / rb) * (cols / cb)) then Err RuntimeError else
       if cols / cb <=? col / cb then Err IndexError else
       Ok (flat_map (fun r => repeat (nth (r * (cols / cb) + col / cb) v 0%Q) rb) (seq 0 (rows / rb)))).
    { destruct g as [| | ? ? ? s|]; try contradiction; [now subst s|reflexivity]. }
    rewrite X. unfold block_sides. rewrite Eg, T. cbn [rbind]. rewrite Rt. cbn [rbind].
    rewrite (proj2 (Nat.eqb_neq a 0)), (proj2 (Nat.eqb_neq b 0)) by lia. cbn [orb]. rewrite Lv, Nat.eqb_refl. cbn [negb].
    pose proof (div_lt b col cols B Db Hc) as Hb. rewrite (proj2 (Nat.leb_gt (cols / b) (col / b)) Hb).
    eexists. split; [reflexivity|]. rewrite flat_repeat_length.
    assert (Er : rows / a * a = rows) by (destruct Da as [k ->]; now rewrite Nat.div_mul by lia).
    split; [exact Er|]. intros r Hr. rewrite nth_error_flat_repeat by (try exact A; now rewrite Er). rewrite tile_row2.
    symmetry. apply nth_error_nth'. rewrite Lv. pose proof (div_lt a r rows A Da Hr). nia. }
  destruct (q_gran q) as [|dims| ? ? ? s|t] eqn:G; [| |apply (Blk _ eq_refl); destruct s; [reflexivity|contradiction]|apply (Blk _ eq_refl); exact I].
  - cbn in T. injection T as <-. cbn in Rt. injection Rt as <- <-.
    rewrite !Nat.div_same in Lv by lia. destruct v as [|x [|]]; try discriminate. cbn [column_params].
    eexists. split; [reflexivity|]. rewrite repeat_length. split; [reflexivity|]. intros r Hr.
    rewrite nth_error_repeat by exact Hr. rewrite tile_row2, (Nat.div_small r rows), (Nat.div_small col cols) by lia. reflexivity.
  - cbn [supported] in Sg.
    assert (K : dims = [0%Z] \/ dims = [1%Z] \/ dims = [0%Z; 1%Z]).
    { destruct dims as [|[|p|p] ds]; try contradiction.
      - destruct ds as [|[|p'|p'] ds']; try contradiction; [auto|]. destruct p'; try contradiction. destruct ds'; [auto|contradiction].
      - destruct p; try contradiction. destruct ds; [auto|contradiction]. }
    destruct K as [->|[->| ->]]; cbn in T; injection T as <-; cbn in Rt; injection Rt as <- <-; cbn [column_params].
    + rewrite Nat.div_1_r, Nat.div_same in Lv by lia. rewrite (proj2 (Nat.eqb_eq (length v) rows)) by lia.
      eexists. split; [reflexivity|]. split; [lia|]. intros r Hr. rewrite tile_row2, Nat.div_1_r, Nat.div_same, (Nat.div_small col cols) by lia.
      f_equal. lia.
    + rewrite Nat.div_1_r, Nat.div_same in Lv by lia.
      destruct (nth_error_lt_some v col) as [x Hx]; [lia|]. rewrite Hx. eexists. split; [reflexivity|]. rewrite repeat_length. split; [reflexivity|].
      intros r Hr. rewrite nth_error_repeat by exact Hr. rewrite tile_row2, !Nat.div_1_r, (Nat.div_small r rows) by lia. cbn [Nat.mul Nat.add]. now symmetry.
    + rewrite !Nat.div_1_r in Lv. rewrite (proj2 (Nat.eqb_eq (length v) (rows * cols))) by lia.
      eexists. split; [reflexivity|]. rewrite map_length, seq_length. split; [reflexivity|]. intros r Hr. rewrite tile_row2, !Nat.div_1_r.
      rewrite nth_error_map, nth_error_nth' with (d := 0) by now rewrite seq_length. rewrite seq_nth by exact Hr. cbn [option_map Nat.add].
      symmetry. apply nth_error_nth'. nia.
Qed.

(** A successful quantization divides by no zero scale. *)
Lemma rowwise_ok {A B P} (f : P -> A -> result B) t ps n m d :
  shape t = [n; m] -> length ps = n -> length (data t) = n * m -> 0 < m -> rowwise f t ps = Ok d ->
  forall i p, nth_error ps i = Some p -> exists a b, f p a = Ok b.
Proof.
  intros Sh Lp Ld Pm H i p Hi. unfold rowwise in H. rewrite Sh, Lp, Nat.eqb_refl in H. cbn [orb] in H.
  assert (Hn : i < n) by (rewrite <- Lp; apply nth_error_Some; congruence).
  assert (Er : (if n =? 1 then n else n) = n) by now destruct (n =? 1). rewrite Er in H.
  destruct (rmapM _ (list_prod (seq 0 n) (seq 0 m))) as [d'|] eqn:R; [|discriminate].
  assert (In (i, 0) (list_prod (seq 0 n) (seq 0 m))) as I by (apply in_prod; apply in_seq; lia).
  apply In_nth_error in I. destruct I as [k Hk].
  destruct (rmapM_nth _ _ _ _ _ R Hk) as (b & _ & Hb). cbn beta iota in Hb.
  assert (E1 : (if n =? 1 then 0 else i) = i) by (destruct (Nat.eqb_spec n 1); lia). rewrite E1, Hi in Hb.
  destruct (nth_error (data t) (i * m + 0)) as [a|]; [|discriminate]. exists a, b. exact Hb.
Qed.

Lemma quantize_by_tile_nz t scale ta b out off res :
  wf t -> numel t <> 0 -> tile_divides (shape t) (resolve_tile (shape t) ta) ->
  length scale = prod (grid (shape t) (resolve_tile (shape t) ta)) ->
  quantize_by_tile t scale ta b out off = Ok res ->
  (forall s, In s scale -> ~ (s == 0)%Q) /\ can_support_bitwidth out b = true.
Proof.
  intros Hw Hn D L H. unfold quantize_by_tile in H.
  destruct (tiling_round_trip t ta Hw D) as (rows & Er & _).
  destruct (rows_are_tiles t ta rows Hw Hn D Er) as (Wr & Sr & _).
  rewrite Er in H. cbn [rbind] in H.
  destruct (rowwise (fun s x => qdiv x s) rows scale) as [d|] eqn:Rw; [|discriminate]. cbn [rbind] in H.
  split.
  - intros s Is. apply In_nth_error in Is. destruct Is as [i Hi].
    set (tile := resolve_tile (shape t) ta) in *.
    assert (Pm : 0 < prod tile) by (eapply divides_prod_pos; exact D).
    destruct (rowwise_ok (fun s x => qdiv x s) rows scale (prod (grid (shape t) tile)) (prod tile) d) with (i := i) (p := s) as (a & b' & X); auto.
    + unfold wf in Wr. rewrite Wr, Sr. apply prod2.
    + cbn beta in X. apply qdiv_ok in X. tauto.
  - destruct (rowwise _ d _) as [u|]; [|discriminate]. cbn [rbind] in H. destruct (rows_to_tiles _ _ _) as [r|]; [|discriminate]. cbn [rbind] in H.
    now destruct (can_support_bitwidth out b).
Qed.

Lemma column_shape n : tile_size (PerChannel [0%Z]) [n; 1] = Ok (Tile [1; 1]).
Proof. reflexivity. Qed.

Lemma column_index {A} n (x : list A) r : at_index (mkT [n; 1] x) [r; 0] = nth_error x r.
Proof. unfold at_index. cbn [data shape ravel]. unfold prod. cbn [fold_right]. f_equal. lia. Qed.

Lemma column_divides n : tile_divides [n; 1] [1; 1].
Proof. constructor; [split; [lia|exists n; lia]|]. constructor; [split; [lia|exists 1; reflexivity]|constructor]. Qed.

Lemma column_row n r : tile_row [n; 1] [1; 1] [r; 0] = r.
Proof. rewrite tile_row2, !Nat.div_1_r. lia. Qed.

Section Column.
  Variables (rows cols : nat) (tile : list nat) (q : quantizer) (col : nat) (x : list Q).
  Hypothesis Hf : fits_matrix rows cols tile q.
  Hypothesis Hx : length x = rows.
  Hypothesis Hc : col < cols.

  Lemma column_offsets : exists o,
    match q_offset q with
    | None => Ok None
    | Some v => rmap Some (column_params (q_gran q) rows cols v col)
    end = Ok o /\ (forall l, o = Some l -> length l = rows) /\
    forall r, r < rows -> nth_offset o r = offset_of rows cols tile q r col.
  Proof.
    unfold offset_of. destruct (q_offset q) as [v|] eqn:E.
    - destruct (column_params_spec rows cols tile q v col Hf) as (l & -> & L & N); [|exact Hc|].
      { destruct Hf as (_ & _ & _ & _ & _ & _ & O). now apply O. }
      exists (Some l). split; [reflexivity|]. split; [intros l' X; now injection X as <-|]. intros r Hr. cbn [nth_offset]. now apply N.
    - exists None. split; [reflexivity|]. split; [discriminate|]. intros; reflexivity.
  Qed.

  Lemma column_quantizer_affine : exists l o,
    column_quantizer q rows cols col x =
      rmap data (affine_qdq Exact (mkAffine l o (Tile [1; 1]) (q_bits q) (q_out q)) (mkT [rows; 1] x)) /\
    length l = rows /\ (forall v, o = Some v -> length v = rows) /\
    (forall r, r < rows -> nth_error l r = scale_of rows cols tile q r col /\ nth_offset o r = offset_of rows cols tile q r col).
  Proof.
    destruct (column_params_spec rows cols tile q (q_scale q) col Hf eq_refl Hc) as (l & E & L & N).
    destruct column_offsets as (o & Eo & Lo & No). exists l, o.
    unfold column_quantizer. rewrite E. cbn [rbind]. rewrite Eo. cbn [rbind]. rewrite column_shape. cbn [rbind]. rewrite Hx.
    split; [destruct (affine_qdq _ _ _); reflexivity|]. split; [exact L|]. split; [exact Lo|].
    intros r Hr. split; [now apply N|now apply No].
  Qed.

  Lemma column_elements l o y : length l = rows -> (forall v, o = Some v -> length v = rows) ->
    (forall s, In s l -> ~ (s == 0)%Q) -> can_support_bitwidth (q_out q) (q_bits q) = true ->
    affine_qdq Exact (mkAffine l o (Tile [1; 1]) (q_bits q) (q_out q)) (mkT [rows; 1] x) = Ok y ->
    length (data y) = rows /\ forall r, r < rows -> exists s z, nth_error l r = Some s /\
      quantize_elem s (nth_offset o r) (q_bits q) (nth r x 0%Q) = Ok z /\
      nth r (data y) 0%Q = dequantize_elem s (nth_offset o r) z.
  Proof.
    intros L Lo Nz Cs H. set (a := mkAffine l o (Tile [1; 1]) (q_bits q) (q_out q)) in *.
    assert (R : 0 < rows) by (destruct Hf; assumption).
    assert (F : fits [rows; 1] a).
    { unfold fits, a. cbn [a_tile a_scale a_offset a_bits a_out resolve_tile]. rewrite prod2.
      split; [lia|]. split; [apply column_divides|]. split; [rewrite grid2, !Nat.div_1_r; lia|].
      split; [intros v E; rewrite L; now apply Lo|]. split; [exact Nz|exact Cs]. }
    assert (Lx : length (data (mkT [rows; 1] x)) = prod [rows; 1]) by (cbn [data]; rewrite prod2; lia).
    destruct (affine_codes _ a (mkT [rows; 1] x) F eq_refl Lx) as (z & Ez & Sz & Wz & G).
    destruct (affine_values _ a z F Sz Wz) as (v & Ev & Sv & Wv & G').
    unfold affine_qdq in H. rewrite Ez in H. cbn [rbind] in H. rewrite Ev in H. cbn [rbind] in H. injection H as <-.
    unfold tmap. cbn [data cast]. rewrite map_length. unfold wf in Wv. rewrite Wv, Sv, prod2. split; [lia|].
    intros r Hr. assert (V : valid [rows; 1] [r; 0]) by (constructor; [exact Hr|constructor; [lia|constructor]]).
    destruct (nth_error_lt_some x r) as [xr Hxr]; [lia|].
    destruct (G [r; 0] xr V) as (s & c & A & B & C); [now rewrite column_index|].
    destruct (G' [r; 0] c V B) as (s' & A' & B'). cbn [a_tile a resolve_tile] in *. rewrite column_row in *.
    rewrite A in A'. injection A' as <-. exists s, c. split; [exact A|]. rewrite (nth_error_nth x r 0%Q Hxr). split; [exact C|].
    destruct v as [sv dv]. cbn [shape data] in *. subst sv. rewrite column_index in B'.
    rewrite (nth_error_nth _ r 0%Q (x := dequantize_elem s (nth_offset (a_offset a) r) c)); [reflexivity|].
    rewrite nth_error_map, B'. reflexivity.
  Qed.

  Lemma column_quantizer_spec' y : column_quantizer q rows cols col x = Ok y ->
    can_support_bitwidth (q_out q) (q_bits q) = true /\
    length y = rows /\ forall r, r < rows -> snaps rows cols tile q r col (nth r x 0%Q) (nth r y 0%Q).
  Proof.
    destruct column_quantizer_affine as (l & o & -> & L & Lo & N). intros H.
    destruct (affine_qdq Exact _ _) as [t|] eqn:E; [|discriminate]. cbn [rmap] in H. injection H as <-.
    assert (K : (forall s, In s l -> ~ (s == 0)%Q) /\ can_support_bitwidth (q_out q) (q_bits q) = true).
    { unfold affine_qdq in E. cbn [a_scale a_tile a_bits a_out a_offset] in E.
      destruct (quantize_by_tile _ _ _ _ _ _) as [z|] eqn:Q; [|discriminate].
      assert (R : 0 < rows) by (destruct Hf; assumption).
      eapply quantize_by_tile_nz; [| | | |exact Q]; cbn [shape resolve_tile].
      - unfold wf. cbn [data shape]. rewrite prod2. lia.
      - unfold numel. cbn [data]. lia.
      - apply column_divides.
      - rewrite grid2, !Nat.div_1_r. lia. }
    destruct K as [Nz Cs]. destruct (column_elements l o t L Lo Nz Cs E) as [Ly G]. split; [exact Cs|]. split; [exact Ly|].
    intros r Hr. destruct (G r Hr) as (s & z & A & B & C). destruct (N r Hr) as [N1 N2]. exists s, z.
    rewrite <- N1, <- N2. auto.
  Qed.

  Lemma column_quantizer_spec y : column_quantizer q rows cols col x = Ok y ->
    length y = rows /\ forall r, r < rows -> snaps rows cols tile q r col (nth r x 0%Q) (nth r y 0%Q).
  Proof. intros H. now apply column_quantizer_spec'. Qed.

  Lemma column_quantizer_supported y : column_quantizer q rows cols col x = Ok y -> can_support_bitwidth (q_out q) (q_bits q) = true.
  Proof. intros H. now apply column_quantizer_spec' in H. Qed.

  Lemma column_quantizer_total :
    (forall r s, r < rows -> scale_of rows cols tile q r col = Some s -> ~ (s == 0)%Q) ->
    can_support_bitwidth (q_out q) (q_bits q) = true -> exists y, column_quantizer q rows cols col x = Ok y.
  Proof.
    intros Nz Cs. destruct column_quantizer_affine as (l & o & -> & L & Lo & N).
    assert (R : 0 < rows) by (destruct Hf; assumption).
    destruct (affine_qdq_total Exact [rows; 1] (mkAffine l o (Tile [1; 1]) (q_bits q) (q_out q)) (mkT [rows; 1] x)) as (v & -> & _).
    - unfold fits. cbn [a_tile a_scale a_offset a_bits a_out resolve_tile]. rewrite prod2.
      split; [lia|]. split; [apply column_divides|]. split; [rewrite grid2, !Nat.div_1_r; lia|].
      split; [intros v E; rewrite L; now apply Lo|]. split; [|exact Cs].
      intros s Is. apply In_nth_error in Is. destruct Is as [r Hr].
      assert (r < rows) by (rewrite <- L; apply nth_error_Some; congruence). apply (Nz r s); [assumption|].
      rewrite <- (proj1 (N r H)). exact Hr.
    - reflexivity.
    - cbn [data]. rewrite prod2. lia.
    - cbn. eauto.
  Qed.
End Column.
