(** Proofs about exported encodings: decoding. *)
From Coq Require Import String.
From Verif Require Import Prelude TilingModel TilingSpec TilingProofs GranularityModel GranularityProofs
  AffineModel AffineSpec AffineProofs AffineTensorProofs EncModel EncSpec EncLpbqProofs.
From Coq Require Import QArith Qabs Lqa Lia.
Local Open Scope nat_scope.
Local Open Scope list_scope.

(** ** Preprocessing *)

Definition off_z (oo : option (list Q)) (ss : list Q) : list Z := infer_offsets oo ss.
Definition sym_of (zs : list Z) : bool := negb (forallb (fun z => negb (Z.eqb z 0)) zs).

Lemma qeq_bool_z z : Qeq_bool (QofZ z) 0 = (z =? 0)%Z.
Proof.
  apply eq_true_iff_eq. rewrite Qeq_bool_iff, Z.eqb_eq. unfold QofZ, Qeq, inject_Z. cbn. lia.
Qed.

Lemma preprocess_eq e b ss oo s t : describes e b ss oo s t ->
  preprocess e = Ok (mkPP (Vec ss) (Vec (map QofZ (off_z oo ss)))
    (Vec (map (fun z => (QofZ z - QofZ (2 ^ (Zpos b - 1)))%Q) (off_z oo ss))) b (sym_of (off_z oo ss)) s t).
Proof.
  intros D. unfold preprocess. rewrite (d_shape _ _ _ _ _ _ D), (d_tile _ _ _ _ _ _ D), (d_bits _ _ _ _ _ _ D),
    (d_scale _ _ _ _ _ _ D), (d_offset _ _ _ _ _ _ D). cbn [to_size rbind strict_cast_to_int].
  assert (E : pmap (fun o => QofZ (round_half_even o))
                (match option_map Vec oo with Some o => o | None => pmap (fun _ => 0%Q) (Vec ss) end)
              = Vec (map QofZ (off_z oo ss))).
  { unfold off_z, infer_offsets. destruct oo as [os|]; cbn [option_map pmap]; rewrite !map_map; reflexivity. }
  rewrite E. cbn [pmap pelems]. rewrite map_map. do 2 f_equal. unfold sym_of. f_equal.
  clear. induction (off_z oo ss) as [|z l IH]; [reflexivity|]. cbn [map forallb]. rewrite IH, qeq_bool_z. reflexivity.
Qed.

Lemma off_length e b ss oo s t : describes e b ss oo s t -> length (off_z oo ss) = length ss.
Proof.
  intros D. unfold off_z, infer_offsets. destruct oo as [os|]; rewrite map_length; [|reflexivity].
  exact (d_offsets _ _ _ _ _ _ D os eq_refl).
Qed.

Lemma off_nth oo ss i : i < length ss -> (forall os, oo = Some os -> length os = length ss) ->
  nth_error (off_z oo ss) i = Some (infer_offset (nth_offset oo i)).
Proof.
  intros Hi HO. unfold off_z, infer_offsets, nth_offset. destruct oo as [os|]; rewrite nth_error_map.
  - specialize (HO os eq_refl). destruct (nth_error_lt_some os i) as (o & Ho); [lia|]. rewrite Ho. reflexivity.
  - destruct (nth_error_lt_some ss i Hi) as (o & Ho). rewrite Ho. reflexivity.
Qed.

Lemma grid_pos s t : Forall (fun n => 0 < n) s -> tile_divides s t -> 0 < prod (grid s t).
Proof.
  intros P D. induction D as [|n m s t [Hm [q Hq]] D IH]; [unfold grid, zipmap, prod; cbn; lia|].
  inversion P; subst. unfold grid, zipmap in *. cbn [combine map]. rewrite prod_cons, Nat.div_mul by lia.
  specialize (IH H2). nia.
Qed.

(** The dequantized value of an element. *)
Lemma deq_at e b ss oo s t (x : tensor Z) w idx z v : describes e b ss oo s t ->
  wf x -> shape x = s -> dequantize_by_tile x ss (Tile t) oo = Ok w ->
  valid s idx -> at_index x idx = Some z -> at_index w idx = Some v ->
  exists sc, nth_error ss (tile_row s t idx) = Some sc /\ tile_row s t idx < length ss /\
    nth_error (off_z oo ss) (tile_row s t idx) = Some (infer_offset (nth_offset oo (tile_row s t idx))) /\
    v = ((QofZ z + QofZ (infer_offset (nth_offset oo (tile_row s t idx)))) * sc)%Q.
Proof.
  intros D W Hs E V Hz Hv. subst s.
  destruct (dequantize_by_tile_elementwise x ss (Tile t) oo) as (res & Er & _ & _ & H).
  - exact W.
  - unfold numel. rewrite W. clear - V. intros E.
    assert (0 < prod (shape x)); [|lia]. pose proof (ravel_lt _ _ V). lia.
  - exact (d_divides _ _ _ _ _ _ D).
  - exact (d_scales _ _ _ _ _ _ D).
  - exact (d_offsets _ _ _ _ _ _ D).
  - rewrite E in Er. injection Er as <-. destruct (H idx z V Hz) as (sc & Hsc & Hw). cbn [resolve_tile] in Hsc, Hw.
    exists sc. assert (L : tile_row (shape x) t idx < length ss) by (apply nth_error_Some; congruence).
    split; [exact Hsc|]. split; [exact L|]. split; [apply off_nth; [exact L|exact (d_offsets _ _ _ _ _ _ D)]|].
    rewrite Hv in Hw. injection Hw as ->. reflexivity.
Qed.

Lemma decode_eq b sc o z :
  ((QofZ z + QofZ o) * sc == qnn_decode sc (QofZ o - QofZ (2 ^ (Zpos b - 1))) (stored b z))%Q.
Proof.
  unfold qnn_decode, stored, QofZ. rewrite inject_Z_plus. ring.
Qed.

Lemma int_of_sub a b : int_of (QofZ a - QofZ b)%Q = (a - b)%Z.
Proof. unfold int_of, QofZ, inject_Z, Qminus, Qplus, Qopp. cbn. rewrite Z.quot_1_r. lia. Qed.

(** ** 1.0.0 *)

Lemma valid_cons_inv n s idx : valid (n :: s) idx -> exists i idx', idx = i :: idx' /\ i < n /\ valid s idx'.
Proof. intros V. inversion V; subst. eauto. Qed.

Lemma v1_position_ok s t idx k : Forall (fun n => 0 < n) s -> tile_divides s t -> valid s idx ->
  match k with
  | K_per_tensor => granularity_from_sizes s t = PerTensor
  | K_per_channel => granularity_from_sizes s t = PerChannel [0%Z]
  | K_per_block bs => exists d pc st, granularity_from_sizes s t = PerBlock [d] [bs] [pc] st /\
                        (d = 1 /\ pc = 0 \/ d = 0 /\ pc = 1)%Z
  end ->
  tile_row s t idx = v1_position k s t idx.
Proof.
  intros P D V H. destruct k as [| |bs]; cbn [v1_position].
  - apply (tensor_inv _ _ P D) in H as <-. now apply row_tensor.
  - apply (channel_inv _ _ P D) in H as (d & r & -> & ->).
    apply valid_cons_inv in V as (i & idx' & -> & Hi & V). apply row_channel. now constructor.
  - destruct H as (d & pc & st & G & C).
    destruct (block_inv _ _ _ _ _ _ P D G C) as (l & chans & blks & bs' & rest & [= <-] & Hb & -> & -> & ->).
    assert (exists i j idx', idx = i :: j :: idx') as (i & j & idx' & ->).
    { destruct l; cbn in V; inversion V as [|? ? ? ? _ V1]; inversion V1; subst; eauto. }
    rewrite row_blocks by assumption. destruct l; cbn [lpbq_shape lpbq_tile nth block_at Nat.eqb].
    + rewrite Nat.div_mul by lia. reflexivity.
    + destruct (Nat.eqb_spec bs 1) as [->|]; [|reflexivity]. rewrite !Nat.div_1_r. reflexivity.
Qed.

Lemma v1_build_inv l e b ss oo s t k sym bw scale offset : describes e b ss oo s t ->
  v1_build l e = Ok (V1Plain k sym bw scale offset) ->
  bw = b /\ scale = ss /\ sym = sym_of (off_z oo ss) /\
  offset = map (fun z => (QofZ z - QofZ (2 ^ (Zpos b - 1)))%Q) (off_z oo ss) /\
  match k with
  | K_per_tensor => granularity_from_sizes s t = PerTensor
  | K_per_channel => granularity_from_sizes s t = PerChannel [0%Z]
  | K_per_block bs => exists d pc st, granularity_from_sizes s t = PerBlock [d] [bs] [pc] st /\
                        (d = 1 /\ pc = 0 \/ d = 0 /\ pc = 1)%Z
  end.
Proof.
  intros D E. unfold v1_build in E. rewrite (preprocess_eq _ _ _ _ _ _ D) in E.
  cbn [rbind piter p_scale p_qnn_offset p_shape p_tile p_symmetric p_bits] in E.
  assert (PB : forall d pc sizes st, granularity_from_sizes s t = PerBlock [d] sizes [pc] st ->
     (d = 1 /\ pc = 0 \/ d = 0 /\ pc = 1)%Z ->
     handle_per_block l (mkPP (Vec ss) (Vec (map QofZ (off_z oo ss)))
       (Vec (map (fun z => (QofZ z - QofZ (2 ^ (Zpos b - 1)))%Q) (off_z oo ss))) b (sym_of (off_z oo ss)) s t)
       [d] sizes ss (map (fun z => (QofZ z - QofZ (2 ^ (Zpos b - 1)))%Q) (off_z oo ss)) = Ok (V1Plain k sym bw scale offset) ->
     bw = b /\ scale = ss /\ sym = sym_of (off_z oo ss) /\
     offset = map (fun z => (QofZ z - QofZ (2 ^ (Zpos b - 1)))%Q) (off_z oo ss) /\
     exists bs d pc st, k = K_per_block bs /\ granularity_from_sizes s t = PerBlock [d] [bs] [pc] st /\
                        (d = 1 /\ pc = 0 \/ d = 0 /\ pc = 1)%Z).
  { intros d pc sizes st G C H. unfold handle_per_block in H. cbn [length Nat.ltb Nat.leb orb] in H.
    destruct sizes as [|bs [|]]; cbn [length Nat.ltb Nat.leb] in H.
    - destruct l as [bws|]; [|discriminate]. destruct (generate_lpbq_encoding _ _); discriminate.
    - destruct l as [bws|]; [destruct (generate_lpbq_encoding _ _); discriminate|].
      cbn [p_symmetric p_bits] in H. injection H as <- <- <- <- <-. repeat split. exists bs, d, pc, st. auto.
    - discriminate. }
  destruct (granularity_from_sizes s t) as [|dims|dims sizes pc st|] eqn:G; try discriminate.
  - injection E as <- <- <- <- <-. auto.
  - destruct dims as [|[| |] [|]]; try discriminate. injection E as <- <- <- <- <-. auto.
  - destruct dims as [|[|[| |]|] [|]]; try discriminate; destruct pc as [|[|[| |]|] [|]]; try discriminate.
    + destruct (PB _ _ _ _ eq_refl (or_intror (conj eq_refl eq_refl)) E) as (A1 & A2 & A3 & A4 & bs & d & p & st' & -> & A5 & A6).
      repeat split; auto. exists d, p, st'. auto.
    + destruct (PB _ _ _ _ eq_refl (or_introl (conj eq_refl eq_refl)) E) as (A1 & A2 & A3 & A4 & bs & d & p & st' & -> & A5 & A6).
      repeat split; auto. exists d, p, st'. auto.
Qed.

Lemma v1_single l name e p h en : add_encoding (HV1 l v1_init) name e p = Ok h ->
  build_encodings h p = [(name, EV1 en)] -> v1_build l e = Ok en.
Proof.
  cbn [add_encoding]. unfold v1_add. destruct (v1_build l e) as [en'|]; [|discriminate]. cbn [rbind].
  destruct p; cbn; intros [= <-]; cbn; intros [= <-]; reflexivity.
Qed.

Lemma v1_decodes l e b ss oo s t name p h k sym bw scale offset :
  describes e b ss oo s t -> add_encoding (HV1 l v1_init) name e p = Ok h ->
  build_encodings h p = [(name, EV1 (V1Plain k sym bw scale offset))] ->
  bw = b /\ scale = ss /\ length offset = length ss /\
  forall x w idx z v, wf x -> shape x = s -> dequantize_by_tile x ss (Tile t) oo = Ok w ->
    valid s idx -> at_index x idx = Some z -> at_index w idx = Some v ->
    exists sc o, nth_error scale (v1_position k s t idx) = Some sc /\
      nth_error offset (v1_position k s t idx) = Some o /\ (v == qnn_decode sc o (stored b z))%Q.
Proof.
  intros D A B. apply (v1_single _ _ _ _ _ _ A) in B.
  destruct (v1_build_inv _ _ _ _ _ _ _ _ _ _ _ _ D B) as (-> & -> & -> & -> & G).
  split; [reflexivity|]. split; [reflexivity|]. split; [rewrite map_length; exact (off_length _ _ _ _ _ _ D)|].
  intros x w idx z v W Hs E V Hz Hv.
  destruct (deq_at _ _ _ _ _ _ _ _ _ _ _ D W Hs E V Hz Hv) as (sc & H1 & H2 & H3 & ->).
  rewrite <- (v1_position_ok s t idx k (d_positive _ _ _ _ _ _ D) (d_divides _ _ _ _ _ _ D) V G).
  exists sc. eexists. split; [exact H1|]. split; [rewrite nth_error_map, H3; reflexivity|]. apply decode_eq.
Qed.

(** ** Legacy *)

Lemma nth_error_combine' {A B} (a : list A) (b : list B) i x y :
  nth_error a i = Some x -> nth_error b i = Some y -> nth_error (combine a b) i = Some (x, y).
Proof.
  revert b i; induction a as [|a0 a IH]; intros [|b0 b] [|i] H H0; try discriminate; cbn in *; [congruence|auto].
Qed.

Lemma zip4 {A B C D} (a : list A) (b : list B) (c : list C) (d : list D) i x y z w :
  nth_error a i = Some x -> nth_error b i = Some y -> nth_error c i = Some z -> nth_error d i = Some w ->
  nth_error (combine a (combine b (combine c d))) i = Some (x, (y, (z, w))).
Proof.
  intros H H0 H1 H2. rewrite (nth_error_combine' _ _ _ _ _ H (nth_error_combine' _ _ _ _ _ H0 (nth_error_combine' _ _ _ _ _ H1 H2))).
  reflexivity.
Qed.

Lemma pbroadcast_same f l m : length l = length m ->
  pbroadcast f (Vec l) (Vec m) = Ok (Vec (map (fun '(x, y) => f x y) (combine l m))).
Proof.
  intros HL. destruct l as [|x [|x' l]], m as [|y [|y' m]]; try discriminate; try reflexivity.
  cbn [pbroadcast]. rewrite HL, Nat.eqb_refl. reflexivity.
Qed.

Lemma legacy_single name e p h es : add_encoding (HLegacy legacy_init) name e p = Ok h ->
  build_encodings h p = [(name, ELegacy es)] -> legacy_build e = Ok es.
Proof.
  cbn [add_encoding]. unfold legacy_add. destruct (legacy_build e) as [en'|]; [|discriminate]. cbn [rbind].
  destruct p; cbn; intros [= <-]; cbn; intros [= <-]; reflexivity.
Qed.

Lemma legacy_position_ok s t idx n : Forall (fun n => 0 < n) s -> tile_divides s t -> valid s idx ->
  n = prod (grid s t) ->
  granularity_from_sizes s t = PerTensor \/ granularity_from_sizes s t = PerChannel [0%Z] ->
  tile_row s t idx = legacy_position n idx.
Proof.
  intros P D V -> [G|G]; unfold legacy_position.
  - apply (tensor_inv _ _ P D) in G as <-. rewrite (ones_grid _ P). now apply row_tensor.
  - apply (channel_inv _ _ P D) in G as (d & r & -> & ->).
    apply valid_cons_inv in V as (i & idx' & -> & Hi & V).
    rewrite row_channel by now constructor. unfold grid, zipmap. cbn [combine map].
    change (map (fun '(x, y) => x / y) (combine r r)) with (grid r r).
    rewrite prod_cons, (ones_grid r (forall_pos_valid _ _ V)), Nat.div_1_r, Nat.mul_1_r.
    destruct (Nat.eqb_spec d 1); cbn [nth]; lia.
Qed.

Lemma legacy_decodes e b ss oo s t name p h es :
  describes e b ss oo s t -> add_encoding (HLegacy legacy_init) name e p = Ok h ->
  build_encodings h p = [(name, ELegacy es)] ->
  length es = length ss /\
  (forall en, In en es -> le_bw en = b /\
     (le_min en == qnn_decode (le_scale en) (inject_Z (le_offset en)) 0)%Q /\
     (le_max en == qnn_decode (le_scale en) (inject_Z (le_offset en)) (2 ^ Zpos b - 1))%Q) /\
  forall x w idx z v, wf x -> shape x = s -> dequantize_by_tile x ss (Tile t) oo = Ok w ->
    valid s idx -> at_index x idx = Some z -> at_index w idx = Some v ->
    exists en, nth_error es (legacy_position (length es) idx) = Some en /\
      (v == qnn_decode (le_scale en) (inject_Z (le_offset en)) (stored b z))%Q.
Proof.
  intros D A B. apply (legacy_single _ _ _ _ _ A) in B. unfold legacy_build in B.
  rewrite (preprocess_eq _ _ _ _ _ _ D) in B. cbn [rbind p_shape p_tile] in B.
  assert (G : granularity_from_sizes s t = PerTensor \/ granularity_from_sizes s t = PerChannel [0%Z]).
  { destruct (granularity_from_sizes s t) as [|[|[| |] [|]]| |]; try discriminate; auto. }
  assert (B' : (let? (mn, mx) := quantization_range_t (Vec ss) (Vec (map QofZ (off_z oo ss))) b in
      let? mns := piter mn in let? mxs := piter mx in
      Ok (map (fun '(s, (o, (a, b'))) => mkLE b (sym_of (off_z oo ss)) a b' (int_of o) s)
          (combine ss (combine (map (fun z => (QofZ z - QofZ (2 ^ (Zpos b - 1)))%Q) (off_z oo ss)) (combine mns mxs))))) = Ok es).
  { destruct (granularity_from_sizes s t) as [|[|[| |] [|]]| |]; try discriminate; exact B. }
  clear B. unfold quantization_range_t in B'.
  pose proof (off_length _ _ _ _ _ _ D) as HL.
  rewrite !pbroadcast_same in B' by (rewrite map_length; exact HL). cbn [rbind piter] in B'. injection B' as <-.
  assert (NTH : forall i sc z, nth_error ss i = Some sc -> nth_error (off_z oo ss) i = Some z ->
    nth_error (map (fun '(s, (o, (a, b'))) => mkLE b (sym_of (off_z oo ss)) a b' (int_of o) s)
      (combine ss (combine (map (fun z => (QofZ z - QofZ (2 ^ (Zpos b - 1)))%Q) (off_z oo ss))
        (combine (map (fun '(x, y) => (QofZ (integer_minimum b) + x) * y)%Q (combine (map QofZ (off_z oo ss)) ss))
                 (map (fun '(x, y) => (QofZ (integer_maximum b) + x) * y)%Q (combine (map QofZ (off_z oo ss)) ss)))))) i =
    Some (mkLE b (sym_of (off_z oo ss)) ((QofZ (integer_minimum b) + QofZ z) * sc)%Q
            ((QofZ (integer_maximum b) + QofZ z) * sc)%Q (z - 2 ^ (Zpos b - 1)) sc)).
  { intros i sc z Hs Hz. rewrite nth_error_map.
    assert (C : nth_error (combine (map QofZ (off_z oo ss)) ss) i = Some (QofZ z, sc))
      by (apply nth_error_combine'; [rewrite nth_error_map, Hz; reflexivity|exact Hs]).
    rewrite (zip4 _ _ _ _ i sc (QofZ z - QofZ (2 ^ (Zpos b - 1)))%Q
      ((QofZ (integer_minimum b) + QofZ z) * sc)%Q ((QofZ (integer_maximum b) + QofZ z) * sc)%Q).
    - cbn [option_map]. rewrite int_of_sub. reflexivity.
    - exact Hs.
    - rewrite nth_error_map, Hz. reflexivity.
    - rewrite nth_error_map, C. reflexivity.
    - rewrite nth_error_map, C. reflexivity. }
  set (es := map _ _) in *.
  assert (LE : length es = length ss).
  { unfold es. rewrite map_length, !combine_length, !map_length, !combine_length, !map_length. lia. }
  split; [exact LE|]. split.
  - intros en I. apply In_nth_error in I as (i & Hi).
    assert (i < length ss) by (rewrite <- LE; apply nth_error_Some; congruence).
    destruct (nth_error_lt_some ss i H) as (sc & Hs).
    destruct (nth_error_lt_some (off_z oo ss) i) as (z & Hz); [lia|].
    rewrite (NTH i sc z Hs Hz) in Hi.
    match type of Hi with Some ?a = _ => assert (en = a) as -> by congruence end.
    cbn [le_bw le_min le_max le_scale le_offset]. split; [reflexivity|]. unfold integer_maximum, integer_minimum, qnn_decode, QofZ.
    assert (P : (2 ^ Zpos b = 2 * 2 ^ (Zpos b - 1))%Z).
    { rewrite <- Z.pow_succ_r by lia. f_equal. lia. }
    rewrite P. generalize (2 ^ (Zpos b - 1))%Z; intros q. unfold Z.sub. split; rewrite ?inject_Z_plus, ?inject_Z_opp, ?inject_Z_mult.
    + change (inject_Z 0) with 0%Q. ring.
    + change (inject_Z 1) with 1%Q. change (inject_Z 2) with (1 + 1)%Q. ring.
  - intros x w idx z v W Hs E V Hz Hv.
    destruct (deq_at _ _ _ _ _ _ _ _ _ _ _ D W Hs E V Hz Hv) as (sc & H1 & H2 & H3 & ->).
    rewrite LE. rewrite <- (legacy_position_ok s t idx _ (d_positive _ _ _ _ _ _ D) (d_divides _ _ _ _ _ _ D) V
      (d_scales _ _ _ _ _ _ D) G).
    eexists. split; [exact (NTH _ _ _ H1 H3)|]. cbn [le_scale le_offset]. rewrite (decode_eq b). unfold qnn_decode, QofZ.
    unfold Z.sub. rewrite inject_Z_plus, inject_Z_opp. ring.
Qed.
