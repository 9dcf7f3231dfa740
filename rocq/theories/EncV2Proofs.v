(** Proofs about 2.0.0 entries and the symmetry flag. *)
From Coq Require Import String.
From Verif Require Import Prelude TilingModel TilingSpec TilingProofs GranularityModel GranularityProofs
  AffineModel AffineSpec AffineProofs AffineTensorProofs EncModel EncSpec EncLpbqProofs EncProofs.
From Coq Require Import QArith Qabs Lqa Lia.
Local Open Scope nat_scope.
Local Open Scope list_scope.

(** ** The flag *)

Lemma off_zero oo ss : offsets_zero oo -> Forall (fun z => z = 0%Z) (off_z oo ss).
Proof.
  intros H. unfold off_z, infer_offsets. destruct oo as [os|].
  - specialize (H os eq_refl). apply Forall_forall. intros z I. apply in_map_iff in I as (o & <- & I).
    rewrite Forall_forall in H. now apply H.
  - apply Forall_forall. intros z I. apply in_map_iff in I as (o & <- & I). reflexivity.
Qed.

Lemma off_nonzero oo ss : offsets_nonzero oo -> Forall (fun z => z <> 0%Z) (off_z oo ss).
Proof.
  intros (os & -> & H). unfold off_z, infer_offsets. apply Forall_forall. intros z I.
  apply in_map_iff in I as (o & <- & I). rewrite Forall_forall in H. now apply H.
Qed.

Lemma sym_iff zs : sym_of zs = true <-> exists z, In z zs /\ z = 0%Z.
Proof.
  unfold sym_of. induction zs as [|z zs IH]; cbn [forallb].
  - split; [discriminate|intros (z & [] & _)].
  - destruct (Z.eqb_spec z 0) as [->|H]; cbn [negb andb].
    + split; [|auto]. intros _. exists 0%Z. split; [now left|reflexivity].
    + rewrite IH. split; intros (y & I & E); exists y; (split; [|exact E]).
      * now right. * destruct I as [->|I]; [contradiction|exact I].
Qed.

Lemma sym_zero e b ss oo s t : describes e b ss oo s t -> offsets_zero oo -> sym_of (off_z oo ss) = true.
Proof.
  intros D H. apply sym_iff. pose proof (off_length _ _ _ _ _ _ D) as HL. pose proof (off_zero oo ss H) as F.
  pose proof (grid_pos _ _ (d_positive _ _ _ _ _ _ D) (d_divides _ _ _ _ _ _ D)) as G.
  rewrite <- (d_scales _ _ _ _ _ _ D), <- HL in G. destruct (off_z oo ss) as [|z zs]; [cbn in G; lia|].
  exists z. split; [now left|]. now inversion F.
Qed.

Lemma sym_nonzero oo ss : offsets_nonzero oo -> sym_of (off_z oo ss) = false.
Proof.
  intros H. apply not_true_iff_false. rewrite sym_iff. intros (z & I & E).
  pose proof (off_nonzero oo ss H) as F. rewrite Forall_forall in F. exact (F z I E).
Qed.

(** ** Blocks *)

Definition dim_class (pc : list Z) (d : Z) (bs k n m : nat) : Prop :=
  (existsb (Z.eqb (Z.of_nat k)) pc = true /\ m = 1 /\ 1 < n /\ d <> Z.of_nat k) \/
  (existsb (Z.eqb (Z.of_nat k)) pc = false /\ d = Z.of_nat k /\ m = bs /\ 0 < bs) \/
  (existsb (Z.eqb (Z.of_nat k)) pc = false /\ d <> Z.of_nat k /\ m = n /\ 0 < n).

Lemma v2_shape_aux pc d bs s : forall t o, length s = length t ->
  (forall i, i < length s -> dim_class pc d bs (o + i) (nth i s 0) (nth i t 0)) ->
  rmapM (fun '(idx, size) =>
    if existsb (Z.eqb (Z.of_nat idx)) pc then Ok size
    else match find (fun '(d, _) => (d =? Z.of_nat idx)%Z) (combine [d] [bs]) with
         | Some (_, bs) => floordiv size bs
         | None => Ok 1
         end) (combine (seq o (length s)) s) = Ok (grid s t) /\
  forall idx, valid s idx -> v2_coords d bs o idx (grid s t) = tile_coord idx t.
Proof.
  induction s as [|n s IH]; intros [|m t] o HL H; try discriminate.
  - split; [reflexivity|]. intros idx V. inversion V. reflexivity.
  - destruct (IH t (S o)) as [IH1 IH2].
    { now injection HL. }
    { intros i Hi. specialize (H (S i)). cbn [length nth] in H. replace (S o + i) with (o + S i) by lia. apply H. lia. }
    specialize (H 0). cbn [length nth] in H. rewrite Nat.add_0_r in H. specialize (H ltac:(lia)).
    unfold grid, tile_coord, zipmap in *. cbn [length seq combine map rmapM] in *. rewrite IH1. clear IH1. split.
    + destruct H as [(-> & -> & _ & _)|[(-> & -> & -> & Hb)|(-> & Hd & -> & Hn)]]; cbn [find rbind].
      * rewrite Nat.div_1_r. reflexivity.
      * rewrite Z.eqb_refl. unfold floordiv. destruct (Nat.eqb_spec bs 0); [lia|]. reflexivity.
      * destruct (Z.eqb_spec d (Z.of_nat o)); [contradiction|]. cbn [rbind]. rewrite Nat.div_same by lia. reflexivity.
    + intros idx V. inversion V as [|i ? idx' ? Hi V']; subst. cbn [v2_coords combine map]. rewrite IH2 by exact V'.
      f_equal. unfold v2_coord.
      destruct H as [(_ & -> & Hn & Hd)|[(_ & -> & -> & Hb)|(_ & Hd & -> & Hn)]].
      * destruct (Z.eqb_spec (Z.of_nat o) d); [congruence|]. rewrite !Nat.div_1_r.
        destruct (Nat.eqb_spec n 1); lia.
      * rewrite Z.eqb_refl. reflexivity.
      * destruct (Z.eqb_spec (Z.of_nat o) d); [congruence|]. rewrite Nat.div_same by lia.
        rewrite Nat.eqb_refl. rewrite Nat.div_small by exact Hi. reflexivity.
Qed.

Lemma existsb_map_nat k l : existsb (Z.eqb (Z.of_nat k)) (map Z.of_nat l) = existsb (Nat.eqb k) l.
Proof.
  induction l as [|a l IH]; [reflexivity|]. cbn [map existsb]. rewrite IH. f_equal.
  apply eq_true_iff_eq. rewrite Z.eqb_eq, Nat.eqb_eq. lia.
Qed.

Lemma v2_block_ok s t d bs pc st : Forall (fun n => 0 < n) s -> tile_divides s t ->
  granularity_from_sizes s t = PerBlock [d] [bs] pc st ->
  v2_block_parameter_shape s [d] [bs] pc = Ok (grid s t) /\
  forall idx, valid s idx -> v2_coords d bs 0 idx (grid s t) = tile_coord idx t.
Proof.
  intros P D E. pose proof (divides_length _ _ D) as HL. unfold granularity_from_sizes in E.
  destruct (size_eqb s t); [discriminate|]. destruct (forallb _ _); [discriminate|].
  injection E as E1 E2 E3 _.
  rewrite select_dims_eq in E1, E3 by (symmetry; lia). rewrite select_sizes_eq in E2 by (symmetry; lia).
  set (isb := fun d t : nat => negb ((t =? 1) || (t =? d))) in *.
  set (isc := fun d t : nat => (t =? 1) && (1 <? d)) in *.
  unfold v2_block_parameter_shape. apply v2_shape_aux; [lia|].
  intros i Hi. rewrite Nat.add_0_l. rewrite <- E3. unfold dim_class. rewrite existsb_map_nat, existsb_dims.
  pose proof (existsb_dims isb s t i) as B.
  assert (Li : (i <? length s) = true) by (now apply Nat.ltb_lt). rewrite Li in *. cbn [andb] in *.
  destruct (dims_where isb s t) as [|k [|]]; try discriminate. cbn [map] in E1, E2. injection E1 as <-. injection E2 as <-.
  cbn [existsb] in B. rewrite orb_false_r in B.
  destruct (tile_divides_nth s t i D Hi) as [Ht _].
  assert (Pn : 0 < nth i s 0). { rewrite Forall_forall in P. apply P. apply nth_In. exact Hi. }
  unfold isb, isc in *. destruct (Nat.eqb_spec i k) as [->|Hk].
  - right. left. symmetry in B. apply negb_true_iff, orb_false_iff in B as [B1 B2]. rewrite B1. auto.
  - symmetry in B. apply negb_false_iff, orb_true_iff in B as [B|B]; apply Nat.eqb_eq in B.
    + rewrite B. cbn [Nat.eqb andb]. destruct (Nat.ltb_spec 1 (nth i s 0)); [left|right; right];
        repeat split; auto; try lia.
    + right. right. split; [|repeat split; auto; lia]. rewrite B.
      destruct (Nat.eqb_spec (nth i s 0) 1) as [->|]; reflexivity.
Qed.

(** ** Decoding *)

Lemma v2_single name e p q h x : add_encoding (HV2 v2_init) name e p = Ok h ->
  build_encodings h q = [(name, EV2 x)] -> v2_build e = Ok x.
Proof.
  cbn [add_encoding]. unfold v2_add. destruct (v2_build e) as [en'|]; [|discriminate]. cbn [rbind].
  cbn; intros [= <-]; cbn; intros [= <-]; reflexivity.
Qed.

Lemma np_reshape_ok p s : prod s = length (pelems p) -> np_reshape p s = Ok (mkT s (pelems p)).
Proof. intros H. unfold np_reshape. rewrite H, Nat.eqb_refl. reflexivity. Qed.

Lemma v2_build_inv e b ss oo s t x : describes e b ss oo s t -> v2_build e = Ok x ->
  v2_bw x = b /\ v2_unsigned x = negb (sym_of (off_z oo ss)) /\
  (forall idx, valid s idx -> v2_value x (v2_scale x) idx = nth_error ss (tile_row s t idx)) /\
  (sym_of (off_z oo ss) = true -> v2_zero_point x = None) /\
  (sym_of (off_z oo ss) = false -> exists y, v2_zero_point x = Some y /\
     forall idx, valid s idx -> v2_value x y idx =
       option_map (fun z => match v2_block x with
                            | None => inject_Z (z - 2 ^ (Zpos b - 1))
                            | Some _ => inject_Z z end) (nth_error (off_z oo ss) (tile_row s t idx))).
Proof.
  intros D E. pose proof (d_positive _ _ _ _ _ _ D) as P. pose proof (d_divides _ _ _ _ _ _ D) as Dv.
  pose proof (off_length _ _ _ _ _ _ D) as HL. pose proof (d_scales _ _ _ _ _ _ D) as HS.
  unfold v2_build in E. rewrite (preprocess_eq _ _ _ _ _ _ D) in E.
  cbn [rbind p_scale p_qnn_offset p_offset p_shape p_tile p_symmetric p_bits piter] in E.
  destruct (granularity_from_sizes s t) as [|dims|dims sizes pc st|] eqn:G; try discriminate.
  - apply (tensor_inv _ _ P Dv) in G. subst t. rewrite (ones_grid _ P) in HS.
    destruct ss as [|sc [|]]; try discriminate. unfold pitem in E. cbn [pelems rbind] in E.
    destruct (off_z oo [sc]) as [|z [|]] eqn:Eo; try discriminate. cbn [map] in E.
    destruct (sym_of [z]) eqn:Es; cbn [rbind] in E.
    + injection E as <-. cbn [v2_bw v2_unsigned v2_scale v2_zero_point v2_value v2_block negb].
      split; [reflexivity|]. split; [reflexivity|]. split.
      { intros idx V. rewrite row_tensor by exact V. reflexivity. }
      split; [reflexivity|discriminate].
    + match type of E with Ok ?a = _ => assert (x = a) as -> by congruence end.
      cbn [v2_bw v2_unsigned v2_scale v2_zero_point v2_value v2_block negb].
      split; [reflexivity|]. split; [reflexivity|]. split.
      { intros idx V. rewrite row_tensor by exact V. reflexivity. }
      split; [discriminate|]. intros _. eexists. split; [reflexivity|]. intros idx V. cbn [v2_value].
      rewrite row_tensor by exact V. cbn [nth_error option_map]. rewrite int_of_sub. reflexivity.
  - destruct dims as [|[| |] [|]]; try discriminate. apply (channel_inv _ _ P Dv) in G as (d & r & -> & ->).
    destruct (sym_of (off_z oo ss)) eqn:Es.
    + injection E as <-. cbn [v2_bw v2_unsigned v2_scale v2_zero_point v2_axis v2_value v2_block negb].
      split; [reflexivity|]. split; [reflexivity|]. split.
      { intros idx V. apply valid_cons_inv in V as (i & idx' & -> & Hi & V). rewrite row_channel by now constructor. reflexivity. }
      split; [reflexivity|discriminate].
    + match type of E with Ok ?a = _ => assert (x = a) as -> by congruence end.
      cbn [v2_bw v2_unsigned v2_scale v2_zero_point v2_axis v2_value v2_block negb].
      split; [reflexivity|]. split; [reflexivity|]. split.
      { intros idx V. apply valid_cons_inv in V as (i & idx' & -> & Hi & V). rewrite row_channel by now constructor. reflexivity. }
      split; [discriminate|]. intros _. eexists. split; [reflexivity|]. intros idx V.
      apply valid_cons_inv in V as (i & idx' & -> & Hi & V). rewrite row_channel by now constructor.
      cbn [v2_value v2_axis]. change (nth (Z.to_nat 0) (i :: idx') 0) with i.
      rewrite !nth_error_map. destruct (nth_error (off_z oo ss) i); [|reflexivity]. cbn [option_map].
      rewrite int_of_sub. reflexivity.
  - destruct ((1 <? length dims) || (1 <? length sizes)) eqn:EL; [discriminate|].
    apply orb_false_iff in EL as [EL1 EL2]. apply Nat.ltb_ge in EL1, EL2.
    destruct dims as [|dd [|]]; cbn [length] in EL1; try discriminate; try lia.
    destruct sizes as [|bs [|]]; cbn [length] in EL2; try discriminate; try lia.
    destruct (v2_block_ok _ _ _ _ _ _ P Dv G) as [Hshape Hcoords]. rewrite Hshape in E. cbn [rbind] in E.
    rewrite !np_reshape_ok in E by (cbn [pelems]; rewrite ?map_length; lia). cbn [rbind pelems] in E.
    injection E as <-. cbn [v2_bw v2_unsigned v2_scale v2_zero_point v2_axis v2_value v2_block negb shape].
    split; [reflexivity|]. split; [reflexivity|]. split.
    { intros idx V. unfold at_index. cbn [shape data]. rewrite Hcoords by exact V. reflexivity. }
    split; [intros ->; reflexivity|]. intros ->. eexists. split; [reflexivity|]. intros idx V. cbn [v2_value v2_axis v2_block shape].
    unfold at_index. cbn [shape data]. rewrite Hcoords by exact V. rewrite nth_error_map. reflexivity.
Qed.

Lemma v2_decodes e b ss oo s t name p q h x :
  describes e b ss oo s t -> offsets_zero oo \/ offsets_nonzero oo /\ v2_block x = None ->
  add_encoding (HV2 v2_init) name e p = Ok h -> build_encodings h q = [(name, EV2 x)] ->
  v2_bw x = b /\
  forall y w idx z v, wf y -> shape y = s -> dequantize_by_tile y ss (Tile t) oo = Ok w ->
    valid s idx -> at_index y idx = Some z -> at_index w idx = Some v -> v2_decode x idx z v.
Proof.
  intros D HO A B. apply (v2_single _ _ _ _ _ _ A) in B.
  destruct (v2_build_inv _ _ _ _ _ _ _ D B) as (Hb & Hu & Hs & Hz0 & Hz1). split; [exact Hb|].
  intros y w idx z v W Hsh E V Hz Hv.
  destruct (deq_at _ _ _ _ _ _ _ _ _ _ _ D W Hsh E V Hz Hv) as (sc & H1 & H2 & H3 & ->).
  unfold v2_decode. exists sc. rewrite Hs by exact V. split; [exact H1|].
  destruct HO as [HO|[HO HB]].
  - pose proof (sym_zero _ _ _ _ _ _ D HO) as Sy. rewrite (Hz0 Sy). rewrite Hu, Sy. split; [reflexivity|].
    pose proof (off_zero oo ss HO) as F. rewrite Forall_forall in F. rewrite (F _ (nth_error_In _ _ H3)).
    unfold QofZ. change (inject_Z 0) with 0%Q. ring.
  - pose proof (sym_nonzero oo ss HO) as Sy. destruct (Hz1 Sy) as (yz & -> & Hy).
    eexists. rewrite Hy by exact V. rewrite H3. split; [reflexivity|]. rewrite HB. rewrite Hu, Sy, Hb. split; [reflexivity|].
    rewrite (decode_eq b). unfold qnn_decode, QofZ, Z.sub. rewrite inject_Z_plus, inject_Z_opp. reflexivity.
Qed.
