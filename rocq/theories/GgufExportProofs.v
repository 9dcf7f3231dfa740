(** Proofs about the whole GGUF weight export. *)
From Coq Require Import String Ascii.
From Verif Require Import Prelude TilingModel TilingSpec TilingProofs GranularityModel AffineModel AffineSpec
  AffineProofs AffineTensorProofs GgufModel GgufSpec GgufHalfProofs GgufPackProofs GgufRopeProofs GgufNameProofs.
From Coq Require Import QArith Lqa.
Local Open Scope nat_scope.
Local Open Scope list_scope.

(** ** Extraction *)

Lemma extract_in a f ps xs p w : extract a f ps = Ok xs -> In p ps -> p_data p = Some w ->
  a_map a (p_name p) <> None -> a_tied a (p_name p) = false ->
  exists x, extract_one f (p_name p) w (p_quantizer p) = Ok x /\ In x xs.
Proof.
  intros E Hin Hd Hm Ht. revert xs E. induction ps as [|p0 ps IH]; intros xs E; [easy|].
  cbn [extract] in E. destruct Hin as [->|Hin].
  - destruct (a_map a (p_name p)); [|congruence]. rewrite Hd, Ht in E.
    apply rbind_ok in E as (x & Ex & E). apply rbind_ok in E as (xs' & _ & E). injection E as <-.
    exists x. split; [exact Ex|now left].
  - specialize (IH Hin). destruct (a_map a (p_name p0)); [|now apply IH].
    destruct (p_data p0); [|now apply IH]. destruct (a_tied a (p_name p0)); [now apply IH|].
    apply rbind_ok in E as (x & _ & E). apply rbind_ok in E as (xs' & E' & E). injection E as <-.
    destruct (IH _ E') as (y & A & B). exists y. split; [exact A|now right].
Qed.

Lemma extract_one_name f n w oq x : extract_one f n w oq = Ok x -> x_hf x = n.
Proof.
  unfold extract_one. destruct oq as [q|].
  - intros H. apply rbind_ok in H as (? & _ & H). apply rbind_ok in H as (? & _ & H).
    destruct (shape w) as [|r [|c [|]]]; try discriminate. destruct (r =? 0); [discriminate|].
    destruct (negb _); [discriminate|]. now injection H as <-.
  - destruct (shape w); [discriminate|]. intros [= <-]. reflexivity.
Qed.

(** Extracted names form a sublist of the parameter names. *)
Lemma extract_names a f ps xs : extract a f ps = Ok xs ->
  (forall n, In n (map x_hf xs) -> In n (map p_name ps)) /\
  (NoDup (map p_name ps) -> NoDup (map x_hf xs)).
Proof.
  revert xs. induction ps as [|p ps IH]; intros xs E; cbn [extract] in E.
  - injection E as <-. split; [easy|constructor].
  - assert (Skip : extract a f ps = Ok xs -> (forall n, In n (map x_hf xs) -> In n (map p_name (p :: ps))) /\
        (NoDup (map p_name (p :: ps)) -> NoDup (map x_hf xs))).
    { intros E'. destruct (IH _ E') as [A B]. split.
      - intros n Hn. right. auto.
      - intros N. inversion N; subst. auto. }
    destruct (a_map a (p_name p)); [|now apply Skip]. destruct (p_data p); [|now apply Skip].
    destruct (a_tied a (p_name p)); [now apply Skip|].
    apply rbind_ok in E as (x & Ex & E). apply rbind_ok in E as (xs' & E' & E). injection E as <-.
    apply extract_one_name in Ex. destruct (IH _ E') as [A B]. cbn [map]. rewrite Ex. split.
    + intros n [<-|Hn]; [now left|right; auto].
    + intros N. inversion N; subst. constructor; [|auto]. intros H. apply A in H. contradiction.
Qed.

(** ** Transforms and names *)

Lemma transforms_hf ts f x x' : (forall t y y', In t ts -> t f y = Ok y' -> x_hf y' = x_hf y) ->
  apply_transforms ts f x = Ok x' -> x_hf x' = x_hf x.
Proof.
  revert x. induction ts as [|t ts IH]; intros x H E; cbn [apply_transforms] in E.
  - now injection E as ->.
  - apply rbind_ok in E as (y & Ey & E). rewrite (IH y).
    + eapply H; [now left|exact Ey].
    + intros t' z z' Ht. apply H. now right.
    + exact E.
Qed.

Lemma rope_hf h kv f x x' : llama_rope_permute h kv f x = Ok x' -> x_hf x' = x_hf x.
Proof.
  assert (P : forall idx bs, apply_row_permute x idx bs = Ok x' -> x_hf x' = x_hf x).
  { intros idx bs. unfold apply_row_permute. destruct (x_body x); [|discriminate].
    destruct (bs =? 0); [discriminate|]. destruct (negb _); [discriminate|]. intros H.
    apply rbind_ok in H as (? & _ & H). apply rbind_ok in H as (? & _ & H). apply rbind_ok in H as (? & _ & H).
    apply rbind_ok in H as (? & _ & H). now injection H as <-. }
  unfold llama_rope_permute. destruct (x_body x) eqn:Eb; [|now intros [= <-]].
  destruct (layer_match _ (x_hf x)).
  - intros H. apply rbind_ok in H as (? & _ & H). eapply P; exact H.
  - destruct (layer_match _ (x_hf x)).
    + intros H. apply rbind_ok in H as (? & _ & H). eapply P; exact H.
    + now intros [= <-].
Qed.

Lemma names_in a xs x : In x (stage_names a xs) ->
  exists y g, In y xs /\ a_map a (x_hf y) = Some g /\ x = mkX (x_hf y) (x_rows y) (x_body y) g.
Proof.
  unfold stage_names. rewrite in_flat_map. intros (y & Hy & H). destruct (a_map a (x_hf y)) as [g|] eqn:E; [|easy].
  destruct H as [<-|[]]. exists y, g. auto.
Qed.

Lemma names_nodup a xs : NoDup (map x_hf xs) ->
  (forall n m g, In n (map x_hf xs) -> In m (map x_hf xs) -> a_map a n = Some g -> a_map a m = Some g -> n = m) ->
  NoDup (map x_gguf (stage_names a xs)).
Proof.
  induction xs as [|x xs IH]; intros N Inj; [constructor|]. cbn [map] in N. inversion N as [|? ? N1 N2]; subst.
  unfold stage_names. cbn [flat_map]. fold (stage_names a xs).
  assert (IH' : NoDup (map x_gguf (stage_names a xs))).
  { apply IH; [exact N2|]. intros n m g Hn Hm. apply Inj; now right. }
  destruct (a_map a (x_hf x)) as [g|] eqn:E; [|exact IH'].
  cbn [app map x_gguf]. constructor; [|exact IH'].
  intros H. apply in_map_iff in H as (y & Ey & Hy). apply names_in in Hy as (z & g' & Hz & Ez & ->).
  cbn in Ey. subst g'. apply N1. rewrite (Inj (x_hf x) (x_hf z) g); [now apply in_map|now left|right; now apply in_map|exact E|exact Ez].
Qed.

(** ** Packing stage *)

Lemma assoc_dict_set {V} k k' (v : V) d :
  assoc_str k (dict_set k' v d) = if String.eqb k k' then Some v else assoc_str k d.
Proof.
  induction d as [|[k0 v0] d IH]; cbn [dict_set assoc_str]; [reflexivity|].
  destruct (String.eqb_spec k' k0) as [->|N]; cbn [assoc_str].
  - destruct (String.eqb_spec k k0); reflexivity.
  - rewrite IH. destruct (String.eqb_spec k k0) as [->|]; [|reflexivity].
    destruct (String.eqb_spec k0 k'); [congruence|reflexivity].
Qed.

Lemma stage_pack_frame f xs qd fd qd' fd' k : stage_pack f xs qd fd = Ok (qd', fd') ->
  ~ In k (map x_gguf xs) -> assoc_str k qd' = assoc_str k qd /\ assoc_str k fd' = assoc_str k fd.
Proof.
  revert qd fd. induction xs as [|x xs IH]; intros qd fd E N; cbn [stage_pack] in E.
  - now injection E as <- <-.
  - cbn [map] in N. assert (Nx : String.eqb k (x_gguf x) = false).
    { apply String.eqb_neq. intros ->. apply N. now left. }
    assert (N' : ~ In k (map x_gguf xs)) by (intros H; apply N; now right).
    destruct (x_body x) as [cols codes scales|t].
    + apply rbind_ok in E as (p & _ & E). destruct (IH _ _ E N') as [A B].
      rewrite A, B, assoc_dict_set, Nx. auto.
    + destruct (IH _ _ E N') as [A B]. rewrite A, B, assoc_dict_set, Nx. auto.
Qed.

Lemma stage_pack_lookup f xs qd fd qd' fd' x : stage_pack f xs qd fd = Ok (qd', fd') ->
  NoDup (map x_gguf xs) -> In x xs ->
  match x_body x with
  | XQ _ codes scales => exists p, pack_tensor f (x_rows x) codes scales = Ok p /\ assoc_str (x_gguf x) qd' = Some p
  | XF t => assoc_str (x_gguf x) fd' = Some t
  end.
Proof.
  revert qd fd. induction xs as [|y xs IH]; intros qd fd E N Hin; [easy|]. cbn [stage_pack] in E.
  cbn [map] in N. inversion N as [|? ? N1 N2]; subst.
  destruct Hin as [->|Hin].
  - destruct (x_body x) as [cols codes scales|t].
    + apply rbind_ok in E as (p & Ep & E). exists p. split; [exact Ep|].
      destruct (stage_pack_frame _ _ _ _ _ _ _ E N1) as [-> _]. now rewrite assoc_dict_set, String.eqb_refl.
    + destruct (stage_pack_frame _ _ _ _ _ _ _ E N1) as [_ ->]. now rewrite assoc_dict_set, String.eqb_refl.
  - destruct (x_body y) as [cols codes scales|t].
    + apply rbind_ok in E as (p & Ep & E). eapply IH; eassumption.
    + eapply IH; eassumption.
Qed.

(** Nothing but the named tensors is written. *)
Lemma stage_pack_keys f xs qd fd qd' fd' : stage_pack f xs qd fd = Ok (qd', fd') ->
  forall k, (assoc_str k qd' <> None \/ assoc_str k fd' <> None) ->
    (assoc_str k qd <> None \/ assoc_str k fd <> None) \/ In k (map x_gguf xs).
Proof.
  intros E k H. destruct (in_dec string_dec k (map x_gguf xs)) as [Hin|N]; [now right|].
  destruct (stage_pack_frame _ _ _ _ _ _ _ E N) as [A B]. rewrite A, B in H. now left.
Qed.

(** ** The whole export, for any adapter whose transforms keep the parameter name *)

Definition keeps_names (a : adapter) (f : quant_format) : Prop :=
  forall t y y', In t (a_transforms a) -> t f y = Ok y' -> x_hf y' = x_hf y.

Lemma export_lookup a f ps qd fd p w g :
  export_gguf a f ps = Ok (qd, fd) -> keeps_names a f -> NoDup (map p_name ps) ->
  (forall n m g, In n (map p_name ps) -> In m (map p_name ps) -> a_map a n = Some g -> a_map a m = Some g -> n = m) ->
  In p ps -> p_data p = Some w -> a_map a (p_name p) = Some g -> a_tied a (p_name p) = false ->
  exists x x', extract_one f (p_name p) w (p_quantizer p) = Ok x /\
    apply_transforms (a_transforms a) f x = Ok x' /\
    match x_body x' with
    | XQ _ codes scales => exists rs, pack_tensor f (x_rows x') codes scales = Ok rs /\ assoc_str g qd = Some rs
    | XF t => assoc_str g fd = Some t
    end.
Proof.
  intros E K N Inj Hin Hd Hm Ht. unfold export_gguf in E.
  apply rbind_ok in E as (xs & Ex & E). apply rbind_ok in E as (ts & Et & E).
  destruct (extract_in _ _ _ _ _ _ Ex Hin Hd ltac:(congruence) Ht) as (x & E1 & Hx).
  destruct (extract_names _ _ _ _ Ex) as [Sub Nx]. specialize (Nx N).
  unfold stage_transform in Et.
  assert (Hts : map x_hf ts = map x_hf xs).
  { clear -Et K. revert ts Et. induction xs as [|y xs IH]; intros ts Et; cbn [rmapM] in Et.
    - now injection Et as <-.
    - apply rbind_ok in Et as (y' & Ey & Et). apply rbind_ok in Et as (ys & Eys & Et). injection Et as <-.
      cbn [map]. rewrite (IH _ Eys). f_equal. eapply transforms_hf; [|exact Ey]. intros t z z' H. now apply K. }
  apply In_nth_error in Hx as [i Hi]. destruct (rmapM_nth _ _ _ _ _ Et Hi) as (x' & Ei & Ex').
  exists x, x'. split; [exact E1|]. split; [exact Ex'|].
  assert (Hhf : x_hf x' = p_name p).
  { rewrite (transforms_hf (a_transforms a) f x x'); [now apply extract_one_name in E1|intros t z z' H; now apply K|exact Ex']. }
  apply nth_error_In in Ei.
  assert (Hn : In (mkX (x_hf x') (x_rows x') (x_body x') g) (stage_names a ts)).
  { unfold stage_names. apply in_flat_map. exists x'. split; [exact Ei|]. rewrite Hhf, Hm. now left. }
  assert (ND : NoDup (map x_gguf (stage_names a ts))).
  { apply names_nodup; [now rewrite Hts|]. rewrite Hts. intros n m g' Hn' Hm'. apply Inj; now apply Sub. }
  pose proof (stage_pack_lookup _ _ _ _ _ _ _ E ND Hn) as L. cbn [x_body x_rows x_gguf] in L. exact L.
Qed.

(** ** A validated quantizer has one scale per 32 columns of a row *)

Lemma validated_tile q f : validate_quantizer q f = Ok tt ->
  w_bits q = f_bits f /\ (f_symmetric f = true -> w_symmetric q = true) /\
  forall rows cols ta, tile_size (w_gran q) [rows; cols] = Ok ta -> ta = Tile [1; f_block f] /\ f_block f <= cols.
Proof.
  unfold validate_quantizer. destruct (f_symmetric f && negb (w_symmetric q)) eqn:E1; [discriminate|].
  destruct (negb (f_symmetric f) && w_symmetric q); [discriminate|].
  destruct (negb (w_bits q =? f_bits f)%positive) eqn:E2; [discriminate|].
  destruct (w_gran q) as [| |dims sizes pc strict|]; try discriminate.
  destruct (negb (list_eqb Z.eqb dims [1%Z] && list_eqb Z.eqb pc [0%Z])) eqn:E3; [discriminate|].
  destruct (negb (existsb (Nat.eqb (f_block f)) sizes)) eqn:E4; [discriminate|]. intros _.
  split; [apply negb_false_iff, Pos.eqb_eq in E2; exact E2|]. split.
  { intros S. rewrite S in E1. cbn in E1. now apply negb_false_iff in E1. }
  apply negb_false_iff in E3, E4. apply andb_prop in E3 as [D P].
  assert (LE : forall l v, list_eqb Z.eqb l [v] = true -> l = [v]).
  { intros l v H. now apply (list_eqb_eq Z.eqb Z.eqb_eq). }
  apply LE in D, P. subst dims pc.
  intros rows cols ta H. cbn [tile_size length] in H.
  destruct sizes as [|b [|b' sizes]]; cbn [length Nat.eqb negb] in H; try discriminate.
  cbn [existsb] in E4. rewrite orb_false_r in E4. apply Nat.eqb_eq in E4. subst b.
  change (set_dims_1 [0%Z] [rows; cols]) with (Ok [1; cols]) in H. cbn [rbind set_blocks] in H.
  change (py_get [rows; cols] 1%Z) with (Ok cols) in H. cbn [rbind] in H.
  destruct (Nat.ltb_spec cols (f_block f)) as [|E5]; [discriminate|].
  destruct (strict && (f_block f =? 0)); [discriminate|].
  destruct (strict && negb (cols mod f_block f =? 0)); [discriminate|].
  change (py_set [1; cols] 1%Z (f_block f)) with (Ok [1; f_block f]) in H. cbn [rbind rmap] in H.
  injection H as <-. split; [reflexivity|exact E5].
Qed.

Lemma rows_to_tiles_len {A} (q t : tensor A) size ta : rows_to_tiles q size ta = Ok t ->
  shape t = size /\ length (data t) = prod size.
Proof.
  assert (R : forall (u : tensor A), reshape u size = Ok t -> shape t = size /\ length (data t) = prod size).
  { intros u. unfold reshape. destruct (Nat.eqb_spec (prod size) (length (data u))) as [E|]; [|discriminate].
    intros [= <-]. now split. }
  unfold rows_to_tiles. destruct (numel q =? 0); [now apply R|].
  intros H. apply rbind_ok in H as (_ & _ & H). destruct (prod _ =? 0); [discriminate|].
  destruct (negb _); [discriminate|]. apply rbind_ok in H as (nb & _ & H).
  destruct (omapM _ _); [|discriminate]. apply rbind_ok in H as (a & _ & H). apply rbind_ok in H as (c & _ & H).
  now apply (R c).
Qed.

Lemma quantize_by_tile_len t scale ta b out off res : quantize_by_tile t scale ta b out off = Ok res ->
  shape res = shape t /\ length (data res) = prod (shape t) /\ can_support_bitwidth out b = true.
Proof.
  unfold quantize_by_tile. intros H.
  apply rbind_ok in H as (r & _ & H). apply rbind_ok in H as (d & _ & H). apply rbind_ok in H as (u & _ & H).
  apply rbind_ok in H as (res' & Hr & H). destruct (can_support_bitwidth out b) eqn:E; [|discriminate].
  injection H as ->. destruct (rows_to_tiles_len _ _ _ _ Hr). auto.
Qed.

Lemma quantize_by_tile_divides t scale rows cols bs b out off res : 0 < bs -> 0 < rows -> bs <= cols ->
  shape t = [rows; cols] -> wf t ->
  quantize_by_tile t scale (Tile [1; bs]) b out off = Ok res -> exists n, cols = n * bs.
Proof.
  intros Hb Hr Hc Hs W H. unfold quantize_by_tile in H. apply rbind_ok in H as (r & H & _).
  unfold tiles_to_rows in H.
  assert (Hn : numel t <> 0).
  { unfold numel. rewrite W, Hs, !prod_cons. unfold prod. cbn [fold_right]. nia. }
  destruct (Nat.eqb_spec (numel t) 0) as [|_]; [contradiction|].
  apply rbind_ok in H as (u0 & H & _). rewrite Hs in H. cbn [resolve_tile] in H.
  unfold check_tile_compatibility in H. cbn [length Nat.eqb negb combine forallb] in H.
  replace (0 <? bs) with true in H by (symmetry; now apply Nat.ltb_lt).
  destruct (Nat.eqb_spec (cols mod bs) 0) as [E|]; cbn in H.
  - exists (cols / bs). pose proof (Nat.div_mod cols bs ltac:(lia)). nia.
  - rewrite ?andb_false_r in H. destruct (match rows mod 1 with 0 => true | S _ => false end); cbn in H; discriminate.
Qed.

Lemma extract_one_quantized f n w q x : 0 < f_block f -> wf w -> extract_one f n w (Some q) = Ok x ->
  exists rows k codes, shape w = [rows; k * f_block f] /\ 0 < rows /\ 0 < k /\ w_quantize q w = Ok codes /\
    quantize_by_tile w (w_scale q) (Tile [1; f_block f]) (f_bits f) (w_out q) (w_offset q) = Ok codes /\
    shape codes = shape w /\ length (data codes) = rows * (k * f_block f) /\
    can_support_bitwidth (w_out q) (f_bits f) = true /\
    x = mkX n rows (XQ (k * f_block f) (data codes) (w_scale q)) "".
Proof.
  intros Hb W H. unfold extract_one in H. apply rbind_ok in H as ([] & Hv & H).
  apply rbind_ok in H as (codes & Hq & H). destruct (shape w) as [|rows [|cols [|]]] eqn:Es; try discriminate.
  destruct (Nat.eqb_spec rows 0) as [|Hr]; [discriminate|]. destruct (negb _); [discriminate|]. injection H as <-.
  destruct (validated_tile _ _ Hv) as (Hbits & _ & T).
  pose proof Hq as Hq0. unfold w_quantize in Hq. rewrite Es in Hq. apply rbind_ok in Hq as (ta & Hta & Hq).
  destruct (T _ _ _ Hta) as [-> Hle]. rewrite Hbits in Hq.
  assert (Hrp : 0 < rows) by lia.
  destruct (quantize_by_tile_divides _ _ _ _ _ _ _ _ _ Hb Hrp Hle Es W Hq) as (k & ->).
  destruct (quantize_by_tile_len _ _ _ _ _ _ _ Hq) as (S & L & C).
  assert (0 < k) by nia.
  exists rows, k, codes. repeat split; try assumption; try lia; try reflexivity.
  - now rewrite S.
  - rewrite L, Es, !prod_cons. unfold prod. cbn [fold_right]. lia.
Qed.

Lemma tile_row_2d rows k bs r c : 0 < bs -> tile_row [rows; k * bs] [1; bs] [r; c] = r * k + c / bs.
Proof.
  intros H. unfold tile_row, grid, tile_coord, zipmap. cbn [combine map ravel].
  rewrite !Nat.div_1_r, Nat.div_mul by lia. rewrite !prod_cons. unfold prod. cbn [fold_right]. lia.
Qed.

Lemma tile_divides_2d rows k bs : 0 < bs -> tile_divides [rows; k * bs] [1; bs].
Proof.
  intros H. constructor; [|constructor; [|constructor]]; split; try lia.
  - exists rows. lia.
  - now exists k.
Qed.

(** The dequantized weight, code by code. *)
Lemma dequantized_2d (codes : tensor Z) scale rows k bs : 0 < bs -> 0 < rows -> 0 < k ->
  shape codes = [rows; k * bs] -> length (data codes) = rows * (k * bs) -> length scale = rows * k ->
  exists deq, dequantize_by_tile codes scale (Tile [1; bs]) None = Ok deq /\ shape deq = [rows; k * bs] /\
    forall r c z s, r < rows -> c < k * bs -> nth_error (data codes) (r * (k * bs) + c) = Some z ->
      nth_error scale (r * k + c / bs) = Some s -> at_index deq [r; c] = Some ((inject_Z z + 0) * s)%Q.
Proof.
  intros Hb Hr Hk Hs Hl Hsc.
  destruct (dequantize_by_tile_elementwise codes scale (Tile [1; bs]) None) as (deq & E & S & W & A).
  - unfold wf. rewrite Hs, !prod_cons. unfold prod. cbn [fold_right]. lia.
  - unfold numel. rewrite Hl. nia.
  - rewrite Hs. cbn [resolve_tile]. now apply tile_divides_2d.
  - rewrite Hs. cbn [resolve_tile]. unfold grid, zipmap. cbn [combine map].
    rewrite Nat.div_1_r, Nat.div_mul by lia. rewrite !prod_cons. unfold prod. cbn [fold_right]. lia.
  - discriminate.
  - exists deq. split; [exact E|]. split; [congruence|].
    intros r c z s Hrr Hc Hz Hss. rewrite Hs in A.
    destruct (A [r; c] z) as (s' & Es & V).
    + constructor; [exact Hrr|constructor; [exact Hc|constructor]].
    + unfold at_index. rewrite Hs. cbn [ravel]. rewrite !prod_cons. unfold prod. cbn [fold_right].
      rewrite <- Hz. f_equal. lia.
    + cbn [resolve_tile] in Es, V. rewrite tile_row_2d in Es by exact Hb. rewrite Hss in Es. injection Es as <-.
      rewrite V. unfold dequantize_elem, nth_offset, infer_offset. reflexivity.
Qed.

(** ** Rows after the transforms *)

Definition row_map_ok (rows k bs : nat) (codes codes' : list Z) (scales scales' : list Q) (m : nat -> nat) : Prop :=
  length codes' = rows * (k * bs) /\ length scales' = rows * k /\
  forall r, r < rows -> m r < rows /\
    (forall c, c < k * bs -> nth_error codes' (r * (k * bs) + c) = nth_error codes (m r * (k * bs) + c)) /\
    (forall b, b < k -> nth_error scales' (r * k + b) = nth_error scales (m r * k + b)).

Lemma rope_row_map h f x x' rows k codes scales : 0 < f_block f ->
  x_body x = XQ (k * f_block f) codes scales -> x_rows x = rows -> length codes = rows * (k * f_block f) ->
  (let? idx := rope_permute_row_index (x_rows x) h in apply_row_permute x idx (f_block f)) = Ok x' ->
  exists codes' scales', x' = mkX (x_hf x) rows (XQ (k * f_block f) codes' scales') (x_gguf x) /\
    length scales = rows * k /\
    row_map_ok rows k (f_block f) codes codes' scales scales' (rope_source (rows / h)).
Proof.
  intros Hb Eb Er Lc H. apply rbind_ok in H as (idx & Ei & H). rewrite Er in Ei.
  assert (Hh : 0 < h /\ rows mod (h * 2) = 0).
  { unfold rope_permute_row_index in Ei. destruct (Nat.eqb_spec (h * 2) 0); [discriminate|].
    destruct (Nat.eqb_spec (rows mod (h * 2)) 0); [|discriminate]. lia. }
  destruct Hh as [Hh Hm]. destruct (rope_index_spec rows h Hh Hm) as (l & El & Ll & Nl & Pl).
  rewrite El in Ei. injection Ei as <-.
  assert (F : Forall (fun i => i < rows) l).
  { apply Forall_forall. intros i Hi. apply (Permutation.Permutation_in _ Pl) in Hi. apply in_seq in Hi. lia. }
  assert (Ls : length scales = rows * k).
  { unfold apply_row_permute in H. rewrite Eb in H. destruct (f_block f =? 0); [discriminate|].
    destruct (negb _); [discriminate|]. apply rbind_ok in H as (? & _ & H). apply rbind_ok in H as (? & H & _).
    unfold reshape_rows in H. rewrite Nat.div_mul in H by lia. rewrite Er in H.
    destruct (Nat.eqb_spec (length scales) (rows * k)); [assumption|discriminate]. }
  destruct (apply_row_permute_spec x (k * f_block f) codes scales l (f_block f) k Eb Hb eq_refl)
    as (codes' & scales' & E & Lc' & Ls' & Nc & Ns); try (rewrite Er; assumption).
  rewrite E in H. injection H as <-. exists codes', scales'. rewrite Er. split; [reflexivity|]. split; [exact Ls|].
  split; [lia|]. split; [lia|]. intros r Hr. specialize (Nl r Hr). split.
  - rewrite Forall_forall in F. apply F. eapply nth_error_In; exact Nl.
  - split; [intros c Hc; now apply Nc|intros b Hb'; now apply Ns].
Qed.

Lemma id_row_map rows k bs codes scales : length codes = rows * (k * bs) -> length scales = rows * k ->
  row_map_ok rows k bs codes codes scales scales (fun r => r).
Proof. intros A B. repeat split; try assumption. Qed.
