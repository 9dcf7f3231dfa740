(** Lifting of element-wise facts to tensors quantized by tile. *)
From Verif Require Import Prelude TilingModel TilingSpec TilingProofs AffineModel AffineSpec AffineProofs.
From Coq Require Import QArith Qround Qabs Lqa.
Local Open Scope nat_scope.

Lemma nth_error_list_prod n m i j :
  i < n -> j < m -> nth_error (list_prod (seq 0 n) (seq 0 m)) (i * m + j) = Some (i, j).
Proof.
  intros Hi Hj.
  assert (G : forall n o i, i < n -> nth_error (list_prod (seq o n) (seq 0 m)) (i * m + j) = Some (o + i, j)).
  { clear i n Hi. induction n as [|n IH]; intros o i Hi; [lia|]. simpl list_prod.
    destruct i.
    - rewrite nth_error_app1 by (rewrite map_length, seq_length; lia).
      rewrite nth_error_map, (nth_error_nth' _ 0) by (rewrite seq_length; lia).
      rewrite seq_nth by lia. simpl. do 2 f_equal. lia.
    - rewrite nth_error_app2 by (rewrite map_length, seq_length; lia).
      rewrite map_length, seq_length. replace (S i * m + j - m) with (i * m + j) by lia.
      rewrite IH by lia. do 2 f_equal. lia. }
  rewrite G by assumption. reflexivity.
Qed.

Lemma rowwise_spec {A B P} (f : P -> A -> result B) r ps n m :
  wf r -> shape r = [n; m] -> length ps = n ->
  (forall p a, In p ps -> In a (data r) -> exists c, f p a = Ok c) ->
  exists r', rowwise f r ps = Ok r' /\ shape r' = [n; m] /\ wf r' /\
    forall i j, i < n -> j < m ->
      exists p a c, nth_error ps i = Some p /\ at_index r [i; j] = Some a /\
        at_index r' [i; j] = Some c /\ f p a = Ok c.
Proof.
  intros Hwf Hs Hk Hf.
  assert (Hlen : length (data r) = n * m).
  { unfold wf in Hwf. rewrite Hwf, Hs. unfold prod. simpl. lia. }
  unfold rowwise. rewrite Hs, Hk, Nat.eqb_refl. cbn [orb].
  assert (Hrows : (if n =? 1 then n else n) = n) by (destruct (n =? 1); reflexivity). rewrite Hrows.
  match goal with |- context [rmapM ?g _] => set (g0 := g) end.
  assert (Hg : forall i j, i < n -> j < m -> exists p a, nth_error ps i = Some p /\
            nth_error (data r) (i * m + j) = Some a /\ g0 (i, j) = f p a).
  { intros i j Hi Hj. destruct (nth_error_lt_some ps i) as [p Hp]; [lia|].
    destruct (nth_error_lt_some (data r) (i * m + j)) as [a Ha]; [nia|].
    exists p, a. split; [assumption|]. split; [assumption|]. unfold g0.
    destruct (n =? 1) eqn:E1.
    - assert (i = 0) by lia. subst i. rewrite Hp, Ha. reflexivity.
    - rewrite Hp, Ha. reflexivity. }
  destruct (rmapM_total g0 (list_prod (seq 0 n) (seq 0 m))) as [d Hd].
  { intros [i j] Hin. apply in_prod_iff in Hin. destruct Hin as [Hi Hj].
    apply in_seq in Hi. apply in_seq in Hj.
    destruct (Hg i j) as (p & a & Hp & Ha & E); [lia|lia|]. rewrite E.
    apply Hf; eapply nth_error_In; eauto. }
  rewrite Hd. simpl. eexists; split; [reflexivity|]. simpl. split; [reflexivity|]. split.
  - unfold wf; simpl. rewrite (rmapM_length _ _ _ Hd), prod_length, !seq_length. unfold prod. simpl. lia.
  - intros i j Hi Hj. destruct (Hg i j Hi Hj) as (p & a & Hp & Ha & E).
    destruct (rmapM_nth _ _ _ _ _ Hd (nth_error_list_prod n m i j Hi Hj)) as (c & Hc & Ec).
    exists p, a, c. unfold at_index. rewrite Hs. simpl. unfold prod; simpl.
    rewrite Nat.mul_1_r, Nat.mul_1_r, Nat.add_0_r.
    repeat split; auto. congruence.
Qed.

Lemma tmap_at {A B} (f : A -> B) (t : tensor A) idx :
  at_index (tmap f t) idx = option_map f (at_index t idx).
Proof. unfold at_index, tmap; simpl. apply nth_error_map. Qed.

Lemma tmap_wf {A B} (f : A -> B) (t : tensor A) : wf t -> wf (tmap f t).
Proof. unfold wf, tmap; simpl. now rewrite map_length. Qed.


Lemma tile_row_lt size tile idx : tile_divides size tile -> valid size idx -> tile_row size tile idx < prod (grid size tile).
Proof. intros. apply ravel_lt. now apply tile_coord_valid. Qed.
Lemma tile_col_lt size tile idx : tile_divides size tile -> valid size idx -> tile_col tile idx < prod tile.
Proof. intros. apply ravel_lt. now apply tile_offset_valid with size. Qed.

Lemma rows_to_tiles_at {A} (q : tensor A) size ta :
  wf q -> numel q <> 0 -> tile_divides size (resolve_tile size ta) ->
  shape q = [prod (grid size (resolve_tile size ta)); prod (resolve_tile size ta)] ->
  exists t, rows_to_tiles q size ta = Ok t /\ shape t = size /\ wf t /\
    forall idx, valid size idx ->
      at_index t idx = at_index q [tile_row size (resolve_tile size ta) idx; tile_col (resolve_tile size ta) idx].
Proof.
  intros Hwf Hn Hd Hs.
  destruct (rows_round_trip q size ta Hwf Hn Hd) as (t & Et & St & Wt & Er).
  { rewrite Hs. pose proof (divides_grid _ _ Hd) as Hg. pose proof (divides_prod_pos _ _ Hd).
    rewrite Hg, Nat.div_mul by lia. reflexivity. }
  exists t. repeat split; auto. intros idx Hv.
  assert (Hnt : numel t <> 0).
  { unfold numel in *. unfold wf in *. rewrite Wt, St, (divides_grid _ _ Hd).
    rewrite Hwf, Hs in Hn. unfold prod in Hn at 1. simpl in Hn. lia. }
  rewrite <- St in Hd, Hv.
  destruct (rows_are_tiles t ta q Wt Hnt Hd Er) as (_ & _ & H).
  destruct (H idx Hv) as [_ E]. rewrite St in E. symmetry. exact E.
Qed.

Lemma length_infer_offsets off scale :
  (forall l, off = Some l -> length l = length scale) -> length (infer_offsets off scale) = length scale.
Proof. destruct off as [l|]; simpl; intros H; rewrite map_length; auto. Qed.

(** C12, quantization *)
Lemma quantize_by_tile_elementwise t scale ta b out off :
  wf t -> numel t <> 0 -> tile_divides (shape t) (resolve_tile (shape t) ta) ->
  length scale = prod (grid (shape t) (resolve_tile (shape t) ta)) ->
  (forall l, off = Some l -> length l = length scale) ->
  (forall s, In s scale -> ~ (s == 0)%Q) ->
  can_support_bitwidth out b = true ->
  exists res, quantize_by_tile t scale ta b out off = Ok res /\ shape res = shape t /\ wf res /\
    forall idx x, valid (shape t) idx -> at_index t idx = Some x ->
      exists s z, nth_error scale (tile_row (shape t) (resolve_tile (shape t) ta) idx) = Some s /\
        at_index res idx = Some z /\
        quantize_elem s (nth_offset off (tile_row (shape t) (resolve_tile (shape t) ta) idx)) b x = Ok z.
Proof.
  intros Hwf Hn Hd HL HO HS Hsup. set (tile := resolve_tile (shape t) ta) in *.
  set (n := prod (grid (shape t) tile)) in *. set (m := prod tile).
  destruct (tiling_round_trip t ta Hwf Hd) as (r & Er & _).
  destruct (rows_are_tiles t ta r Hwf Hn Hd Er) as (Wr & Sr & Fr). fold tile in Sr, Fr. fold n m in Sr.
  unfold quantize_by_tile. rewrite Er. cbn [rbind].
  destruct (rowwise_spec (fun s x => qdiv x s) r scale n m Wr Sr HL) as (d & Ed & Sd & Wd & Fd).
  { intros s x Hs _. rewrite qdiv_nz by auto. eauto. }
  rewrite Ed. cbn [rbind].
  assert (HLo : length (infer_offsets off scale) = n) by (rewrite length_infer_offsets; auto).
  destruct (rowwise_spec (fun o x => Ok (x - QofZ o)%Q) d (infer_offsets off scale) n m Wd Sd HLo)
    as (u & Eu & Su & Wu & Fu).
  { intros; eauto. }
  rewrite Eu. cbn [rbind].
  set (q := tmap (fun x => clamp (round_half_even x) (integer_minimum b) (integer_maximum b)) u).
  assert (Wq : wf q) by now apply tmap_wf.
  assert (Hnq : numel q <> 0).
  { unfold numel in *. unfold wf in *. rewrite Wq. unfold q; simpl. rewrite Su. unfold prod; simpl.
    rewrite Hwf, (divides_grid _ _ Hd) in Hn. fold n m in Hn. lia. }
  destruct (rows_to_tiles_at q (shape t) ta Wq Hnq Hd) as (res & Eres & Sres & Wres & Fres).
  { exact Su. }
  rewrite Eres. cbn [rbind]. rewrite Hsup. exists res. split; [reflexivity|]. split; [assumption|]. split; [assumption|].
  intros idx x Hv Hx. fold tile in Fres.
  pose proof (tile_row_lt _ _ _ Hd Hv) as Hrow. pose proof (tile_col_lt _ _ _ Hd Hv) as Hcol. fold n m in Hrow, Hcol.
  set (i := tile_row (shape t) tile idx) in *. set (j := tile_col tile idx) in *.
  destruct (Fr idx Hv) as [_ Hrx]. change (at_index r [i; j] = at_index t idx) in Hrx. rewrite Hx in Hrx.
  destruct (Fd i j Hrow Hcol) as (s & a & c & Hs & Ha & Hc & Eq).
  rewrite Hrx in Ha. injection Ha as <-.
  destruct (Fu i j Hrow Hcol) as (o & a' & c' & Ho & Ha' & Hc' & Eq').
  rewrite Hc in Ha'. injection Ha' as <-. injection Eq' as <-.
  exists s, (clamp (round_half_even (c - QofZ o)%Q) (integer_minimum b) (integer_maximum b)).
  split; [exact Hs|]. split.
  - rewrite Fres by assumption. unfold q. rewrite tmap_at. fold i j. rewrite Hc'. reflexivity.
  - unfold quantize_elem. rewrite Eq. cbn [rbind].
    rewrite (infer_offsets_nth off scale i s Hs) in Ho by auto. injection Ho as <-. reflexivity.
Qed.

(** C12, dequantization *)
Lemma dequantize_by_tile_elementwise t scale ta off :
  wf t -> numel t <> 0 -> tile_divides (shape t) (resolve_tile (shape t) ta) ->
  length scale = prod (grid (shape t) (resolve_tile (shape t) ta)) ->
  (forall l, off = Some l -> length l = length scale) ->
  exists res, dequantize_by_tile t scale ta off = Ok res /\ shape res = shape t /\ wf res /\
    forall idx z, valid (shape t) idx -> at_index t idx = Some z ->
      exists s, nth_error scale (tile_row (shape t) (resolve_tile (shape t) ta) idx) = Some s /\
        at_index res idx =
          Some (dequantize_elem s (nth_offset off (tile_row (shape t) (resolve_tile (shape t) ta) idx)) z).
Proof.
  intros Hwf Hn Hd HL HO. set (tile := resolve_tile (shape t) ta) in *.
  set (n := prod (grid (shape t) tile)) in *. set (m := prod tile).
  destruct (tiling_round_trip t ta Hwf Hd) as (r & Er & _).
  destruct (rows_are_tiles t ta r Hwf Hn Hd Er) as (Wr & Sr & Fr). fold tile in Sr, Fr. fold n m in Sr.
  unfold dequantize_by_tile. rewrite Er. cbn [rbind].
  assert (HLo : length (infer_offsets off scale) = n) by (rewrite length_infer_offsets; auto).
  destruct (rowwise_spec (fun o z => Ok (QofZ z + QofZ o)%Q) r (infer_offsets off scale) n m Wr Sr HLo)
    as (d & Ed & Sd & Wd & Fd).
  { intros; eauto. }
  rewrite Ed. cbn [rbind].
  destruct (rowwise_spec (fun s x => Ok (x * s)%Q) d scale n m Wd Sd HL) as (u & Eu & Su & Wu & Fu).
  { intros; eauto. }
  rewrite Eu. cbn [rbind].
  assert (Hnq : numel u <> 0).
  { unfold numel in *. unfold wf in *. rewrite Wu, Su. unfold prod; simpl.
    rewrite Hwf, (divides_grid _ _ Hd) in Hn. fold n m in Hn. lia. }
  destruct (rows_to_tiles_at u (shape t) ta Wu Hnq Hd Su) as (res & Eres & Sres & Wres & Fres).
  rewrite Eres. exists res. split; [reflexivity|]. split; [assumption|]. split; [assumption|].
  intros idx z Hv Hz. fold tile in Fres.
  pose proof (tile_row_lt _ _ _ Hd Hv) as Hrow. pose proof (tile_col_lt _ _ _ Hd Hv) as Hcol. fold n m in Hrow, Hcol.
  set (i := tile_row (shape t) tile idx) in *. set (j := tile_col tile idx) in *.
  destruct (Fr idx Hv) as [_ Hrx]. change (at_index r [i; j] = at_index t idx) in Hrx. rewrite Hz in Hrx.
  destruct (Fd i j Hrow Hcol) as (o & a & c & Ho & Ha & Hc & Eq).
  rewrite Hrx in Ha. injection Ha as <-. injection Eq as <-.
  destruct (Fu i j Hrow Hcol) as (s & a' & c' & Hs & Ha' & Hc' & Eq').
  rewrite Hc in Ha'. injection Ha' as <-. injection Eq' as <-.
  exists s. split; [exact Hs|]. rewrite Fres by assumption. fold i j. rewrite Hc'. f_equal.
  unfold dequantize_elem. rewrite (infer_offsets_nth off scale i s Hs) in Ho by auto. injection Ho as <-. reflexivity.
Qed.

Lemma rbind_ok {A B} (r : result A) (f : A -> result B) c : rbind r f = Ok c -> exists a, r = Ok a /\ f a = Ok c.
Proof. destruct r; simpl; [eauto|discriminate]. Qed.

Lemma permute_In {A} (t t' : tensor A) perm z : permute t perm = Ok t' -> In z (data t') -> In z (data t).
Proof.
  unfold permute. destruct (negb _); [discriminate|]. destruct (omapM (nth_error (shape t)) perm); [|discriminate].
  match goal with |- context [omapM ?f (seq 0 ?k)] => destruct (omapM f (seq 0 k)) as [d|] eqn:E end; [|discriminate].
  intros H; injection H as <-. simpl. intros Hz. apply In_nth_error in Hz. destruct Hz as [i Hi].
  assert (Hi' : i < prod l).
  { rewrite <- (seq_length (prod l) 0). rewrite <- (omapM_length _ _ _ E). apply nth_error_Some. congruence. }
  erewrite omapM_nth in Hi; [|exact E|rewrite (nth_error_nth' _ 0) by (rewrite seq_length; lia); reflexivity].
  cbv beta in Hi. match type of Hi with match ?x with _ => _ end = _ => destruct x end; [|discriminate]. eapply nth_error_In; eauto.
Qed.

Lemma reshape_In {A} (t t' : tensor A) s : reshape t s = Ok t' -> data t' = data t.
Proof. unfold reshape. destruct (_ =? _); [|discriminate]. intros H; injection H as <-. reflexivity. Qed.

Lemma rows_to_tiles_In {A} (q t : tensor A) size ta z :
  rows_to_tiles q size ta = Ok t -> In z (data t) -> In z (data q).
Proof.
  unfold rows_to_tiles. destruct (numel q =? 0).
  - intros H Hz. now rewrite (reshape_In _ _ _ H) in Hz.
  - intros H Hz. apply rbind_ok in H as (_ & _ & H). destruct (prod _ =? 0); [discriminate|].
    destruct (negb _); [discriminate|]. apply rbind_ok in H as (nb & _ & H).
    destruct (omapM _ _); [|discriminate]. apply rbind_ok in H as (a & Ha & H).
    apply rbind_ok in H as (c & Hc & H). rewrite (reshape_In _ _ _ H) in Hz.
    rewrite <- (reshape_In _ _ _ Ha). eapply permute_In; eauto.
Qed.

(** C05 at tensor level: no hypotheses but success. *)
Lemma quantize_by_tile_codes t scale ta b out off res :
  quantize_by_tile t scale ta b out off = Ok res -> Forall (code b) (data res).
Proof.
  unfold quantize_by_tile. intros H.
  apply rbind_ok in H as (r & _ & H). apply rbind_ok in H as (d & _ & H). apply rbind_ok in H as (u & _ & H).
  apply rbind_ok in H as (res' & Hr & H). destruct (can_support_bitwidth out b); [|discriminate].
  injection H as ->. apply Forall_forall. intros z Hz. eapply rows_to_tiles_In in Hz; [|exact Hr].
  unfold tmap in Hz; simpl in Hz. apply in_map_iff in Hz. destruct Hz as (x & <- & _). apply clamp_code.
Qed.

(** ** Storage dtypes *)

Lemma code_abs b z : code b z -> (Z.abs z <= 2 ^ (Zpos b - 1))%Z.
Proof. unfold code. lia. Qed.

Lemma float_store_exact m b z :
  can_support_bitwidth (FloatT m) b = true -> code b z -> store (FloatT m) z = Some z.
Proof.
  unfold can_support_bitwidth, store. intros H Hz. apply code_abs in Hz.
  assert (2 ^ (Zpos b - 1) <= 2 ^ (Z.of_nat m + 1))%Z.
  { apply Z.pow_le_mono_r; lia. }
  destruct (Z.abs z <=? 2 ^ (Z.of_nat m + 1))%Z eqn:E; [reflexivity|]. lia.
Qed.

Lemma int_store_exact w b z :
  Pos.to_nat b <= w -> code b z -> store (IntT w true) z = Some z.
Proof.
  unfold store, code. intros H Hz. f_equal.
  assert (2 ^ (Zpos b - 1) <= 2 ^ (Z.of_nat w - 1))%Z by (apply Z.pow_le_mono_r; lia).
  assert (2 ^ Z.of_nat w = 2 * 2 ^ (Z.of_nat w - 1))%Z as E.
  { rewrite <- Z.pow_succ_r by lia. f_equal. lia. }
  rewrite E. set (p := (2 ^ (Z.of_nat w - 1))%Z) in *.
  assert (0 < p)%Z by (apply Z.pow_pos_nonneg; lia).
  destruct (Z_le_gt_dec 0 z) as [Hp|Hp].
  - rewrite Z.mod_small by lia. destruct (z <? p)%Z eqn:El; lia.
  - rewrite <- (Z_mod_plus_full z 1). rewrite Z.mod_small by lia. destruct (z + 1 * (2 * p) <? p)%Z eqn:El; lia.
Qed.

(** ** Gradients of one tile *)
Local Open Scope Q_scope.

Lemma qsum_ext {A} (f g : A -> Q) l : (forall a, In a l -> f a == g a) -> qsum (map f l) == qsum (map g l).
Proof.
  induction l as [|a l IH]; simpl; intros H; [reflexivity|].
  rewrite (H a) by now left. rewrite IH; [reflexivity|]. intros; apply H; now right.
Qed.


Lemma grad_row_spec s o b xg dins dsc dof :
  ~ s == 0 -> grad_row s o b xg = Ok (dins, dsc, dof) ->
  Forall2 (fun d p => d == snd p * ste_derivative s o b (fst p) 1 0 0) dins xg /\
  dsc == qsum (map (fun p => snd p * ste_derivative s o b (fst p) 0 1 0) xg) /\
  match o with
  | None => dof = None
  | Some _ => exists v, dof = Some v /\ v == qsum (map (fun p => snd p * ste_derivative s o b (fst p) 0 0 1) xg)
  end.
Proof.
  intros Hs H. unfold grad_row in H. apply rbind_ok in H as (r & Hr & H). injection H as <- <- <-.
  assert (G : Forall2 (fun t p => match t with (di, ds, df) =>
       di == snd p * ste_derivative s o b (fst p) 1 0 0 /\ ds == snd p * ste_derivative s o b (fst p) 0 1 0 /\
       df == snd p * ste_derivative s o b (fst p) 0 0 1 end) r xg).
  { revert r Hr. induction xg as [|[x g] xg IH]; simpl; intros r Hr.
    - injection Hr as <-. constructor.
    - apply rbind_ok in Hr as ([[di ds] df] & He & Hr). apply rbind_ok in Hr as (r' & Hr' & Hr).
      injection Hr as <-. constructor; [|auto]. apply (grad_elem_ste s o b x g di ds df Hs He). }
  clear Hr. split; [|split].
  - induction G as [|[[di ds] df] p r xg Hp G IH]; simpl; constructor; auto. tauto.
  - induction G as [|[[di ds] df] p r xg Hp G IH]; simpl; [reflexivity|].
    destruct Hp as (_ & Hp & _). rewrite Hp, IH. reflexivity.
  - destruct o as [o|]; [|reflexivity]. eexists; split; [reflexivity|].
    induction G as [|[[di ds] df] p r xg Hp G IH]; simpl; [reflexivity|].
    destruct Hp as (_ & _ & Hp). rewrite Hp, IH. reflexivity.
Qed.

Lemma ste_input_derivative s o b x :
  ~ s == 0 ->
  ste_derivative s o b x 1 0 0 ==
    (if (integer_minimum b <=? round_half_even (x / s - QofZ (infer_offset o)))%Z &&
        (round_half_even (x / s - QofZ (infer_offset o)) <=? integer_maximum b)%Z then 1 else 0).
Proof.
  intros Hs. unfold ste_derivative, d_qdq, d_clamp, d_round_ste, d_sub, d_div. cbn [val der]. fold QofZ.
  set (r := round_half_even (x / s - QofZ (infer_offset o))).
  destruct (Qle_bool (QofZ (integer_minimum b)) (QofZ r)) eqn:E1; cbn [negb].
  - apply Qle_bool_iff, QofZ_le in E1. destruct (integer_minimum b <=? r)%Z eqn:L1; [|lia].
    destruct (Qle_bool (QofZ r) (QofZ (integer_maximum b))) eqn:E2; cbn [negb].
    + apply Qle_bool_iff, QofZ_le in E2. destruct (r <=? integer_maximum b)%Z eqn:L2; [|lia].
      cbn [andb d_mul d_add val der]. field; assumption.
    + destruct (r <=? integer_maximum b)%Z eqn:L2.
      { apply Z.leb_le, QofZ_le, Qle_bool_iff in L2. congruence. }
      cbn [andb d_mul d_add d_const val der]. ring.
  - destruct (integer_minimum b <=? r)%Z eqn:L1.
    { apply Z.leb_le, QofZ_le, Qle_bool_iff in L1. congruence. }
    cbn [andb d_mul d_add d_const val der]. ring.
Qed.

(** ** Compositions and witnesses *)

Lemma range_then_quantize ranges b sym allow ss oo i mn mx x s :
  parameters_for_range ranges b sym allow = Ok (ss, oo) ->
  nth_error ranges i = Some (mn, mx) -> mn < mx -> mn <= x <= mx -> nth_error ss i = Some s ->
  exists z, quantize_elem s (nth_offset oo i) b x = Ok z /\
    Qabs (dequantize_elem s (nth_offset oo i) z - x) <= (1#2) * s.
Proof.
  intros H Hi Hlt Hx Hs.
  destruct (parameters_for_range_covers _ _ _ _ _ _ _ _ _ H Hi Hlt) as (s' & Hs' & Hpos & _ & H1 & H2 & _).
  rewrite Hs in Hs'. injection Hs' as <-.
  pose proof (quantize_error s (nth_offset oo i) b x Hpos) as QE.
  destruct (quantization_range s (nth_offset oo i) b) as [lo hi]. cbn [fst snd] in *.
  apply QE. lra.
Qed.

Lemma rmapM_ok_ext {A B} (f : A -> result B) l : Forall (fun a => exists c, f a = Ok c) l -> exists l', rmapM f l = Ok l'.
Proof. intros H. apply rmapM_total. intros a Ha. rewrite Forall_forall in H. auto. Qed.

Lemma dynamic_total rows b allow :
  rows <> [] -> Forall (fun r => r <> []) rows ->
  exists q ss os, quantize_dynamic_rows rows b false allow = Ok (q, ss, os) /\
    length q = length rows /\ length ss = length rows /\ length os = length rows /\
    (forall i row qrow, nth_error rows i = Some row -> nth_error q i = Some qrow -> length qrow = length row).
Proof.
  intros Hne HF. unfold quantize_dynamic_rows.
  destruct (rmapM_total (fun r => match list_min r with Ok v => Ok v | Err _ => Err QuantizationError end) rows) as [mins Emin].
  { intros r Hr. rewrite Forall_forall in HF. specialize (HF r Hr). destruct r; [congruence|]. simpl. eauto. }
  destruct (rmapM_total (fun r => match list_max r with Ok v => Ok v | Err _ => Err QuantizationError end) rows) as [maxs Emax].
  { intros r Hr. rewrite Forall_forall in HF. specialize (HF r Hr). destruct r; [congruence|]. simpl. eauto. }
  rewrite Emin, Emax. cbn [rbind].
  pose proof (rmapM_length _ _ _ Emin) as L1. pose proof (rmapM_length _ _ _ Emax) as L2.
  destruct (parameters_for_range_total (combine mins maxs) b false allow) as (ss & oo & Ep & Lp).
  { intros E. apply (f_equal (@length _)) in E. rewrite combine_length in E. destruct rows; [congruence|]. simpl in *. lia. }
  { discriminate. }
  rewrite Ep. cbn [rbind].
  destruct (parameters_lengths _ _ _ _ _ _ Ep) as [_ HLo].
  assert (HLoff : length (infer_offsets oo ss) = length ss) by now apply length_infer_offsets.
  assert (Lss : length ss = length rows) by (rewrite Lp, combine_length; lia).
  assert (Hpos : forall s, In s ss -> 0 < s).
  { intros s Hs. apply In_nth_error in Hs. destruct Hs as [i Hi].
    assert (i < length (combine mins maxs))%nat as Hlt by (rewrite <- Lp; apply nth_error_Some; congruence).
    destruct (nth_error_lt_some _ _ Hlt) as [[mn mx] Hr].
    unfold parameters_for_range in Ep. destruct (combine mins maxs) as [|r0 rs] eqn:Ec; [simpl in Hlt; lia|].
    cbn [andb negb] in Ep. rewrite <- Ec in Ep, Hr. apply rbind_ok in Ep as (ps & Hps & Ep). injection Ep as <- <-.
    destruct (rmapM_nth _ _ _ _ _ Hps Hr) as ((s' & o') & Hn & Hs').
    rewrite nth_error_map, Hn in Hi. injection Hi as <-.
    destruct (asymmetric_covers _ _ _ _ _ Hs') as (? & _). assumption. }
  match goal with |- context [rmapM ?f (combine rows ?l)] => destruct (rmapM_total f (combine rows l)) as [q Eq] end.
  { intros [r [s o]] Hin. apply rmapM_total. intros x _.
    pose proof (in_combine_r _ _ _ _ Hin) as H2. apply in_combine_l in H2.
    rewrite qdiv_pos by auto. cbn [rbind]. eauto. }
  rewrite Eq. cbn [rbind]. eexists _, _, _. split; [reflexivity|].
  pose proof (rmapM_length _ _ _ Eq) as Lq. rewrite !combine_length in Lq.
  split; [lia|]. split; [assumption|]. split; [lia|].
  intros i row qrow Hr Hq. destruct (rmapM_nth' _ _ _ _ _ Eq Hq) as ((r' & (s & o)) & Hc & Hf).
  assert (r' = row) as ->.
  { clear - Hr Hc. revert Hr Hc. generalize (combine ss (infer_offsets oo ss)). intros l.
    revert rows i. induction l as [|p l IH]; intros [|r rows] [|i]; simpl; try discriminate.
    - congruence.
    - apply IH. }
  eapply rmapM_length; eauto.
Qed.

Lemma fractional_offset_witness :
  exists s o b x z, 0 < s /\ quantize_elem s o b x = Ok z /\ x <= fst (quantization_range s o b) /\
    ~ dequantize_elem s o z == fst (quantization_range s o b).
Proof.
  exists 1, (Some (1#4)), 3%positive, (-(100)), (-4)%Z.
  repeat split; vm_compute; discriminate.
Qed.

Lemma one_bit_witness : parameters_for_range [(-(1), 1)] 1 true false = Err ZeroDivisionError.
Proof. vm_compute. reflexivity. Qed.

Lemma narrow_range_witness :
  exists q mn mx q', lq_symmetric q = false /\ mn < mx /\ lq_set_range q mn mx = Ok q' /\
    ~ snd (lq_get_range q') == mx.
Proof.
  exists (mkLq 2 false true 1 (Some 0)), 0, (1 # 16777216).
  eexists. split; [reflexivity|]. split; [reflexivity|]. split; [vm_compute; reflexivity|].
  vm_compute. discriminate.
Qed.

Lemma zero_tile_witness : quantize_dynamic_rows [[0; 0]; [-(1); 1]] 8 true true = Err ZeroDivisionError.
Proof. vm_compute. reflexivity. Qed.

Lemma int_store_witness :
  (can_support_bitwidth (IntT 8 true) 10 = true /\ code 10 300 /\ store (IntT 8 true) 300 = Some 44%Z) /\
  (can_support_bitwidth (IntT 8 false) 8 = true /\ code 8 (-1) /\ store (IntT 8 false) (-1) = Some 255%Z).
Proof. repeat split; vm_compute; congruence. Qed.
