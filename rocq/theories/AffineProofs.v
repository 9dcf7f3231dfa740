From Verif Require Import Prelude TilingModel TilingSpec TilingProofs AffineModel AffineSpec.
From Coq Require Import QArith Qround Qabs Qminmax Lqa.
Local Open Scope Q_scope.

#[local] Arguments Z.pow : simpl never.
#[local] Arguments quantization_range : simpl never.
#[local] Arguments QofZ : simpl never.
#[local] Arguments Qplus : simpl never.
#[local] Arguments Qmult : simpl never.
#[local] Arguments Qminus : simpl never.
#[local] Arguments Qdiv : simpl never.

(** ** Rounding *)

Lemma half_pos : (0 < 1 # 2)%Q. Proof. reflexivity. Qed.

Lemma QofZ_plus a b : QofZ (a + b) == QofZ a + QofZ b.
Proof. unfold QofZ. now rewrite inject_Z_plus. Qed.
Lemma QofZ_opp a : QofZ (- a) == - QofZ a.
Proof. unfold QofZ. now rewrite inject_Z_opp. Qed.
Lemma QofZ_sub a b : QofZ (a - b) == QofZ a - QofZ b.
Proof. unfold Z.sub. rewrite QofZ_plus, QofZ_opp. reflexivity. Qed.
Lemma QofZ_le a b : (a <= b)%Z <-> QofZ a <= QofZ b.
Proof. unfold QofZ. rewrite <- Zle_Qle. reflexivity. Qed.
Lemma QofZ_lt a b : (a < b)%Z <-> QofZ a < QofZ b.
Proof. unfold QofZ. rewrite <- Zlt_Qlt. reflexivity. Qed.
Lemma QofZ_eq a b : a = b <-> QofZ a == QofZ b.
Proof. unfold QofZ. split; [intros ->; reflexivity|]. unfold Qeq; simpl. lia. Qed.

Lemma round_bounds q :
  QofZ (round_half_even q) - (1 # 2) <= q <= QofZ (round_half_even q) + (1 # 2).
Proof.
  unfold round_half_even. fold QofZ.
  pose proof (Qfloor_le q) as H1. pose proof (Qlt_floor q) as H2. fold QofZ in H1, H2.
  rewrite QofZ_plus in H2. change (QofZ 1) with 1 in H2.
  destruct (q - QofZ (Qfloor q) ?= 1 # 2) eqn:E.
  - apply Qeq_alt in E. destruct (Z.even (Qfloor q)).
    + lra.
    + rewrite QofZ_plus. change (QofZ 1) with 1. lra.
  - apply Qlt_alt in E. lra.
  - apply Qgt_alt in E. rewrite QofZ_plus. change (QofZ 1) with 1. lra.
Qed.

Lemma round_tie q :
  Qabs (q - QofZ (round_half_even q)) == 1 # 2 -> Z.even (round_half_even q) = true.
Proof.
  pose proof (Qfloor_le q) as H1. pose proof (Qlt_floor q) as H2. fold QofZ in H1, H2.
  rewrite QofZ_plus in H2. change (QofZ 1) with 1 in H2.
  unfold round_half_even. 
  destruct (q - QofZ (Qfloor q) ?= 1 # 2) eqn:E.
  - intros _. destruct (Z.even (Qfloor q)) eqn:Ev; [assumption|].
    rewrite Z.add_1_r, Z.even_succ, <- Z.negb_even, Ev. reflexivity.
  - apply Qlt_alt in E. rewrite Qabs_pos by lra. intros. lra.
  - apply Qgt_alt in E. rewrite QofZ_plus. change (QofZ 1) with 1.
    rewrite Qabs_neg by lra. intros. lra.
Qed.

Lemma round_nearest_even q : nearest_even q (round_half_even q).
Proof.
  split; [|apply round_tie]. apply Qabs_Qle_condition. pose proof (round_bounds q). fold QofZ. lra.
Qed.

Lemma even_consecutive z : Z.even z = true -> Z.even (z + 1) = true -> False.
Proof. rewrite Z.add_1_r, Z.even_succ, <- Z.negb_even. destruct (Z.even z); discriminate. Qed.

Lemma nearest_even_unique q z1 z2 : nearest_even q z1 -> nearest_even q z2 -> z1 = z2.
Proof.
  assert (G : forall z1 z2, nearest_even q z1 -> nearest_even q z2 -> (z1 < z2)%Z -> False).
  { clear. intros z1 z2 [A1 B1] [A2 B2] Hlt. fold QofZ in *.
    apply Qabs_Qle_condition in A1. apply Qabs_Qle_condition in A2.
    destruct (Z.eq_dec z2 (z1 + 1)) as [->|Hne].
    - rewrite QofZ_plus in *. change (QofZ 1) with 1 in *.
      apply (even_consecutive z1).
      + apply B1. rewrite Qabs_pos; lra.
      + apply B2. rewrite Qabs_neg; lra.
    - assert (z1 + 2 <= z2)%Z as H by lia. apply QofZ_le in H. rewrite QofZ_plus in H.
      change (QofZ 2) with 2 in H. lra. }
  intros H1 H2. destruct (Z.lt_total z1 z2) as [H|[H|H]]; [exfalso; eauto|assumption|exfalso; eauto].
Qed.

Lemma round_mono p q : p <= q -> (round_half_even p <= round_half_even q)%Z.
Proof.
  intros H. destruct (Z_le_gt_dec (round_half_even p) (round_half_even q)) as [|Hgt]; [assumption|exfalso].
  pose proof (round_bounds p) as Bp. pose proof (round_bounds q) as Bq.
  destruct (round_nearest_even p) as [_ Tp]. destruct (round_nearest_even q) as [_ Tq]. fold QofZ in *.
  set (a := round_half_even p) in *. set (c := round_half_even q) in *.
  destruct (Z.eq_dec a (c + 1)) as [E|Hne].
  - rewrite E in *. rewrite QofZ_plus in *. change (QofZ 1) with 1 in *.
    apply (even_consecutive c).
    + apply Tq. rewrite Qabs_pos; lra.
    + apply Tp. rewrite Qabs_neg; lra.
  - assert (c + 2 <= a)%Z as H2 by lia. apply QofZ_le in H2. rewrite QofZ_plus in H2.
    change (QofZ 2) with 2 in H2. lra.
Qed.

Global Instance round_proper : Proper (Qeq ==> eq) round_half_even.
Proof. intros p q E. apply Z.le_antisymm; apply round_mono; lra. Qed.

Lemma round_QofZ z : round_half_even (QofZ z) = z.
Proof.
  apply (nearest_even_unique (QofZ z)); [apply round_nearest_even|].
  unfold nearest_even. fold QofZ. assert (QofZ z - QofZ z == 0) as -> by lra.
  split; [discriminate|]. intros H. discriminate.
Qed.

(** ** Integer range *)

Lemma pow_pos b : (1 <= 2 ^ (Zpos b - 1))%Z.
Proof. pose proof (Z.pow_pos_nonneg 2 (Zpos b - 1)). lia. Qed.

Lemma pow_split b : (2 ^ Zpos b = 2 * 2 ^ (Zpos b - 1))%Z.
Proof. rewrite <- Z.pow_succ_r by lia. f_equal. lia. Qed.

Lemma int_min_le_max b : (integer_minimum b <= integer_maximum b)%Z.
Proof. unfold integer_maximum, integer_minimum. pose proof (pow_pos b). lia. Qed.

Lemma code_iff b z : code b z <-> (integer_minimum b <= z <= integer_maximum b)%Z.
Proof. unfold code, integer_maximum, integer_minimum. lia. Qed.

Lemma clamp_range z lo hi : (lo <= hi)%Z -> (lo <= clamp z lo hi <= hi)%Z.
Proof. unfold clamp. lia. Qed.

Lemma clamp_id z lo hi : (lo <= z <= hi)%Z -> clamp z lo hi = z.
Proof. unfold clamp. lia. Qed.

Lemma clamp_code b z : code b (clamp z (integer_minimum b) (integer_maximum b)).
Proof. apply code_iff. apply clamp_range, int_min_le_max. Qed.

(** Rounding then clamping a value at most half a step outside stays within half. *)
Lemma clamp_round_error v lo hi :
  (lo <= hi)%Z -> QofZ lo - (1 # 2) <= v <= QofZ hi + (1 # 2) ->
  Qabs (QofZ (clamp (round_half_even v) lo hi) - v) <= 1 # 2.
Proof.
  intros Hlh Hv. pose proof (round_bounds v) as B. apply Qabs_Qle_condition.
  unfold clamp. destruct (Z_le_gt_dec (round_half_even v) lo) as [H1|H1].
  - replace (Z.min (Z.max (round_half_even v) lo) hi) with lo by lia.
    apply QofZ_le in H1. lra.
  - destruct (Z_le_gt_dec (round_half_even v) hi) as [H2|H2].
    + replace (Z.min (Z.max (round_half_even v) lo) hi) with (round_half_even v) by lia. lra.
    + replace (Z.min (Z.max (round_half_even v) lo) hi) with hi by lia.
      assert (hi <= round_half_even v)%Z as H3 by lia. apply QofZ_le in H3. lra.
Qed.

Lemma qdiv_pos x s : 0 < s -> qdiv x s = Ok (x / s).
Proof.
  intros H. unfold qdiv. destruct (Qeq_bool s 0) eqn:E; [|reflexivity].
  apply Qeq_bool_eq in E. lra.
Qed.

Lemma qdiv_nz x s : ~ s == 0 -> qdiv x s = Ok (x / s).
Proof.
  intros H. unfold qdiv. destruct (Qeq_bool s 0) eqn:E; [|reflexivity].
  apply Qeq_bool_eq in E. contradiction.
Qed.

Lemma qdiv_ok x s d : qdiv x s = Ok d -> ~ s == 0 /\ d = x / s.
Proof.
  unfold qdiv. destruct (Qeq_bool s 0) eqn:E; [discriminate|]. intros H; injection H as <-.
  split; [|reflexivity]. intros H. apply Qeq_bool_iff in H. congruence.
Qed.

(** C05 *)
Lemma quantize_in_range s o b x z : quantize_elem s o b x = Ok z -> code b z.
Proof.
  unfold quantize_elem. destruct (qdiv x s) as [d|e]; simpl; [|discriminate].
  intros H; injection H as <-. apply clamp_code.
Qed.

Lemma quantize_total s o b x : ~ s == 0 -> exists z, quantize_elem s o b x = Ok z.
Proof. intros H. unfold quantize_elem. rewrite qdiv_nz by assumption. cbn [rbind]. eauto. Qed.

(** C06 *)
Definition ioff (o : option Q) : Q := QofZ (infer_offset o).

Lemma ioff_close o : offset_value o - (1#2) <= ioff o <= offset_value o + (1#2).
Proof.
  unfold ioff, offset_value, infer_offset. destruct o as [o|].
  - pose proof (round_bounds o). lra.
  - change (QofZ 0) with 0. lra.
Qed.

Lemma ioff_integral o : integral_offset o -> ioff o == offset_value o.
Proof.
  unfold ioff, offset_value, infer_offset, integral_offset. destruct o as [o|].
  - intros [z Hz]. rewrite (round_proper _ _ Hz). fold QofZ in *. rewrite round_QofZ. now symmetry.
  - reflexivity.
Qed.

Lemma div_bounds_le a x s : 0 < s -> (a * s <= x <-> a <= x / s).
Proof.
  intros H. split; intros H1.
  - apply Qle_shift_div_l; assumption.
  - assert (x == x / s * s) as -> by (field; lra). apply Qmult_le_compat_r; lra.
Qed.

Lemma div_bounds_ge a x s : 0 < s -> (x <= a * s <-> x / s <= a).
Proof.
  intros H. split; intros H1.
  - apply Qle_shift_div_r; assumption.
  - assert (x == x / s * s) as -> by (field; lra). apply Qmult_le_compat_r; lra.
Qed.

Lemma scaled_abs e s x y : 0 < s -> Qabs (y - x / s) <= e -> Qabs (y * s - x) <= e * s.
Proof.
  intros Hs H. assert (y * s - x == (y - x / s) * s) as -> by (field; lra).
  rewrite Qabs_Qmult, (Qabs_pos s) by lra. apply Qmult_le_compat_r; lra.
Qed.

Lemma quantize_error s o b x :
  0 < s ->
  let '(lo, hi) := quantization_range s o b in
  lo <= x <= hi ->
  exists z, quantize_elem s o b x = Ok z /\ Qabs (dequantize_elem s o z - x) <= (1#2) * s.
Proof.
  intros Hs. unfold quantization_range. fold (offset_value o).
  intros [H1 H2]. unfold quantize_elem. rewrite qdiv_pos by assumption. cbn [rbind].
  eexists; split; [reflexivity|]. unfold dequantize_elem. apply scaled_abs; [assumption|].
  fold (ioff o).
  apply div_bounds_le in H1; [|assumption]. apply div_bounds_ge in H2; [|assumption].
  pose proof (ioff_close o) as C.
  pose proof (clamp_round_error (x / s - ioff o) (integer_minimum b) (integer_maximum b) (int_min_le_max b)) as E.
  assert (Qabs (QofZ (clamp (round_half_even (x / s - ioff o)) (integer_minimum b) (integer_maximum b)) - (x / s - ioff o)) <= 1 # 2) as E'.
  { apply E. lra. }
  apply Qabs_Qle_condition in E'. apply Qabs_Qle_condition. lra.
Qed.

Lemma quantize_saturates s o b x z :
  0 < s -> integral_offset o -> quantize_elem s o b x = Ok z ->
  let '(lo, hi) := quantization_range s o b in
  (x <= lo -> dequantize_elem s o z == lo) /\ (hi <= x -> dequantize_elem s o z == hi).
Proof.
  intros Hs Ho. unfold quantize_elem, quantization_range. rewrite qdiv_pos by assumption. cbn [rbind].
  intros E; injection E as <-. fold (offset_value o). fold (ioff o).
  pose proof (ioff_integral o Ho) as EO.
  pose proof (int_min_le_max b) as Hmm. set (lo := integer_minimum b) in *. set (hi := integer_maximum b) in *.
  split; intros Hx; unfold dequantize_elem; fold (ioff o).
  - apply div_bounds_ge in Hx; [|assumption].
    assert (round_half_even (x / s - ioff o) <= lo)%Z as Hr.
    { rewrite <- (round_QofZ lo). apply round_mono. lra. }
    unfold clamp. replace (Z.min (Z.max _ lo) hi) with lo by lia. now rewrite EO.
  - apply div_bounds_le in Hx; [|assumption].
    assert (hi <= round_half_even (x / s - ioff o))%Z as Hr.
    { rewrite <- (round_QofZ hi). apply round_mono. lra. }
    unfold clamp. replace (Z.min (Z.max _ lo) hi) with hi by lia. now rewrite EO.
Qed.

(** C07 *)
Lemma quantize_dequantize s o b z :
  ~ s == 0 -> code b z -> quantize_elem s o b (dequantize_elem s o z) = Ok z.
Proof.
  intros Hs Hz. unfold quantize_elem, dequantize_elem. rewrite qdiv_nz by assumption. cbn [rbind]. f_equal.
  assert ((QofZ z + QofZ (infer_offset o)) * s / s - QofZ (infer_offset o) == QofZ z) as -> by (field; assumption).
  rewrite round_QofZ. apply clamp_id. now apply code_iff.
Qed.

(** C08 *)
Lemma quantize_mono s o b x y zx zy :
  0 < s -> x <= y -> quantize_elem s o b x = Ok zx -> quantize_elem s o b y = Ok zy ->
  (zx <= zy)%Z /\ dequantize_elem s o zx <= dequantize_elem s o zy.
Proof.
  intros Hs Hxy. unfold quantize_elem. rewrite !qdiv_pos by assumption. cbn [rbind].
  intros E1 E2; injection E1 as <-; injection E2 as <-.
  assert (x / s <= y / s) as Hd.
  { unfold Qdiv. apply Qmult_le_compat_r; [assumption|]. apply Qlt_le_weak, Qinv_lt_0_compat; assumption. }
  assert (round_half_even (x / s - QofZ (infer_offset o)) <= round_half_even (y / s - QofZ (infer_offset o)))%Z as Hr.
  { apply round_mono. lra. }
  match goal with |- (?a <= ?c)%Z /\ _ => assert (a <= c)%Z as Hc by (unfold clamp; lia) end.
  split; [exact Hc|]. unfold dequantize_elem. apply QofZ_le in Hc.
  apply Qmult_le_compat_r; lra.
Qed.

(** ** Parameters for a range *)

Lemma rmapM_length {A B} (f : A -> result B) l l' : rmapM f l = Ok l' -> length l' = length l.
Proof.
  revert l'; induction l as [|a l IH]; simpl; intros l' H.
  - now injection H as <-.
  - destruct (f a); simpl in H; [|discriminate]. destruct (rmapM f l); simpl in H; [|discriminate].
    injection H as <-. simpl. f_equal. auto.
Qed.

Lemma rmapM_nth {A B} (f : A -> result B) l l' i a :
  rmapM f l = Ok l' -> nth_error l i = Some a -> exists c, nth_error l' i = Some c /\ f a = Ok c.
Proof.
  revert l' i; induction l as [|x l IH]; simpl; intros l' i H Hi.
  - destruct i; discriminate.
  - destruct (f x) eqn:E; simpl in H; [|discriminate]. destruct (rmapM f l) eqn:E2; simpl in H; [|discriminate].
    injection H as <-. destruct i; simpl in *.
    + injection Hi as <-. eauto.
    + eapply IH; eauto.
Qed.

Lemma rmapM_total {A B} (f : A -> result B) l :
  (forall a, In a l -> exists c, f a = Ok c) -> exists l', rmapM f l = Ok l'.
Proof.
  induction l as [|x l IH]; simpl; intros H; [eauto|].
  destruct (H x) as [c Hc]; [now left|]. rewrite Hc. simpl.
  destruct IH as [l' Hl]; [intros; apply H; now right|]. rewrite Hl. simpl. eauto.
Qed.

Lemma rmapM_In {A B} (f : A -> result B) l l' c :
  rmapM f l = Ok l' -> In c l' -> exists a, In a l /\ f a = Ok c.
Proof.
  revert l'; induction l as [|x l IH]; simpl; intros l' H Hin.
  - injection H as <-. destruct Hin.
  - destruct (f x) eqn:E; simpl in H; [|discriminate]. destruct (rmapM f l) eqn:E2; simpl in H; [|discriminate].
    injection H as <-. destruct Hin as [<-|Hin]; [eauto|]. destruct (IH _ eq_refl Hin) as (a' & ? & ?). eauto.
Qed.

Lemma num_steps_pos b : 0 < QofZ (2 ^ Zpos b - 1).
Proof.
  change 0 with (QofZ 0). apply (proj1 (QofZ_lt _ _)). rewrite pow_split. pose proof (pow_pos b). lia.
Qed.

Lemma eps32_pos : 0 < eps32.
Proof. reflexivity. Qed.

Lemma qmax_ge_l a c : a <= Qmax a c.
Proof. apply Q.le_max_l. Qed.
Lemma qmax_ge_r a c : c <= Qmax a c.
Proof. apply Q.le_max_r. Qed.

Lemma asymmetric_params_ok mn mx b :
  exists s o, asymmetric_params mn mx b = Ok (s, o) /\
    s = Qmax ((mx - mn) / QofZ (2 ^ Zpos b - 1)) eps32 /\
    o = mn / s - QofZ (integer_minimum b) /\ 0 < s.
Proof.
  unfold asymmetric_params. rewrite qdiv_pos by apply num_steps_pos. cbn [rbind].
  pose proof eps32_pos. pose proof (qmax_ge_r ((mx - mn) / QofZ (2 ^ Zpos b - 1)) eps32).
  rewrite qdiv_pos by lra. cbn [rbind]. eexists _, _. split; [reflexivity|]. repeat split. lra.
Qed.

Lemma asymmetric_lo mn mx b s o :
  asymmetric_params mn mx b = Ok (s, o) -> fst (quantization_range s (Some o) b) == mn.
Proof.
  destruct (asymmetric_params_ok mn mx b) as (s' & o' & E & Es & Eo & Hs). rewrite E.
  intros H; injection H as -> ->. unfold quantization_range; cbn [fst snd]. rewrite Eo. field. lra.
Qed.

Lemma asymmetric_hi mn mx b s o :
  asymmetric_params mn mx b = Ok (s, o) ->
  snd (quantization_range s (Some o) b) == mn + s * QofZ (2 ^ Zpos b - 1).
Proof.
  destruct (asymmetric_params_ok mn mx b) as (s' & o' & E & Es & Eo & Hs). rewrite E.
  intros H; injection H as -> ->. unfold quantization_range; cbn [fst snd]. rewrite Eo.
  assert (QofZ (integer_maximum b) == QofZ (integer_minimum b) + QofZ (2 ^ Zpos b - 1)) as ->.
  { rewrite <- QofZ_plus. apply (proj1 (QofZ_eq _ _)). unfold integer_maximum, integer_minimum. rewrite pow_split. lia. }
  field. lra.
Qed.

Lemma asymmetric_covers mn mx b s o :
  asymmetric_params mn mx b = Ok (s, o) ->
  0 < s /\ fst (quantization_range s (Some o) b) == mn /\ mx <= snd (quantization_range s (Some o) b) /\
  (eps32 * QofZ (2 ^ Zpos b - 1) <= mx - mn -> snd (quantization_range s (Some o) b) == mx).
Proof.
  intros H. rewrite (asymmetric_lo _ _ _ _ _ H), (asymmetric_hi _ _ _ _ _ H).
  destruct (asymmetric_params_ok mn mx b) as (s' & o' & E & Es & Eo & Hs). rewrite E in H.
  injection H as -> ->. pose proof (num_steps_pos b) as Hn.
  split; [assumption|]. split; [reflexivity|]. split.
  - assert ((mx - mn) / QofZ (2 ^ Zpos b - 1) <= s) as Hle by (rewrite Es; apply qmax_ge_l).
    apply div_bounds_ge in Hle; [lra|assumption].
  - intros Hw. apply div_bounds_le in Hw; [|assumption].
    assert (s == (mx - mn) / QofZ (2 ^ Zpos b - 1)) as ->.
    { rewrite Es. now apply Q.max_l. }
    field. lra.
Qed.

Lemma symmetric_covers mn mx b s :
  mn <= mx -> symmetric_scale mn mx b = Ok s ->
  0 <= s /\ (mn < mx -> 0 < s) /\
  fst (quantization_range s None b) <= mn /\ mx <= snd (quantization_range s None b).
Proof.
  intros Hle. unfold symmetric_scale.
  destruct (qdiv (Qabs mn) (QofZ (Z.abs (integer_minimum b)))) as [ns|] eqn:E1; simpl; [|discriminate].
  destruct (qdiv (Qabs mx) (QofZ (Z.abs (integer_maximum b)))) as [ps|] eqn:E2; simpl; [|discriminate].
  intros H; injection H as <-.
  apply qdiv_ok in E1 as [N1 ->]. apply qdiv_ok in E2 as [N2 ->].
  pose proof (pow_pos b) as Hp.
  set (am := QofZ (Z.abs (integer_minimum b))) in *. set (ax := QofZ (Z.abs (integer_maximum b))) in *.
  assert (Ham : 0 < am).
  { assert (0 <= am) by (change 0 with (QofZ 0); apply (proj1 (QofZ_le _ _)); lia). destruct (Qlt_le_dec 0 am); [assumption|]. exfalso; apply N1; lra. }
  assert (Hax : 0 < ax).
  { assert (0 <= ax) by (change 0 with (QofZ 0); apply (proj1 (QofZ_le _ _)); lia). destruct (Qlt_le_dec 0 ax); [assumption|]. exfalso; apply N2; lra. }
  assert (Em : QofZ (integer_minimum b) == - am).
  { unfold am. rewrite <- QofZ_opp. apply (proj1 (QofZ_eq _ _)). unfold integer_minimum. lia. }
  assert (Ex : QofZ (integer_maximum b) == ax).
  { unfold ax. apply (proj1 (QofZ_eq _ _)). unfold integer_maximum, integer_minimum. lia. }
  set (s := Qmax (Qabs mn / am) (Qabs mx / ax)).
  assert (S1 : Qabs mn / am <= s) by apply qmax_ge_l.
  assert (S2 : Qabs mx / ax <= s) by apply qmax_ge_r.
  apply div_bounds_ge in S1; [|assumption]. apply div_bounds_ge in S2; [|assumption].
  pose proof (Qle_Qabs mx). pose proof (Qle_Qabs (- mn)) as Hn. rewrite Qabs_opp in Hn.
  pose proof (Qabs_nonneg mn). pose proof (Qabs_nonneg mx).
  assert (Hs : 0 <= s).
  { destruct (Qlt_le_dec s 0) as [Hneg|]; [|assumption]. exfalso.
    assert (s * am < 0) by nra. lra. }
  split; [assumption|]. split.
  - intros Hlt. destruct (Qlt_le_dec 0 s); [assumption|]. exfalso.
    assert (s == 0) as E0 by lra. rewrite E0 in S1, S2. lra.
  - unfold quantization_range; simpl. rewrite Em, Ex. nra.
Qed.

Lemma symmetric_scale_total mn mx b : b <> 1%positive -> exists s, symmetric_scale mn mx b = Ok s.
Proof.
  intros Hb. unfold symmetric_scale.
  assert (2 <= 2 ^ (Z.pos b - 1))%Z as Hp.
  { change 2%Z with (2 ^ 1)%Z at 1. apply Z.pow_le_mono_r; lia. }
  rewrite qdiv_pos. simpl. rewrite qdiv_pos. simpl. eauto.
  - change 0 with (QofZ 0). apply (proj1 (QofZ_lt _ _)). unfold integer_maximum, integer_minimum. lia.
  - change 0 with (QofZ 0). apply (proj1 (QofZ_lt _ _)). unfold integer_minimum. lia.
Qed.


Lemma one_sided_nonneg (ranges : list (Q * Q)) a i mn mx :
  is_one_sided (map fst ranges) a = true -> nth_error ranges i = Some (mn, mx) -> 0 <= mn /\ a = true.
Proof.
  unfold is_one_sided. rewrite andb_true_iff, forallb_forall. intros [H ->] Hi. split; [|reflexivity].
  apply Qle_bool_iff. apply H. apply in_map_iff. exists (mn, mx). split; [reflexivity|].
  eapply nth_error_In; eauto.
Qed.

Lemma parameters_for_range_covers ranges b sym allow ss oo i mn mx :
  parameters_for_range ranges b sym allow = Ok (ss, oo) ->
  nth_error ranges i = Some (mn, mx) -> mn < mx ->
  exists s, nth_error ss i = Some s /\ 0 < s /\
    (oo <> None -> nth_offset oo i <> None) /\
    fst (quantization_range s (nth_offset oo i) b) <= mn /\
    mx <= snd (quantization_range s (nth_offset oo i) b) /\
    (sym = false -> fst (quantization_range s (nth_offset oo i) b) == mn) /\
    (sym = false -> eps32 * QofZ (2 ^ Zpos b - 1) <= mx - mn ->
       snd (quantization_range s (nth_offset oo i) b) == mx) /\
    (sym = true -> oo <> None -> fst (quantization_range s (nth_offset oo i) b) == 0 /\
       (eps32 * QofZ (2 ^ Zpos b - 1) <= mx -> snd (quantization_range s (nth_offset oo i) b) == mx)).
Proof.
  intros H Hi Hlt. unfold parameters_for_range in H. destruct ranges as [|r0 rs]; [discriminate|].
  set (ranges := r0 :: rs) in *. clearbody ranges.
  set (os := is_one_sided (map fst ranges) allow) in *.
  destruct (sym && negb os) eqn:E.
  - apply andb_true_iff in E as [-> E]. apply negb_true_iff in E. rewrite E in H. simpl in H.
    destruct (rmapM _ ranges) as [l|] eqn:El; simpl in H; [|discriminate]. injection H as <- <-.
    destruct (rmapM_nth _ _ _ _ _ El Hi) as (s & Hs & Es).
    assert (Hle : mn <= mx) by lra.
    destruct (symmetric_covers _ _ _ _ Hle Es) as (S0 & S1 & S2 & S3).
    exists s. cbn [nth_offset]. repeat split; auto; try congruence.
  - set (rg := if sym && os then map (fun '(_, mx) => (0, mx)) ranges else ranges) in *.
    destruct (rmapM _ rg) as [l|] eqn:El; simpl in H; [|discriminate]. injection H as <- <-.
    destruct sym; simpl in *.
    + apply negb_false_iff in E. unfold rg in El. rewrite E in El.
      assert (Hi' : nth_error (map (fun '(_, mx0) => (0, mx0)) ranges) i = Some (0, mx)).
      { rewrite nth_error_map, Hi. reflexivity. }
      destruct (rmapM_nth _ _ _ _ _ El Hi') as ((s & o) & Hs & Es).
      destruct (one_sided_nonneg _ _ _ _ _ E Hi) as [Hmn _].
      destruct (asymmetric_covers _ _ _ _ _ Es) as (S0 & S1 & S2 & S3).
      exists s. cbn [nth_offset]. rewrite !nth_error_map, Hs. cbn [option_map fst snd] in *.
      split; [reflexivity|]. split; [assumption|]. split; [intros _; discriminate|].
      split; [rewrite S1; lra|]. split; [assumption|]. split; [discriminate|]. split; [discriminate|].
      intros _ _. split; [assumption|]. intros Hw. apply S3. lra.
    + unfold rg in El. destruct (rmapM_nth _ _ _ _ _ El Hi) as ((s & o) & Hs & Es).
      destruct (asymmetric_covers _ _ _ _ _ Es) as (S0 & S1 & S2 & S3).
      exists s. cbn [nth_offset]. rewrite !nth_error_map, Hs. cbn [option_map fst snd] in *.
      split; [reflexivity|]. split; [assumption|]. split; [intros _; discriminate|].
      split; [rewrite S1; lra|]. split; [assumption|]. split; [intros _; assumption|].
      split; [intros _; assumption|]. discriminate.
Qed.

Lemma parameters_for_range_total ranges b sym allow :
  ranges <> [] -> (sym = true -> b <> 1%positive) ->
  exists ss oo, parameters_for_range ranges b sym allow = Ok (ss, oo) /\ length ss = length ranges.
Proof.
  intros Hne Hb. unfold parameters_for_range. destruct ranges as [|r0 rs]; [congruence|].
  set (ranges := r0 :: rs) in *. clearbody ranges.
  set (os := is_one_sided (map fst ranges) allow) in *.
  destruct (sym && negb os) eqn:E.
  - apply andb_true_iff in E as [-> E]. apply negb_true_iff in E. rewrite E. simpl.
    destruct (rmapM_total (fun '(mn, mx) => symmetric_scale mn mx b) ranges) as [l Hl].
    { intros [mn mx] _. apply symmetric_scale_total. auto. }
    rewrite Hl. simpl. eexists _, _; split; [reflexivity|]. eapply rmapM_length; eauto.
  - match goal with |- context [rmapM ?f ?l] => destruct (rmapM_total f l) as [ps Hps] end.
    { intros [mn mx] _. destruct (asymmetric_params_ok mn mx b) as (s & o & Es & _). eauto. }
    rewrite Hps. simpl. eexists _, _; split; [reflexivity|]. rewrite map_length.
    rewrite (rmapM_length _ _ _ Hps). destruct (sym && os); [apply map_length|reflexivity].
Qed.

(** ** Setting and reading a range *)

Lemma set_get_range q mn mx :
  lq_symmetric q = false -> lq_offset q <> None ->
  eps32 * QofZ (2 ^ Zpos (lq_bits q) - 1) <= mx - mn ->
  exists q', lq_set_range q mn mx = Ok q' /\ fst (lq_get_range q') == mn /\ snd (lq_get_range q') == mx.
Proof.
  intros Hs Ho Hw. unfold lq_set_range, parameters_for_range. rewrite Hs.
  cbn [andb negb]. cbn [rmapM].
  destruct (asymmetric_params_ok mn mx (lq_bits q)) as (s & o & E & _). rewrite E. simpl.
  destruct (lq_offset q) as [oq|] eqn:Eo; [|congruence].
  eexists; split; [reflexivity|]. unfold lq_get_range; cbn [lq_scale lq_offset lq_bits].
  destruct (asymmetric_covers _ _ _ _ _ E) as (S0 & S1 & S2 & S3). auto.
Qed.

Lemma get_set_range q o :
  lq_symmetric q = false -> lq_offset q = Some o -> eps32 <= lq_scale q ->
  exists q' o', lq_set_range q (fst (lq_get_range q)) (snd (lq_get_range q)) = Ok q' /\
    lq_scale q' == lq_scale q /\ lq_offset q' = Some o' /\ o' == o.
Proof.
  intros Hs Ho Hw. unfold lq_set_range, parameters_for_range. rewrite Hs.
  cbn [andb negb rmapM].
  destruct (asymmetric_params_ok (fst (lq_get_range q)) (snd (lq_get_range q)) (lq_bits q)) as (s & o' & E & Es & Eo & Hpos).
  rewrite E. cbn [rbind rmapM map]. rewrite Ho.
  eexists _, _; split; [reflexivity|]. cbn [lq_scale lq_offset fst snd].
  assert (Hscale : s == lq_scale q).
  { rewrite Es. unfold lq_get_range, quantization_range. rewrite Ho. cbn [fst snd].
    pose proof (num_steps_pos (lq_bits q)) as Hn.
    assert (((QofZ (integer_maximum (lq_bits q)) + o) * lq_scale q - (QofZ (integer_minimum (lq_bits q)) + o) * lq_scale q) /
      QofZ (2 ^ Z.pos (lq_bits q) - 1) == lq_scale q) as ->.
    { assert (QofZ (integer_maximum (lq_bits q)) == QofZ (integer_minimum (lq_bits q)) + QofZ (2 ^ Zpos (lq_bits q) - 1)) as ->.
      { rewrite <- QofZ_plus. apply (proj1 (QofZ_eq _ _)). unfold integer_maximum, integer_minimum. rewrite pow_split. lia. }
      field. lra. }
    now apply Q.max_l. }
  split; [assumption|]. split; [reflexivity|].
  rewrite Eo. unfold lq_get_range, quantization_range. rewrite Ho. cbn [fst snd]. rewrite Hscale.
  field. pose proof eps32_pos. lra.
Qed.

(** ** Dynamic quantization *)

Lemma fold_min_le l a : fold_left Qmin l a <= a /\ (forall x, In x l -> fold_left Qmin l a <= x).
Proof.
  revert a; induction l as [|y l IH]; simpl; intros a; [split; [lra|easy]|].
  destruct (IH (Qmin a y)) as [H1 H2]. pose proof (Q.le_min_l a y). pose proof (Q.le_min_r a y).
  split; [lra|]. intros x [<-|Hx]; [lra|auto].
Qed.

Lemma fold_max_ge l a : a <= fold_left Qmax l a /\ (forall x, In x l -> x <= fold_left Qmax l a).
Proof.
  revert a; induction l as [|y l IH]; simpl; intros a; [split; [lra|easy]|].
  destruct (IH (Qmax a y)) as [H1 H2]. pose proof (Q.le_max_l a y). pose proof (Q.le_max_r a y).
  split; [lra|]. intros x [<-|Hx]; [lra|auto].
Qed.

Lemma list_min_le l m x : list_min l = Ok m -> In x l -> m <= x.
Proof.
  destruct l as [|a l]; simpl; [discriminate|]. intros H; injection H as <-.
  destruct (fold_min_le l a) as [H1 H2]. intros [<-|Hx]; auto.
Qed.

Lemma list_max_ge l m x : list_max l = Ok m -> In x l -> x <= m.
Proof.
  destruct l as [|a l]; simpl; [discriminate|]. intros H; injection H as <-.
  destruct (fold_max_ge l a) as [H1 H2]. intros [<-|Hx]; auto.
Qed.

Lemma nth_error_combine {A B} (l : list A) (l' : list B) i a c :
  nth_error l i = Some a -> nth_error l' i = Some c -> nth_error (combine l l') i = Some (a, c).
Proof.
  revert l' i; induction l as [|x l IH]; intros [|y l'] [|i]; simpl; try discriminate; intros; auto.
  congruence.
Qed.

(** Range coverage without [mn < mx], for asymmetric or positive scale. *)
Lemma covers_weak ranges b sym allow ss oo i mn mx s :
  parameters_for_range ranges b sym allow = Ok (ss, oo) ->
  nth_error ranges i = Some (mn, mx) -> mn <= mx -> nth_error ss i = Some s ->
  fst (quantization_range s (nth_offset oo i) b) <= mn /\
  mx <= snd (quantization_range s (nth_offset oo i) b) /\ (sym = false -> 0 < s) /\ 0 <= s.
Proof.
  intros H Hi Hlt Hsi. unfold parameters_for_range in H. destruct ranges as [|r0 rs]; [discriminate|].
  set (ranges := r0 :: rs) in *. clearbody ranges.
  set (os := is_one_sided (map fst ranges) allow) in *.
  destruct (sym && negb os) eqn:E.
  - apply andb_true_iff in E as [-> E]. apply negb_true_iff in E. rewrite E in H. simpl in H.
    destruct (rmapM _ ranges) as [l|] eqn:El; simpl in H; [|discriminate]. injection H as <- <-.
    destruct (rmapM_nth _ _ _ _ _ El Hi) as (s' & Hs & Es). rewrite Hsi in Hs. injection Hs as <-.
    destruct (symmetric_covers _ _ _ _ Hlt Es) as (S0 & S1 & S2 & S3).
    repeat split; auto. discriminate.
  - set (rg := if sym && os then map (fun '(_, mx) => (0, mx)) ranges else ranges) in *.
    destruct (rmapM _ rg) as [l|] eqn:El; simpl in H; [|discriminate]. injection H as <- <-.
    assert (exists mn', mn' <= mn /\ nth_error rg i = Some (mn', mx)) as (mn' & Hm & Hi').
    { destruct sym; simpl in *.
      - apply negb_false_iff in E. unfold rg. rewrite E. exists 0.
        destruct (one_sided_nonneg _ _ _ _ _ E Hi) as [Hmn _]. split; [assumption|].
        rewrite nth_error_map, Hi. reflexivity.
      - exists mn. split; [lra|assumption]. }
    destruct (rmapM_nth _ _ _ _ _ El Hi') as ((s' & o) & Hs & Es).
    rewrite nth_error_map, Hs in Hsi. injection Hsi as <-.
    destruct (asymmetric_covers _ _ _ _ _ Es) as (S0 & S1 & S2 & S3).
    cbn [nth_offset]. rewrite nth_error_map, Hs. cbn [option_map fst snd] in *.
    rewrite S1. repeat split; auto. lra.
Qed.

Lemma infer_offsets_nth oo ss i s :
  nth_error ss i = Some s -> (forall l, oo = Some l -> length l = length ss) ->
  nth_error (infer_offsets oo ss) i = Some (infer_offset (nth_offset oo i)).
Proof.
  intros Hs HL. destruct oo as [l|]; simpl.
  - rewrite nth_error_map. assert (i < length l)%nat as Hi.
    { rewrite (HL l eq_refl). apply nth_error_Some. congruence. }
    destruct (nth_error_lt_some l i Hi) as [o Ho]. now rewrite Ho.
  - now rewrite nth_error_map, Hs.
Qed.

Lemma parameters_lengths ranges b sym allow ss oo :
  parameters_for_range ranges b sym allow = Ok (ss, oo) ->
  length ss = length ranges /\ (forall l, oo = Some l -> length l = length ss).
Proof.
  unfold parameters_for_range. destruct ranges as [|r0 rs]; [discriminate|].
  set (ranges := r0 :: rs) in *. clearbody ranges.
  destruct (sym && negb _).
  - destruct (rmapM _ _) eqn:El; simpl; [|discriminate]. intros H; injection H as <- <-.
    apply rmapM_length in El. split; [|discriminate]. rewrite El. destruct (sym && _); auto. now rewrite map_length.
  - destruct (rmapM _ _) eqn:El; simpl; [|discriminate]. intros H; injection H as <- <-.
    apply rmapM_length in El. rewrite map_length. split.
    + rewrite El. destruct (sym && _); auto. now rewrite map_length.
    + intros l H. injection H as <-. now rewrite map_length.
Qed.

Lemma rmapM_nth' {A B} (f : A -> result B) l l' i c :
  rmapM f l = Ok l' -> nth_error l' i = Some c -> exists a, nth_error l i = Some a /\ f a = Ok c.
Proof.
  intros H Hc. assert (i < length l)%nat.
  { rewrite <- (rmapM_length _ _ _ H). apply nth_error_Some. congruence. }
  destruct (nth_error_lt_some l i H0) as [a Ha]. exists a. split; [assumption|].
  destruct (rmapM_nth _ _ _ _ _ H Ha) as (c' & Hc' & Hf). congruence.
Qed.

Lemma dynamic_error rows b sym allow q ss os i row s o j x z qrow :
  quantize_dynamic_rows rows b sym allow = Ok (q, ss, os) ->
  nth_error rows i = Some row -> nth_error row j = Some x ->
  nth_error q i = Some qrow -> nth_error qrow j = Some z ->
  nth_error ss i = Some s -> nth_error os i = Some o ->
  0 < s /\ code b z /\ Qabs ((QofZ z + QofZ o) * s - x) <= (1 # 2) * s.
Proof.
  intros H Hrow Hx Hq Hz Hs Ho. unfold quantize_dynamic_rows in H.
  destruct (rmapM _ rows) as [mins|] eqn:Emin; simpl in H; [|discriminate].
  match type of H with context [rmapM ?f rows] => destruct (rmapM f rows) as [maxs|] eqn:Emax; simpl in H; [|discriminate] end.
  destruct (parameters_for_range _ b sym allow) as [[ss' oo]|] eqn:Ep; simpl in H; [|discriminate].
  match type of H with context [rmapM ?f ?l] => destruct (rmapM f l) as [q'|] eqn:Eq; simpl in H; [|discriminate] end.
  injection H as -> -> <-.
  destruct (rmapM_nth _ _ _ _ _ Emin Hrow) as (mn & Hmn & Emn).
  destruct (rmapM_nth _ _ _ _ _ Emax Hrow) as (mx & Hmx & Emx).
  destruct (list_min row) as [mn'|] eqn:Lmin; [|discriminate]. injection Emn as ->.
  destruct (list_max row) as [mx'|] eqn:Lmax; [|discriminate]. injection Emx as ->.
  pose proof (nth_error_In _ _ Hx) as Hin.
  pose proof (list_min_le _ _ _ Lmin Hin) as H1. pose proof (list_max_ge _ _ _ Lmax Hin) as H2.
  pose proof (nth_error_combine _ _ _ _ _ Hmn Hmx) as Hr.
  assert (Hle : mn <= mx) by lra.
  destruct (covers_weak _ _ _ _ _ _ _ _ _ _ Ep Hr Hle Hs) as (C1 & C2 & C3 & C4).
  destruct (parameters_lengths _ _ _ _ _ _ Ep) as [HL1 HL2].
  pose proof (infer_offsets_nth _ _ _ _ Hs HL2) as Hio. rewrite Ho in Hio. injection Hio as Hio.
  pose proof (nth_error_combine _ _ _ _ _ Hs Ho) as Hso.
  pose proof (nth_error_combine _ _ _ _ _ Hrow Hso) as Hrso.
  destruct (rmapM_nth _ _ _ _ _ Eq Hrso) as (qrow' & Hq' & Erow). rewrite Hq in Hq'. injection Hq' as <-.
  destruct (rmapM_nth _ _ _ _ _ Erow Hx) as (z' & Hz' & Ez). rewrite Hz in Hz'. injection Hz' as <-.
  destruct (qdiv x s) as [d|] eqn:Ed; simpl in Ez; [|discriminate]. injection Ez as Ez.
  pose proof Ed as Ed'. apply qdiv_ok in Ed' as [Hnz ->].
  assert (Hspos : 0 < s). { destruct (Qlt_le_dec 0 s); [assumption|]. exfalso; apply Hnz; lra. }
  split; [assumption|]. split.
  { rewrite <- Ez. apply clamp_code. }
  pose proof (quantize_error s (nth_offset oo i) b x Hspos) as QE.
  destruct (quantization_range s (nth_offset oo i) b) as [lo hi]. cbn [fst snd] in *.
  destruct QE as (z2 & Eqz & Herr); [lra|].
  unfold quantize_elem in Eqz. rewrite Ed in Eqz. simpl in Eqz. injection Eqz as Eqz.
  rewrite Hio in *. rewrite Ez in Eqz. subst z2. exact Herr.
Qed.

(** ** Gradients *)

Lemma grad_elem_ste s o b x g di ds dof :
  ~ s == 0 -> grad_elem s o b x g = Ok (di, ds, dof) ->
  let f dx dsc dof := der (d_qdq round_half_even (mkD x dx) (mkD s dsc) (mkD (QofZ (infer_offset o)) dof)
                           (QofZ (integer_minimum b)) (QofZ (integer_maximum b))) in
  di == g * f 1 0 0 /\ ds == g * f 0 1 0 /\ dof == g * f 0 0 1.
Proof.
  intros Hs. unfold grad_elem. rewrite qdiv_nz by assumption. cbn [rbind].
  set (oz := QofZ (infer_offset o)). set (pre := x / s - oz). set (r := round_half_even pre).
  intros H; injection H as <- <- <-. cbv zeta. unfold d_qdq, d_clamp, d_round_ste, d_sub, d_div. cbn [val der].
  fold oz. fold pre. fold r. fold QofZ.
  destruct (Qle_bool (QofZ (integer_minimum b)) (QofZ r)) eqn:E1; cbn [negb].
  - apply Qle_bool_iff, QofZ_le in E1.
    destruct (r <? integer_minimum b)%Z eqn:L1; [lia|].
    destruct (Qle_bool (QofZ r) (QofZ (integer_maximum b))) eqn:E2; cbn [negb].
    + apply Qle_bool_iff, QofZ_le in E2. destruct (integer_maximum b <? r)%Z eqn:L2; [lia|].
      cbn [orb d_mul d_add val der]. unfold pre. repeat split; field; assumption.
    + assert (~ (r <= integer_maximum b)%Z) as E2'.
      { intros Hc. apply QofZ_le, Qle_bool_iff in Hc. congruence. }
      destruct (integer_maximum b <? r)%Z eqn:L2; [|lia].
      cbn [orb d_mul d_add d_const val der]. repeat split; field; assumption.
  - assert (~ (integer_minimum b <= r)%Z) as E1'.
    { intros Hc. apply QofZ_le, Qle_bool_iff in Hc. congruence. }
    destruct (r <? integer_minimum b)%Z eqn:L1; [|lia].
    cbn [orb d_mul d_add d_const val der]. repeat split; field; assumption.
Qed.
