(** Rounding to a floating point format, and requantization of rounded grid points. *)
From Verif Require Import Prelude TilingModel TilingSpec TilingProofs AffineModel AffineSpec AffineProofs AffineTensorProofs
  FuseModel FuseSpec.
From Coq Require Import QArith Qround Qabs Qpower Lqa Setoid.
Local Open Scope Q_scope.

Lemma two_nz : ~ 2 == 0. Proof. discriminate. Qed.

Lemma pow2_pos z : 0 < 2 ^ z.
Proof. apply Qpower_0_lt. reflexivity. Qed.

Lemma pow2_Z n : (0 <= n)%Z -> inject_Z (2 ^ n) == 2 ^ n.
Proof. intros H. rewrite Zpower_Qpower by exact H. reflexivity. Qed.

Lemma pow2_succ n : 2 ^ (n + 1) == 2 * 2 ^ n.
Proof. rewrite Qpower_plus by exact two_nz. change (2 ^ 1) with 2. ring. Qed.

Lemma pow2_sub a b : 2 ^ (a - b) == 2 ^ a / 2 ^ b.
Proof.
  unfold Z.sub. rewrite Qpower_plus by exact two_nz. rewrite Qpower_opp. reflexivity.
Qed.

Lemma Qabs_frac n d : Qabs (n # d) == inject_Z (Z.abs n) / inject_Z (Zpos d).
Proof.
  unfold Qabs. rewrite Qmake_Qdiv. reflexivity.
Qed.

Lemma exponent_bounds x : ~ x == 0 -> 2 ^ exponent x <= Qabs x /\ Qabs x < 2 ^ (exponent x + 1).
Proof.
  intros Hx. destruct x as [n d]. unfold exponent. cbn [Qnum Qden].
  assert (Hn : (0 < Z.abs n)%Z).
  { assert (n <> 0)%Z; [|lia]. intros ->. apply Hx. reflexivity. }
  destruct (Z.log2_spec (Z.abs n) Hn) as [A1 A2].
  destruct (Z.log2_spec (Zpos d) (Pos2Z.is_pos d)) as [B1 B2].
  pose proof (Z.log2_nonneg (Z.abs n)) as PA. pose proof (Z.log2_nonneg (Zpos d)) as PB.
  set (a := Z.log2 (Z.abs n)) in *. set (b := Z.log2 (Zpos d)) in *.
  assert (Hq := Qabs_frac n d).
  assert (P : 0 < inject_Z (Zpos d)) by reflexivity.
  assert (P1 : 0 < 2 ^ a) by apply pow2_pos. assert (P2 : 0 < 2 ^ b) by apply pow2_pos.
  assert (L1 : 2 ^ a <= inject_Z (Z.abs n)).
  { rewrite <- pow2_Z by exact PA. now rewrite <- Zle_Qle. }
  assert (L2 : inject_Z (Z.abs n) < 2 * 2 ^ a).
  { rewrite <- pow2_succ, <- pow2_Z by lia. now rewrite <- Zlt_Qlt. }
  assert (L3 : 2 ^ b <= inject_Z (Zpos d)).
  { rewrite <- pow2_Z by exact PB. now rewrite <- Zle_Qle. }
  assert (L4 : inject_Z (Zpos d) < 2 * 2 ^ b).
  { rewrite <- pow2_succ, <- pow2_Z by lia. now rewrite <- Zlt_Qlt. }
  assert (U : Qabs (n # d) < 2 ^ (a - b + 1)).
  { rewrite pow2_succ, pow2_sub, Hq. apply Qlt_shift_div_r; [exact P|].
    apply Qlt_le_trans with (2 * 2 ^ a); [exact L2|].
    assert (E : 2 * 2 ^ a == 2 * (2 ^ a / 2 ^ b) * 2 ^ b) by (field; intros Z0; rewrite Z0 in P2; discriminate).
    rewrite E. apply Qmult_le_l; [|exact L3].
    apply Qmult_lt_0_compat; [reflexivity|]. apply Qlt_shift_div_l; [exact P2|]. now rewrite Qmult_0_l. }
  destruct (Qle_bool (2 ^ (a - b)) (Qabs (n # d))) eqn:E.
  - split; [now apply Qle_bool_iff|exact U].
  - split.
    + assert (S : 2 ^ (a - b) == 2 * 2 ^ (a - b - 1)).
      { rewrite <- pow2_succ. now replace (a - b - 1 + 1)%Z with (a - b)%Z by lia. }
      assert (S' : 2 ^ (a - b - 1) == (1 # 2) * 2 ^ (a - b)) by (rewrite S; ring).
      rewrite S', pow2_sub, Hq. apply Qle_shift_div_l; [exact P|].
      apply Qle_trans with (2 ^ a); [|exact L1].
      assert (E' : 2 ^ a == (1 # 2) * (2 ^ a / 2 ^ b) * (2 * 2 ^ b)) by (field; intros Z0; rewrite Z0 in P2; discriminate).
      rewrite E' at 2. apply Qmult_le_l; [|now apply Qlt_le_weak].
      apply Qmult_lt_0_compat; [reflexivity|]. apply Qlt_shift_div_l; [exact P2|]. now rewrite Qmult_0_l.
    + replace (a - b - 1 + 1)%Z with (a - b)%Z by lia.
      apply Qnot_le_lt. intros H. apply Qle_bool_iff in H. congruence.
Qed.

Global Instance round_proper : Proper (Qeq ==> eq) round_half_even.
Proof.
  intros x y E. apply (nearest_even_unique x); [apply round_nearest_even|].
  destruct (round_nearest_even y) as [A B]. unfold nearest_even. rewrite E. split; assumption.
Qed.

(** The rounding error is strictly smaller than [|x| * 2 ^ -p]. *)
Lemma cast_error p x : ~ x == 0 -> Qabs (cast (Bits p) x - x) < Qabs x * 2 ^ (- Zpos p).
Proof.
  intros Hx. unfold cast. destruct (Qeq_bool x 0) eqn:E0; [now apply Qeq_bool_eq in E0|clear E0].
  destruct (exponent_bounds x Hx) as [L U]. set (e := exponent x) in *.
  set (u := 2 ^ (e - Zpos p + 1)). assert (Pu : 0 < u) by apply pow2_pos.
  assert (Nu : ~ u == 0) by (intros H; rewrite H in Pu; discriminate).
  assert (Pe : 0 < 2 ^ e) by apply pow2_pos. assert (Pp : 0 < 2 ^ (- Zpos p)) by apply pow2_pos.
  assert (Hu : u == 2 * (2 ^ e * 2 ^ (- Zpos p))).
  { unfold u. rewrite pow2_succ. unfold Z.sub. rewrite Qpower_plus by exact two_nz. reflexivity. }
  destruct (round_bounds (x / u)) as [B1 B2].
  set (r := QofZ (round_half_even (x / u))) in *.
  assert (Hr : Qabs (r * u - x) <= (1 # 2) * u).
  { apply Qabs_Qle_condition.
    assert (X : x == x / u * u) by (field; exact Nu).
    assert (M1 : (r - (1 # 2)) * u <= x / u * u) by (apply Qmult_le_compat_r; lra).
    assert (M2 : x / u * u <= (r + (1 # 2)) * u) by (apply Qmult_le_compat_r; lra).
    rewrite <- X in M1, M2. split; lra. }
  destruct (Qlt_le_dec (2 ^ e) (Qabs x)) as [S|S].
  - apply Qle_lt_trans with ((1 # 2) * u); [exact Hr|]. rewrite Hu.
    setoid_replace ((1 # 2) * (2 * (2 ^ e * 2 ^ (- Zpos p)))) with (2 ^ e * 2 ^ (- Zpos p)) by ring.
    apply Qmult_lt_r; assumption.
  - assert (A : Qabs x == 2 ^ e) by (apply Qle_antisym; assumption).
    assert (I : exists z, x / u == QofZ z).
    { assert (W : 2 ^ e / u == QofZ (2 ^ (Zpos p - 1))).
      { unfold QofZ. rewrite pow2_Z by lia. unfold u. rewrite <- pow2_sub.
        now replace (e - (e - Zpos p + 1))%Z with (Zpos p - 1)%Z by lia. }
      destruct (Qlt_le_dec x 0) as [N|N].
      - exists (- 2 ^ (Zpos p - 1))%Z. rewrite QofZ_opp, <- W, <- A.
        rewrite Qabs_neg by now apply Qlt_le_weak. field. exact Nu.
      - exists (2 ^ (Zpos p - 1))%Z. rewrite <- W, <- A, Qabs_pos by exact N. reflexivity. }
    destruct I as [z I]. unfold r. rewrite I, round_QofZ, <- I.
    setoid_replace (x / u * u - x) with 0 by (field; exact Nu).
    change (Qabs 0) with 0. rewrite A. apply Qmult_lt_0_compat; assumption.
Qed.

Lemma cast_zero d : cast d 0 == 0.
Proof. destruct d; reflexivity. Qed.

Lemma quantize_elem_proper s o b x y : x == y -> quantize_elem s o b x = quantize_elem s o b y.
Proof.
  intros E. unfold quantize_elem, qdiv. destruct (Qeq_bool s 0); [reflexivity|]. cbn [rbind].
  do 2 f_equal. now rewrite E.
Qed.

(** A point at distance less than half a step from a grid point has its code. *)
Lemma quantize_near s o b z x :
  ~ s == 0 -> code b z -> Qabs (x - dequantize_elem s o z) < (1 # 2) * Qabs s -> quantize_elem s o b x = Ok z.
Proof.
  intros Hs Hz Hx. unfold quantize_elem. rewrite qdiv_nz by exact Hs. cbn [rbind]. f_equal.
  replace (round_half_even (x / s - QofZ (infer_offset o))) with z.
  { apply clamp_id. now apply code_iff. }
  set (y := x / s - QofZ (infer_offset o)).
  assert (N : nearest_even y z).
  { assert (B : Qabs (y - QofZ z) < 1 # 2).
    { assert (E : y - QofZ z == (x - dequantize_elem s o z) / s).
      { unfold y, dequantize_elem. field. exact Hs. }
      rewrite E. unfold Qdiv. rewrite Qabs_Qmult, Qabs_Qinv.
      assert (P : 0 < Qabs s).
      { destruct (Qle_lt_or_eq 0 (Qabs s) (Qabs_nonneg s)) as [L|L]; [exact L|].
        exfalso. apply Hs. destruct (Qlt_le_dec s 0) as [N|N].
        - rewrite Qabs_neg in L by now apply Qlt_le_weak. lra.
        - rewrite Qabs_pos in L by exact N. now symmetry. }
      apply Qlt_shift_div_r; assumption. }
    split; [apply Qlt_le_weak; exact B|]. intros T. unfold QofZ in B. rewrite T in B. now apply Qlt_irrefl in B. }
  exact (nearest_even_unique _ _ _ N (round_nearest_even y)).
Qed.

Lemma quantize_cast d s o b z :
  ~ s == 0 -> code b z ->
  (forall p, d = Bits p -> (Z.abs (z + infer_offset o) <= 2 ^ (Zpos p - 1))%Z) ->
  quantize_elem s o b (cast d (dequantize_elem s o z)) = Ok z.
Proof.
  intros Hs Hz Hp. destruct d as [|p].
  { cbn [cast]. now apply quantize_dequantize. }
  specialize (Hp p eq_refl). set (x := dequantize_elem s o z).
  assert (Ex : x == QofZ (z + infer_offset o) * s).
  { unfold x, dequantize_elem. rewrite QofZ_plus. reflexivity. }
  destruct (Qeq_bool x 0) eqn:E0.
  - apply Qeq_bool_eq in E0. apply quantize_near; [exact Hs|exact Hz|]. fold x. unfold cast.
    rewrite (proj2 (Qeq_bool_iff x 0) E0). rewrite E0. change (Qabs (0 - 0)) with 0.
    assert (P : ~ Qabs s == 0).
    { intros A. apply Hs. destruct (Qlt_le_dec s 0) as [N|N].
      - rewrite Qabs_neg in A by now apply Qlt_le_weak. lra.
      - now rewrite Qabs_pos in A by exact N. }
    pose proof (Qabs_nonneg s). apply Qle_lt_or_eq in H. destruct H; [lra|]. exfalso. apply P. now symmetry.
  - assert (N0 : ~ x == 0) by (intros A; apply Qeq_bool_iff in A; congruence).
    apply quantize_near; [exact Hs|exact Hz|]. fold x.
    apply Qlt_le_trans with (Qabs x * 2 ^ (- Zpos p)); [now apply cast_error|].
    rewrite Ex, Qabs_Qmult.
    assert (K : Qabs (QofZ (z + infer_offset o)) <= 2 ^ (Zpos p - 1)).
    { change (Qabs (QofZ (z + infer_offset o))) with (inject_Z (Z.abs (z + infer_offset o))).
      rewrite <- pow2_Z by lia. now rewrite <- Zle_Qle. }
    assert (H2 : 2 ^ (Zpos p - 1) * 2 ^ (- Zpos p) == 1 # 2).
    { rewrite <- Qpower_plus by exact two_nz. replace (Zpos p - 1 + - Zpos p)%Z with (-1)%Z by lia. reflexivity. }
    rewrite <- H2.
    setoid_replace (Qabs (QofZ (z + infer_offset o)) * Qabs s * 2 ^ (- Zpos p))
      with (Qabs (QofZ (z + infer_offset o)) * (Qabs s * 2 ^ (- Zpos p))) by ring.
    setoid_replace (2 ^ (Zpos p - 1) * 2 ^ (- Zpos p) * Qabs s)
      with (2 ^ (Zpos p - 1) * (Qabs s * 2 ^ (- Zpos p))) by ring.
    apply Qmult_le_compat_r; [exact K|].
    apply Qmult_le_0_compat; [apply Qabs_nonneg|apply Qlt_le_weak, pow2_pos].
Qed.

(** ** Tensors *)
Local Open Scope nat_scope.

Lemma teq_refl t : teq t t.
Proof. split; [reflexivity|]. induction (data t); constructor; [reflexivity|assumption]. Qed.

Lemma teq_sym t u : teq t u -> teq u t.
Proof. intros [A B]. split; [congruence|]. induction B; constructor; [now symmetry|assumption]. Qed.

Lemma teq_trans t u v : teq t u -> teq u v -> teq t v.
Proof.
  intros [A B] [C D]. split; [congruence|]. revert D. generalize (data v). induction B; intros w D.
  - inversion D. constructor.
  - inversion D; subst. constructor; [etransitivity; eassumption|]. now apply IHB.
Qed.

Lemma Forall2_nth_Q (l l' : list Q) i x : Forall2 Qeq l l' -> nth_error l i = Some x ->
  exists y, nth_error l' i = Some y /\ (x == y)%Q.
Proof.
  intros F. revert i. induction F; intros i H1; [destruct i; discriminate|].
  destruct i; cbn in *; [injection H1 as <-; eauto|]. now apply IHF.
Qed.

(** Code of each element under an affine quantizer. *)
Lemma affine_codes s a w :
  fits s a -> shape w = s -> length (data w) = prod s ->
  exists z, quantize_by_tile w (a_scale a) (a_tile a) (a_bits a) (a_out a) (a_offset a) = Ok z /\
    shape z = s /\ wf z /\
    forall idx x, valid s idx -> at_index w idx = Some x ->
      exists sc c, nth_error (a_scale a) (tile_row s (resolve_tile s (a_tile a)) idx) = Some sc /\
        at_index z idx = Some c /\
        quantize_elem sc (nth_offset (a_offset a) (tile_row s (resolve_tile s (a_tile a)) idx)) (a_bits a) x = Ok c.
Proof.
  intros (N & D & L & O & S & C) Hs Hl. subst s.
  destruct (quantize_by_tile_elementwise w (a_scale a) (a_tile a) (a_bits a) (a_out a) (a_offset a))
    as (z & E & Sz & Wz & F); auto.
  - unfold numel. lia.
  - exists z. repeat (split; [assumption|]). exact F.
Qed.

Lemma affine_values s a z :
  fits s a -> shape z = s -> wf z ->
  exists v, dequantize_by_tile z (a_scale a) (a_tile a) (a_offset a) = Ok v /\ shape v = s /\ wf v /\
    forall idx c, valid s idx -> at_index z idx = Some c ->
      exists sc, nth_error (a_scale a) (tile_row s (resolve_tile s (a_tile a)) idx) = Some sc /\
        at_index v idx = Some (dequantize_elem sc (nth_offset (a_offset a) (tile_row s (resolve_tile s (a_tile a)) idx)) c).
Proof.
  intros (N & D & L & O & S & C) Hs Hw. subst s.
  destruct (dequantize_by_tile_elementwise z (a_scale a) (a_tile a) (a_offset a)) as (v & E & Sv & Wv & F); auto.
  - unfold numel. unfold wf in Hw. lia.
  - exists v. repeat (split; [assumption|]). exact F.
Qed.

Lemma at_index_some {A} (t : tensor A) idx : wf t -> valid (shape t) idx -> exists x, at_index t idx = Some x.
Proof. intros W V. apply nth_error_lt_some. unfold wf in W. rewrite W. now apply ravel_lt. Qed.

Lemma codes_unique s a w u z z' :
  fits s a -> shape w = s -> length (data w) = prod s -> shape u = s -> length (data u) = prod s ->
  quantize_by_tile w (a_scale a) (a_tile a) (a_bits a) (a_out a) (a_offset a) = Ok z ->
  quantize_by_tile u (a_scale a) (a_tile a) (a_bits a) (a_out a) (a_offset a) = Ok z' ->
  (forall idx x y sc, valid s idx -> at_index w idx = Some x -> at_index u idx = Some y ->
     nth_error (a_scale a) (tile_row s (resolve_tile s (a_tile a)) idx) = Some sc ->
     let o := nth_offset (a_offset a) (tile_row s (resolve_tile s (a_tile a)) idx) in
     quantize_elem sc o (a_bits a) x = quantize_elem sc o (a_bits a) y) ->
  z = z'.
Proof.
  intros F Sw Lw Su Lu Ez Ez' H.
  destruct (affine_codes s a w F Sw Lw) as (z1 & E1 & S1 & W1 & G1). rewrite Ez in E1. injection E1 as <-.
  destruct (affine_codes s a u F Su Lu) as (z2 & E2 & S2 & W2 & G2). rewrite Ez' in E2. injection E2 as <-.
  apply tensor_ext; [assumption|assumption|congruence|].
  intros idx V. rewrite S1 in V.
  destruct (at_index_some w idx) as [x Hx]; [unfold wf; congruence|congruence|].
  destruct (at_index_some u idx) as [y Hy]; [unfold wf; congruence|congruence|].
  destruct (G1 idx x V Hx) as (sc & c & A & B & C). destruct (G2 idx y V Hy) as (sc' & c' & A' & B' & C').
  rewrite A in A'. injection A' as <-. specialize (H idx x y sc V Hx Hy A). cbn zeta in H. congruence.
Qed.

Lemma affine_qdq_total d s a w :
  fits s a -> shape w = s -> length (data w) = prod s ->
  exists v, affine_qdq d a w = Ok v /\ shape v = s /\ length (data v) = prod s.
Proof.
  intros F Sw Lw. destruct (affine_codes s a w F Sw Lw) as (z & E & Sz & Wz & _).
  destruct (affine_values s a z F Sz Wz) as (v & E' & Sv & Wv & _).
  exists (tmap (cast d) v). unfold affine_qdq. rewrite E. cbn [rbind]. rewrite E'. cbn [rbind].
  split; [reflexivity|]. split; [exact Sv|]. unfold tmap; cbn [data]. rewrite map_length. unfold wf in Wv. congruence.
Qed.

Lemma affine_qdq_proper d s a w u :
  fits s a -> shape w = s -> length (data w) = prod s -> teq w u -> affine_qdq d a w = affine_qdq d a u.
Proof.
  intros F Sw Lw [Es Ed].
  assert (Lu : length (data u) = prod s) by (rewrite <- (Forall2_length _ _ _ Ed); exact Lw).
  assert (Su : shape u = s) by congruence.
  destruct (affine_codes s a w F Sw Lw) as (z & E & _). destruct (affine_codes s a u F Su Lu) as (z' & E' & _).
  assert (z = z').
  { apply (codes_unique s a w u z z' F Sw Lw Su Lu E E'). intros idx x y sc V Hx Hy _. apply quantize_elem_proper.
    unfold at_index in Hx, Hy. rewrite <- Es in Hy.
    destruct (Forall2_nth_Q _ _ _ _ Ed Hx) as (y' & A & B). rewrite A in Hy. injection Hy as ->. exact B. }
  subst z'. unfold affine_qdq. now rewrite E, E'.
Qed.

Lemma precise_elem d a i z sc :
  precise d a -> (forall o, a_offset a = Some o -> length o = length (a_scale a)) ->
  nth_error (a_scale a) i = Some sc -> code (a_bits a) z ->
  forall p, d = Bits p -> (Z.abs (z + infer_offset (nth_offset (a_offset a) i)) <= 2 ^ (Zpos p - 1))%Z.
Proof.
  intros P L Hi Hz p ->. cbn [precise] in P. specialize (P z Hz). destruct (a_offset a) as [os|]; cbn [nth_offset].
  - destruct (nth_error os i) as [o|] eqn:E.
    + cbn [infer_offset]. apply P. eapply nth_error_In; eassumption.
    + apply nth_error_None in E. specialize (L os eq_refl). assert (i < length (a_scale a)); [|lia].
      apply nth_error_Some. congruence.
  - cbn [infer_offset]. now rewrite Z.add_0_r.
Qed.

Lemma affine_qdq_idem d s a w v :
  fits s a -> precise d a -> shape w = s -> length (data w) = prod s ->
  affine_qdq d a w = Ok v -> affine_qdq d a v = Ok v.
Proof.
  intros F P Sw Lw. destruct (affine_codes s a w F Sw Lw) as (z & E & Sz & Wz & G).
  destruct (affine_values s a z F Sz Wz) as (v0 & E' & Sv & Wv & H).
  unfold affine_qdq at 1. rewrite E. cbn [rbind]. rewrite E'. cbn [rbind]. intros X. injection X as <-.
  assert (Sv1 : shape (tmap (cast d) v0) = s) by exact Sv.
  assert (Lv1 : length (data (tmap (cast d) v0)) = prod s) by (cbn; rewrite map_length; unfold wf in Wv; congruence).
  destruct (affine_codes s a _ F Sv1 Lv1) as (z' & Ez' & _).
  assert (z' = z).
  { apply (codes_unique s a _ w z' z F Sv1 Lv1 Sw Lw Ez' E). intros idx x y sc V Hx Hy Hsc. cbn zeta.
    destruct (G idx y V Hy) as (sc' & c & A & B & C). rewrite Hsc in A. injection A as <-.
    destruct (H idx c V B) as (sc' & A & D). rewrite Hsc in A. injection A as <-.
    rewrite tmap_at, D in Hx. cbn [option_map] in Hx. injection Hx as <-. rewrite C.
    destruct F as (_ & _ & _ & O & S & _).
    apply quantize_cast.
    - apply S. eapply nth_error_In; eassumption.
    - eapply quantize_in_range; eassumption.
    - eapply precise_elem; try eassumption. eapply quantize_in_range; eassumption. }
  subst z'. unfold affine_qdq. rewrite Ez'. cbn [rbind]. rewrite E'. reflexivity.
Qed.

Lemma affine_stable d s a :
  fits s a -> precise d a -> stable_on s (fun w => rmap New (affine_qdq d a w)).
Proof.
  intros F P w Sw Lw. destruct (affine_qdq_total d s a w F Sw Lw) as (v & E & Sv & Lv).
  split; [|split].
  - rewrite E. cbn [rmap]. intros v' H. injection H as <-. auto.
  - intros o u H T. rewrite <- (affine_qdq_proper d s a w u F Sw Lw T).
    exists o. split; [exact H|]. split; [tauto|]. rewrite E in H. cbn in H. injection H as <-. apply teq_refl.
  - intros v' H. rewrite E in H. cbn in H. injection H as <-. exists v. split; [|apply teq_refl].
    now rewrite (affine_qdq_idem d s a w v F P Sw Lw E).
Qed.
