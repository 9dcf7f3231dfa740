(** Proofs about the binary16 conversion. *)
From Verif Require Import Prelude TilingModel AffineModel AffineSpec AffineProofs GgufModel GgufSpec.
From Coq Require Import QArith Qpower Qround Qabs Qminmax Lqa.
Local Open Scope Q_scope.

Lemma two_nz : ~ 2 == 0. Proof. discriminate. Qed.

Lemma two_pow_pos e : 0 < two_pow e.
Proof. apply Qpower_0_lt. reflexivity. Qed.
Lemma two_pow_nz e : ~ two_pow e == 0.
Proof. pose proof (two_pow_pos e). intros H'. lra. Qed.
Lemma two_pow_add a b : two_pow (a + b) == two_pow a * two_pow b.
Proof. apply Qpower_plus, two_nz. Qed.
Lemma two_pow_le a b : (a <= b)%Z -> two_pow a <= two_pow b.
Proof. intros H. apply Qpower_le_compat_l; [exact H|discriminate]. Qed.
Lemma two_pow_shift a b : two_pow a == two_pow (a - b) * two_pow b.
Proof. rewrite <- two_pow_add. now replace (a - b + b)%Z with a by lia. Qed.

Lemma qlt_bool_iff a b : qlt_bool a b = true <-> a < b.
Proof.
  unfold qlt_bool. destruct (Qle_bool b a) eqn:E; simpl.
  - apply Qle_bool_iff in E. split; [discriminate|]. lra.
  - split; [|reflexivity]. intros _. destruct (Qlt_le_dec a b) as [H|H]; [exact H|].
    apply Qle_bool_iff in H. congruence.
Qed.

(** The binade search. *)
Lemma find_binade n o s : 
  match find (fun e => qlt_bool s (two_pow (e + 1))) (map (fun k => Z.of_nat k - 14)%Z (seq o n)) with
  | Some e => s < two_pow (e + 1) /\ (Z.of_nat o - 14 <= e < Z.of_nat (o + n) - 14)%Z /\
              (e = (Z.of_nat o - 14)%Z \/ two_pow e <= s)
  | None => n = 0%nat \/ two_pow (Z.of_nat (o + n) - 14) <= s
  end.
Proof.
  revert o. induction n as [|n IH]; intros o; [now left|].
  cbn [seq map find]. destruct (qlt_bool s (two_pow (Z.of_nat o - 14 + 1))) eqn:E.
  - apply qlt_bool_iff in E. repeat split; try assumption; try lia.
  - assert (H : two_pow (Z.of_nat o - 14 + 1) <= s).
    { destruct (Qlt_le_dec s (two_pow (Z.of_nat o - 14 + 1))) as [H|H]; [|exact H].
      apply qlt_bool_iff in H. congruence. }
    specialize (IH (S o)). destruct (find _ _) as [e|].
    + destruct IH as (A & B & C). repeat split; try assumption; try lia. right.
      destruct C as [->|C]; [|exact C].
      now replace (Z.of_nat (S o) - 14)%Z with (Z.of_nat o - 14 + 1)%Z by lia.
    + right. destruct IH as [->|IH].
      * now replace (Z.of_nat (o + 1) - 14)%Z with (Z.of_nat o - 14 + 1)%Z by lia.
      * now replace (o + S n)%nat with (S o + n)%nat by lia.
Qed.

Lemma half_decode k m : (0 <= k <= 29)%Z -> (0 <= m <= 2048)%Z -> (k = 0 \/ 1024 <= m)%Z ->
  (k * 1024 + m < 31 * 1024)%Z ->
  exists h, half_value (k * 1024 + m) = Some h /\ h == inject_Z m * two_pow (k - 24).
Proof.
  intros Hk Hm Hkm Hlt.
  assert (D : exists e r, (k * 1024 + m = e * 1024 + r /\ 0 <= r < 1024 /\ 0 <= e < 31)%Z /\
     ((if (e =? 0)%Z then inject_Z r * Qpower 2 (-24) else inject_Z (1024 + r) * Qpower 2 (e - 25))
       == inject_Z m * two_pow (k - 24))).
  { destruct (Z_lt_ge_dec m 1024) as [H|H].
    - destruct Hkm as [->|]; [|lia]. exists 0%Z, m. split; [lia|]. reflexivity.
    - destruct (Z_lt_ge_dec m 2048) as [H'|H'].
      + exists (k + 1)%Z, (m - 1024)%Z. split; [lia|].
        replace (k + 1 =? 0)%Z with false by (symmetry; apply Z.eqb_neq; lia).
        replace (1024 + (m - 1024))%Z with m by lia. replace (k + 1 - 25)%Z with (k - 24)%Z by lia. reflexivity.
      + exists (k + 2)%Z, 0%Z. split; [lia|].
        replace (k + 2 =? 0)%Z with false by (symmetry; apply Z.eqb_neq; lia).
        replace m with 2048%Z by lia. fold (two_pow (k + 2 - 25)).
        replace (k + 2 - 25)%Z with (k - 24 + 1)%Z by lia. rewrite two_pow_add.
        change (two_pow 1) with 2. change (inject_Z (1024 + 0)) with 1024. change (inject_Z 2048) with 2048. lra. }
  destruct D as (e & r & (E & Hr & He) & V).
  rewrite E. unfold half_value.
  assert (E1 : ((e * 1024 + r) / 32768 = 0)%Z) by (apply Z.div_small; lia).
  assert (E2 : ((e * 1024 + r) / 1024 = e)%Z) by (rewrite Z.div_add_l by lia; rewrite Z.div_small by lia; lia).
  assert (E3 : ((e * 1024 + r) mod 1024 = r)%Z).
  { rewrite Z.add_comm, Z.mod_add by lia. apply Z.mod_small. lia. }
  rewrite E1, E2, E3. rewrite (Z.mod_small e 32) by lia.
  replace (e =? 31)%Z with false by (symmetry; apply Z.eqb_neq; lia).
  eexists; split; [reflexivity|]. exact V.
Qed.

Lemma QofZ_le_inv a b : inject_Z a <= inject_Z b -> (a <= b)%Z.
Proof. intros H. now rewrite <- Zle_Qle in H. Qed.

(** The binade of [s], its grid step and the rounded multiple. *)
Lemma half_magnitude_spec s : 0 <= s -> s < 65520 ->
  exists e h, (-14 <= e <= 15)%Z /\ (e = (-14)%Z \/ two_pow e <= s) /\ s < two_pow (e + 1) /\
    half_value (half_magnitude s) = Some h /\
    h == inject_Z (round_half_even (s / two_pow (e - 10))) * two_pow (e - 10) /\
    (0 <= half_magnitude s < 31 * 1024)%Z.
Proof.
  intros H0 H1. pose proof (find_binade 30 0 s) as F. unfold half_magnitude.
  destruct (find _ _) as [e|].
  2:{ exfalso. destruct F as [F|F]; [discriminate|]. change (Z.of_nat (0 + 30) - 14)%Z with 16%Z in F.
      change (two_pow 16) with 65536 in F. lra. }
  destruct F as (A & B & C). change (Z.of_nat 0 - 14)%Z with (-14)%Z in *.
  change (Z.of_nat (0 + 30) - 14)%Z with 16%Z in *.
  pose proof (two_pow_pos (e - 10)) as U.
  set (u := two_pow (e - 10)) in *. set (m := round_half_even (s / u)).
  assert (Q0 : s == (s / u) * u) by (field; apply two_pow_nz).
  assert (P10 : two_pow e == u * 1024).
  { unfold u. rewrite (two_pow_shift e 10). reflexivity. }
  assert (P11 : two_pow (e + 1) == u * 2048).
  { unfold u. rewrite (two_pow_shift (e + 1) 11). replace (e + 1 - 11)%Z with (e - 10)%Z by lia. reflexivity. }
  assert (L0 : 0 <= s / u) by (apply Qle_shift_div_l; [exact U|]; lra).
  assert (L1 : s / u <= 2048) by (apply Qle_shift_div_r; [exact U|]; lra).
  assert (M0 : (0 <= m)%Z).
  { unfold m. rewrite <- (round_QofZ 0). apply round_mono. exact L0. }
  assert (M1 : (m <= 2048)%Z).
  { unfold m. rewrite <- (round_QofZ 2048). apply round_mono. exact L1. }
  assert (M2 : (e = -14 \/ 1024 <= m)%Z).
  { destruct C as [C|C]; [now left|right]. unfold m. rewrite <- (round_QofZ 1024). apply round_mono.
    apply Qle_shift_div_l; [exact U|]. change (QofZ 1024) with 1024. lra. }
  assert (M3 : ((e + 14) * 1024 + m < 31 * 1024)%Z).
  { destruct (Z.eq_dec e 15) as [E|E]; [|lia]. 
    assert (m <= 2047)%Z; [|lia].
    assert (u == 32) by (unfold u; rewrite E; reflexivity).
    assert (s / u < 4095 # 2).
    { apply Qlt_shift_div_r; [exact U|]. lra. }
    pose proof (round_bounds (s / u)) as [RB _]. fold m in RB.
    assert (QofZ m < QofZ 2048) as HM by (change (QofZ 2048) with 2048; lra).
    unfold QofZ in HM. rewrite <- Zlt_Qlt in HM. lia. }
  destruct (half_decode (e + 14) m) as (h & E1 & E2); [lia|lia|lia|exact M3|].
  replace (e + 14 - 24)%Z with (e - 10)%Z in E2 by lia.
  exists e, h. repeat split; try assumption; try lia.
Qed.

(** Rounding error: half a grid step. *)
Lemma half_error s : 0 <= s -> s < 65520 ->
  exists h, half_value (half_magnitude s) = Some h /\
    Qabs (h - s) <= Qmax (s * two_pow (-11)) (two_pow (-25)).
Proof.
  intros H0 H1. destruct (half_magnitude_spec s H0 H1) as (e & h & B & C & A & E & V & _).
  exists h. split; [exact E|].
  pose proof (two_pow_pos (e - 10)) as U. set (u := two_pow (e - 10)) in *.
  pose proof (round_bounds (s / u)) as RB. set (m := round_half_even (s / u)) in *.
  assert (Q0 : s == (s / u) * u) by (field; apply two_pow_nz).
  set (v := s / u) in *. unfold QofZ in RB. set (im := inject_Z m) in *.
  assert (L : Qabs (h - s) <= u * (1 # 2)).
  { apply Qabs_Qle_condition. split; nra. }
  eapply Qle_trans; [exact L|].
  assert (U2 : u * (1 # 2) == two_pow (e - 11)).
  { unfold u. replace (e - 11)%Z with (e - 10 + -1)%Z by lia. rewrite two_pow_add. reflexivity. }
  rewrite U2. destruct C as [-> |C].
  - apply Q.le_max_r.
  - eapply Qle_trans; [|apply Q.le_max_l].
    rewrite (two_pow_shift (e - 11) (-11)). replace (e - 11 - -11)%Z with e by lia.
    apply Qmult_le_compat_r; [exact C|]. pose proof (two_pow_pos (-11)). lra.
Qed.

Lemma two_pow_lt_inv a b : two_pow a < two_pow b -> (a < b)%Z.
Proof. intros H. apply (Qpower_lt_compat_l_inv 2); [exact H|reflexivity]. Qed.

(** A non-negative binary16 number converts to itself. *)
Lemma half_exact s : is_half s -> exists h, half_value (to_half s) = Some h /\ h == s /\ 0 <= s /\
  (0 <= to_half s < 31 * 1024)%Z.
Proof.
  intros (c & Hc & h0 & E0 & V0).
  (* decompose c *)
  assert (D : exists k m, (0 <= k <= 29)%Z /\ (0 <= m < 2048)%Z /\ (k = 0 \/ 1024 <= m)%Z /\
            s == inject_Z m * two_pow (k - 24)).
  { unfold half_value in E0. replace (c / 32768)%Z with 0%Z in E0 by (symmetry; apply Z.div_small; lia).
    cbn [Z.eqb] in E0.
    assert (He : (0 <= c / 1024 < 32)%Z) by (split; [apply Z.div_pos|apply Z.div_lt_upper_bound]; lia).
    rewrite (Z.mod_small (c / 1024) 32 He) in E0. pose proof (Z.mod_pos_bound c 1024 ltac:(lia)) as Hm.
    set (e := (c / 1024)%Z) in *. set (r := (c mod 1024)%Z) in *.
    destruct (Z.eqb_spec e 31) as [|N31]; [discriminate|]. injection E0 as E0.
    destruct (Z.eqb_spec e 0) as [Ez|Nz].
    - exists 0%Z, r. repeat split; try lia. rewrite <- V0, <- E0. reflexivity.
    - exists (e - 1)%Z, (1024 + r)%Z. repeat split; try lia.
      rewrite <- V0, <- E0. unfold two_pow. now replace (e - 1 - 24)%Z with (e - 25)%Z by lia. }
  destruct D as (k & m & Hk & Hm & Hkm & Es).
  pose proof (two_pow_pos (k - 24)) as P.
  assert (I0 : 0 <= inject_Z m) by (change 0 with (inject_Z 0); rewrite <- Zle_Qle; lia).
  assert (S0 : 0 <= s) by (rewrite Es; nra).
  assert (I1 : inject_Z m <= 2047) by (change 2047 with (inject_Z 2047); rewrite <- Zle_Qle; lia).
  assert (P30 : two_pow (k - 24) <= two_pow 5) by (apply two_pow_le; lia).
  change (two_pow 5) with 32 in P30.
  assert (S1 : s < 65520) by (rewrite Es; nra).
  destruct (half_magnitude_spec s S0 S1) as (e & h & B & C & A & E & V & G).
  assert (T : to_half s = half_magnitude s).
  { unfold to_half. destruct (qlt_bool s 0) eqn:Q; [|reflexivity]. apply qlt_bool_iff in Q. lra. }
  rewrite T. exists h. split; [exact E|]. split; [|split; assumption].
  assert (Ek : e = (k - 14)%Z).
  { assert (S2 : s < two_pow (k - 13)).
    { rewrite Es, (two_pow_shift (k - 13) 11). replace (k - 13 - 11)%Z with (k - 24)%Z by lia.
      change (two_pow 11) with 2048. nra. }
    assert (e <= k - 14)%Z.
    { destruct C as [->|C]; [lia|]. assert (two_pow e < two_pow (k - 13)) as H by lra.
      apply two_pow_lt_inv in H. lia. }
    destruct Hkm as [->|Hk1].
    - lia.
    - assert (S3 : two_pow (k - 14) <= s).
      { rewrite Es, (two_pow_shift (k - 14) 10). replace (k - 14 - 10)%Z with (k - 24)%Z by lia.
        change (two_pow 10) with 1024.
        assert (1024 <= inject_Z m) by (change 1024 with (inject_Z 1024); rewrite <- Zle_Qle; lia). nra. }
      assert (two_pow (k - 14) < two_pow (e + 1)) as H' by lra. apply two_pow_lt_inv in H'. lia. }
  subst e. replace (k - 14 - 10)%Z with (k - 24)%Z in V by lia.
  assert (R : round_half_even (s / two_pow (k - 24)) = m).
  { rewrite <- (round_QofZ m). apply round_morph || idtac.
    assert (s / two_pow (k - 24) == QofZ m) as EQ by (rewrite Es; unfold QofZ; field; apply two_pow_nz).
    now rewrite EQ, round_QofZ. }
  rewrite V, R. symmetry. exact Es.
Qed.

Lemma half_overflow s : 65520 <= s -> half_value (to_half s) = None.
Proof.
  intros H. assert (T : to_half s = half_magnitude s).
  { unfold to_half. destruct (qlt_bool s 0) eqn:Q; [|reflexivity]. apply qlt_bool_iff in Q. lra. }
  rewrite T. unfold half_magnitude. pose proof (find_binade 30 0 s) as F.
  destruct (find _ _) as [e|]; [|reflexivity].
  destruct F as (A & B & C). change (Z.of_nat 0 - 14)%Z with (-14)%Z in *.
  change (Z.of_nat (0 + 30) - 14)%Z with 16%Z in *.
  assert (e = 15%Z).
  { destruct (Z_lt_ge_dec e 15) as [L|]; [|lia]. exfalso.
    assert (two_pow (e + 1) <= two_pow 15) as L2 by (apply two_pow_le; lia).
    change (two_pow 15) with 32768 in L2. lra. }
  subst e. change (two_pow (15 - 10)) with 32. change (two_pow (15 + 1)) with 65536 in A.
  assert (R : round_half_even (s / 32) = 2048%Z).
  { apply Z.le_antisymm.
    - rewrite <- (round_QofZ 2048). apply round_mono. change (QofZ 2048) with 2048.
      apply Qle_shift_div_r; lra.
    - change 2048%Z with (round_half_even (4095 # 2)). apply round_mono. apply Qle_shift_div_l; lra. }
  rewrite R. reflexivity.
Qed.

(** The two stored bytes read back as the 16-bit pattern. *)
Lemma half_bytes_value s rest : half_at (half_bytes s ++ rest) 0 = half_value (to_half s).
Proof.
  unfold half_at, half_bytes. cbn [app nth_error Nat.add]. f_equal.
  pose proof (Z.div_mod (to_half s) 256 ltac:(lia)). lia.
Qed.
