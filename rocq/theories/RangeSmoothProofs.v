From Verif Require Import Prelude TilingModel TilingSpec TilingProofs GranularityModel GranularityProofs
  AffineModel AffineSpec AffineProofs AffineTensorProofs OverrideModel OverrideProofs RangeModel RangeSpec RangeProofs.
From Coq Require Import QArith Qminmax Qabs Lqa.
Local Open Scope nat_scope.
Local Open Scope Q_scope.
(** ** Smoothed estimator *)
Lemma qtotal_app a b : qtotal (a ++ b) == qtotal a + qtotal b.
Proof. induction a as [|x a IH]; unfold qtotal in *; simpl; [lra|rewrite IH; lra]. Qed.
Lemma qtotal_ext (f g : nat -> Q) l : (forall i, In i l -> f i == g i) -> qtotal (map f l) == qtotal (map g l).
Proof.
  induction l as [|x l IH]; intros H; unfold qtotal in *; simpl; [lra|].
  rewrite IH by (intros; apply H; now right). rewrite (H x) by now left. lra.
Qed.
Lemma qtotal_scale c f (l : list nat) : qtotal (map (fun i => c * f i)%Q l) == c * qtotal (map f l).
Proof. induction l as [|x l IH]; unfold qtotal in *; simpl; [lra|rewrite IH; lra]. Qed.

Lemma smoothed_single gamma x : smoothed gamma [x] == x.
Proof. unfold smoothed, qtotal, weight. simpl. lra. Qed.
Lemma weight_snoc gamma n i : (i < n)%nat -> weight gamma (S n) i == (1 - gamma) * weight gamma n i.
Proof.
  intros H. unfold weight. destruct (i =? 0)%nat eqn:E.
  - replace (S n - 1)%nat with (S (n - 1))%nat by lia. simpl. lra.
  - apply Nat.eqb_neq in E. replace (S n - 1 - i)%nat with (S (n - 1 - i))%nat by lia. simpl. lra.
Qed.
Lemma weight_last gamma n : n <> 0%nat -> weight gamma (S n) n == gamma.
Proof.
  intros H. unfold weight. destruct (n =? 0)%nat eqn:E; [apply Nat.eqb_eq in E; lia|].
  replace (S n - 1 - n)%nat with 0%nat by lia. simpl. lra.
Qed.
Lemma smoothed_snoc gamma l x : l <> [] -> smoothed gamma (l ++ [x]) == gamma * x + (1 - gamma) * smoothed gamma l.
Proof.
  intros Hne. unfold smoothed. rewrite app_length. simpl length. rewrite Nat.add_1_r, seq_S, map_app, qtotal_app.
  assert (HL : length l <> 0%nat) by (destruct l; simpl; [easy|lia]).
  rewrite (qtotal_ext _ (fun i => (1 - gamma) * (weight gamma (length l) i * nth i l 0))%Q (seq 0 (length l))).
  - rewrite qtotal_scale. unfold qtotal at 2. simpl map. simpl fold_right.
    rewrite app_nth2 by lia. rewrite Nat.sub_diag. simpl nth. rewrite weight_last by assumption. lra.
  - intros i Hi. apply in_seq in Hi. rewrite app_nth1 by lia. rewrite weight_snoc by lia. lra.
Qed.
Lemma weights_sum gamma n : n <> 0%nat -> qtotal (map (weight gamma n) (seq 0 n)) == 1.
Proof.
  intros H. destruct n as [|n]; [easy|]. clear H. induction n as [|n IH]; [unfold qtotal, weight; simpl; lra|].
  rewrite seq_S, map_app, qtotal_app.
  rewrite (qtotal_ext _ (fun i => (1 - gamma) * weight gamma (S n) i)%Q).
  - rewrite qtotal_scale, IH. unfold qtotal. simpl map. simpl fold_right. rewrite weight_last by lia. lra.
  - intros i Hi. apply in_seq in Hi. apply weight_snoc. lia.
Qed.
Lemma qpow_nonneg x n : 0 <= x -> 0 <= qpow x n.
Proof. intros H. induction n; simpl; [lra|]. now apply Qmult_le_0_compat. Qed.
Lemma weight_nonneg gamma n i : 0 <= gamma <= 1 -> 0 <= weight gamma n i.
Proof.
  intros [H1 H2]. unfold weight. destruct (i =? 0)%nat; [apply qpow_nonneg; lra|].
  apply Qmult_le_0_compat; [assumption|apply qpow_nonneg; lra].
Qed.
Lemma smoothed_between gamma l : 0 <= gamma <= 1 -> l <> [] ->
  (exists m, In m l /\ m <= smoothed gamma l) /\ (exists m, In m l /\ smoothed gamma l <= m).
Proof.
  intros Hg. induction l as [|x l IH] using rev_ind; intros Hne; [easy|]. destruct l as [|y l].
  - split; exists x; (split; [now left|]); simpl app; rewrite smoothed_single; lra.
  - destruct IH as [(m1 & I1 & H1) (m2 & I2 & H2)]; [easy|]. set (e := smoothed gamma (y :: l)) in *.
    assert (E : smoothed gamma ((y :: l) ++ [x]) == gamma * x + (1 - gamma) * e) by (apply smoothed_snoc; easy).
    assert (Hmono : forall u v w, u <= v -> u <= w -> u <= gamma * v + (1 - gamma) * w).
    { intros u v w A1 A2. assert (gamma * u <= gamma * v) by (rewrite (Qmult_comm gamma u), (Qmult_comm gamma v); apply Qmult_le_compat_r; lra).
      assert ((1 - gamma) * u <= (1 - gamma) * w) by (rewrite (Qmult_comm _ u), (Qmult_comm _ w); apply Qmult_le_compat_r; lra). lra. }
    assert (Hmono2 : forall u v w, v <= u -> w <= u -> gamma * v + (1 - gamma) * w <= u).
    { intros u v w A1 A2. assert (gamma * v <= gamma * u) by (rewrite (Qmult_comm gamma u), (Qmult_comm gamma v); apply Qmult_le_compat_r; lra).
      assert ((1 - gamma) * w <= (1 - gamma) * u) by (rewrite (Qmult_comm _ u), (Qmult_comm _ w); apply Qmult_le_compat_r; lra). lra. }
    split.
    + destruct (Qlt_le_dec x m1) as [Hx|Hx].
      * exists x. split; [apply in_or_app; right; now left|]. rewrite E. apply Hmono; lra.
      * exists m1. split; [apply in_or_app; now left|]. rewrite E. apply Hmono; lra.
    + destruct (Qlt_le_dec m2 x) as [Hx|Hx].
      * exists x. split; [apply in_or_app; right; now left|]. rewrite E. apply Hmono2; lra.
      * exists m2. split; [apply in_or_app; now left|]. rewrite E. apply Hmono2; lra.
Qed.

Lemma no_inf l : existsb is_inf (map Fin l) = false.
Proof. induction l; simpl; auto. Qed.
Lemma bcast_mix gamma d a : length d = length a ->
  bcast (mix gamma) d (map Fin a) = Ok (map Fin (map (fun '(x, y) => gamma * x + (1 - gamma) * y)%Q (combine d a))).
Proof.
  intros L. rewrite bcast_same by (now rewrite map_length). f_equal. rewrite map_map. revert a L.
  induction d as [|x d IH]; intros [|y a] L; simpl in *; try discriminate; [reflexivity|]. f_equal. apply IH. lia.
Qed.

Lemma Forall2_snoc_inv {A B} (R : A -> B -> Prop) l x l' : Forall2 R (l ++ [x]) l' ->
  exists m y, l' = m ++ [y] /\ Forall2 R l m /\ R x y.
Proof.
  intros H. apply Forall2_app_inv_l in H. destruct H as (m & r & H1 & H2 & ->).
  inversion H2 as [|? y ? ? Hy H3]; subst. inversion H3; subst. exists m, y. auto.
Qed.

Lemma smoothed_from_range g gamma n lo hi bs : length lo = n -> length hi = n -> Forall (batch_ok g n) bs ->
  exists mn mx, run_batches (smoothed_step g gamma) (Some (map Fin lo), Some (map Fin hi)) bs = Ok (Some (map Fin mn), Some (map Fin mx)) /\
    length mn = n /\ length mx = n /\
    forall k, (k < n)%nat -> forall ms,
      (Forall2 (fun b m => is_min (tile_value g b k) m) bs ms -> nth k mn 0 == smoothed gamma (nth k lo 0%Q :: ms)) /\
      (Forall2 (fun b m => is_max (tile_value g b k) m) bs ms -> nth k mx 0 == smoothed gamma (nth k hi 0%Q :: ms)).
Proof.
  intros Ll Lh. induction bs as [|b bs IH] using rev_ind; intros HB.
  - exists lo, hi. split; [reflexivity|]. split; [assumption|]. split; [assumption|]. intros k Hk ms.
    split; intros H; inversion H; subst; now rewrite smoothed_single.
  - apply Forall_app in HB. destruct HB as [HB Hb]. apply Forall_inv in Hb. destruct (IH HB) as (mn & mx & E & L1 & L2 & H).
    rewrite run_snoc, E. cbn [rbind]. unfold smoothed_step, init_buffers. rewrite (param_dim _ _ _ Hb). cbn [rbind fst snd].
    destruct (batch_extremes_spec g n b Hb) as (dn & dx & Ed & M1 & M2 & Hd). rewrite Ed. cbn [rbind].
    rewrite !no_inf. cbn [orb]. rewrite !bcast_mix by congruence. cbn [rbind].
    eexists. eexists. split; [reflexivity|]. rewrite !map_length, !combine_length. split; [lia|]. split; [lia|].
    assert (G : forall (d a : list Q) k, (k < n)%nat -> length d = n -> length a = n ->
      nth k (map (fun '(x, y) => gamma * x + (1 - gamma) * y)%Q (combine d a)) 0%Q = (gamma * nth k d 0 + (1 - gamma) * nth k a 0)%Q).
    { intros d a k Hk Ld La. set (f := fun '(x, y) => (gamma * x + (1 - gamma) * y)%Q).
      rewrite (nth_indep _ 0%Q (f (0, 0)%Q)) by (rewrite map_length, combine_length; lia).
      rewrite (map_nth f). rewrite combine_nth by congruence. reflexivity. }
    intros k Hk ms. split; intros HF; apply Forall2_snoc_inv in HF; destruct HF as (ms' & m & -> & HF & Hm).
    + rewrite G by congruence. rewrite (proj1 (H k Hk ms') HF).
      destruct (nth_error_lt_some dn k) as [u Hu]; [lia|]. rewrite (nth_error_nth _ _ _ Hu).
      pose proof (is_min_unique _ _ _ (proj1 (Hd k u) Hu) Hm) as Eu.
      rewrite app_comm_cons. rewrite (smoothed_snoc gamma (nth k lo 0%Q :: ms') m) by easy. rewrite Eu. lra.
    + rewrite G by congruence. rewrite (proj2 (H k Hk ms') HF).
      destruct (nth_error_lt_some dx k) as [u Hu]; [lia|]. rewrite (nth_error_nth _ _ _ Hu).
      pose proof (is_max_unique _ _ _ (proj2 (Hd k u) Hu) Hm) as Eu.
      rewrite app_comm_cons. rewrite (smoothed_snoc gamma (nth k hi 0%Q :: ms') m) by easy. rewrite Eu. lra.
Qed.

Lemma smoothed_head gamma x y l : x == y -> smoothed gamma (x :: l) == smoothed gamma (y :: l).
Proof.
  intros E. induction l as [|z l IH] using rev_ind; [now rewrite !smoothed_single|].
  rewrite !app_comm_cons. rewrite !smoothed_snoc by easy. now rewrite IH.
Qed.

Lemma smoothed_fresh g gamma n bs : n <> 0%nat -> bs <> [] -> Forall (batch_ok g n) bs ->
  exists mn mx, run_batches (smoothed_step g gamma) (None, None) bs = Ok (Some (map Fin mn), Some (map Fin mx)) /\
    length mn = n /\ length mx = n /\
    forall k, (k < n)%nat -> forall ms,
      (Forall2 (fun b m => is_min (tile_value g b k) m) bs ms -> nth k mn 0 == smoothed gamma ms) /\
      (Forall2 (fun b m => is_max (tile_value g b k) m) bs ms -> nth k mx 0 == smoothed gamma ms).
Proof.
  intros Hn Hne HB. destruct bs as [|b bs]; [easy|]. inversion HB as [|? ? Hb HB']; subst.
  destruct (batch_extremes_spec g n b Hb) as (dn & dx & Ed & M1 & M2 & Hd).
  assert (E1 : smoothed_step g gamma (None, None) b = Ok (Some (map Fin dn), Some (map Fin dx))).
  { unfold smoothed_step, init_buffers. rewrite (param_dim _ _ _ Hb). cbn [rbind fst snd]. rewrite Ed. cbn [rbind].
    destruct n; [easy|]. reflexivity. }
  rewrite (run_cons _ _ _ _ _ E1).
  destruct (smoothed_from_range g gamma n dn dx bs M1 M2 HB') as (mn & mx & E & L1 & L2 & H).
  exists mn, mx. split; [assumption|]. split; [assumption|]. split; [assumption|].
  intros k Hk ms. split; intros HF; inversion HF as [|? m ? ms' Hm HF']; subst.
  - rewrite (proj1 (H k Hk ms') HF'). apply smoothed_head. destruct (nth_error_lt_some dn k) as [u Hu]; [lia|].
    rewrite (nth_error_nth _ _ _ Hu). exact (is_min_unique _ _ _ (proj1 (Hd k u) Hu) Hm).
  - rewrite (proj2 (H k Hk ms') HF'). apply smoothed_head. destruct (nth_error_lt_some dx k) as [u Hu]; [lia|].
    rewrite (nth_error_nth _ _ _ Hu). exact (is_max_unique _ _ _ (proj2 (Hd k u) Hu) Hm).
Qed.

Lemma smoothed_between_extremes g gamma n bs : n <> 0%nat -> bs <> [] -> Forall (batch_ok g n) bs -> 0 <= gamma <= 1 ->
  exists mn mx, run_batches (smoothed_step g gamma) (None, None) bs = Ok (Some (map Fin mn), Some (map Fin mx)) /\
    forall k, (k < n)%nat -> forall ms,
      (Forall2 (fun b m => is_min (tile_value g b k) m) bs ms ->
         (exists m, In m ms /\ m <= nth k mn 0) /\ (exists m, In m ms /\ nth k mn 0 <= m)) /\
      (Forall2 (fun b m => is_max (tile_value g b k) m) bs ms ->
         (exists m, In m ms /\ m <= nth k mx 0) /\ (exists m, In m ms /\ nth k mx 0 <= m)).
Proof.
  intros Hn Hne HB Hg. destruct (smoothed_fresh g gamma n bs Hn Hne HB) as (mn & mx & E & _ & _ & H).
  exists mn, mx. split; [assumption|]. intros k Hk ms. destruct (H k Hk ms) as [H1 H2].
  assert (Hms : length bs = length ms -> ms <> []) by (intros L ->; destruct bs; [easy|discriminate]).
  split; intros HF.
  - specialize (H1 HF). destruct (smoothed_between gamma ms Hg (Hms (Forall2_length _ _ _ HF))) as [(m1 & I1 & L1) (m2 & I2 & L2)].
    split; [exists m1|exists m2]; (split; [assumption|lra]).
  - specialize (H2 HF). destruct (smoothed_between gamma ms Hg (Hms (Forall2_length _ _ _ HF))) as [(m1 & I1 & L1) (m2 & I2 & L2)].
    split; [exists m1|exists m2]; (split; [assumption|lra]).
Qed.
