(** Group scales that are recomputed inside the column loop. *)
From Verif Require Import Prelude TilingModel TilingSpec TilingProofs GranularityModel GranularitySpec GranularityProofs
  AffineModel AffineSpec AffineProofs AffineTensorProofs FuseModel FuseSpec FuseFloatProofs GptqModel GptqSpec
  GptqHessianProofs GptqColumnProofs GptqLoopProofs GptqTopProofs GptqFixProofs.
From Verif Require RangeSpec RangeProofs GgufPackProofs.
From Coq Require Import QArith Qfield Lqa Permutation.
Local Open Scope nat_scope.

Lemma seq_shift_add p m : seq p m = map (Nat.add p) (seq 0 m).
Proof.
  replace p with (p + 0) at 1 by lia. generalize 0 as a. induction m as [|m IH]; intros a; [reflexivity|].
  cbn [seq map]. f_equal. rewrite <- IH. f_equal. lia.
Qed.

Lemma flat_map_seq_nth (f : nat -> nat -> Q) n p m r c : r < n -> c < m ->
  nth_error (flat_map (fun r => map (f r) (seq p m)) (seq 0 n)) (r * m + c) = Some (f r (p + c)).
Proof.
  intros Hr Hc.
  rewrite (flat_map_ext _ (fun r => map (fun c => f r (p + c)) (seq 0 m))).
  - now apply (flat_map_rows_nth (fun r c => f r (p + c))).
  - intros r0. now rewrite seq_shift_add, map_map.
Qed.

Lemma flat_map_seq_length (f : nat -> nat -> Q) n p m a : length (flat_map (fun r => map (f r) (seq p m)) (seq a n)) = n * m.
Proof. revert a. induction n as [|n IH]; intros a; [reflexivity|]. cbn [seq flat_map]. rewrite app_length, map_length, seq_length, IH. lia. Qed.

Section Group.
  Variables (rows cols rb cb : nat).
  Hypothesis Hrb : 0 < rb.
  Hypothesis Hcb : 0 < cb.
  Hypothesis Dr : Nat.divide rb rows.
  Hypothesis Dc : Nat.divide cb cols.
  Hypothesis Hrows : 0 < rows.

  Let nrb := rows / rb.

  Lemma nrb_eq : nrb * rb = rows /\ 0 < nrb.
  Proof. unfold nrb. destruct Dr as [k E]. rewrite E, Nat.div_mul by lia. nia. Qed.

  Lemma group_rows_spec w g : g * cb < cols ->
    exists l, group_rows w rows cols (g * cb) cb nrb = Ok l /\ length l = nrb /\
      forall k row, nth_error l k = Some row -> row <> [] /\
        forall x, In x row <-> exists r c, r < rows /\ r / rb = k /\ c / cb = g /\ x = get w r c.
  Proof.
    intros Hg. destruct nrb_eq as [En Pn]. unfold group_rows.
    assert (Hm : Nat.min cb (cols - g * cb) = cb). { apply Nat.min_l. destruct Dc as [k E]. assert (g < k) by nia. nia. }
    rewrite Hm. rewrite (proj2 (Nat.eqb_neq nrb 0)) by lia. set (flat := flat_map _ _).
    assert (Lf : length flat = nrb * (rb * cb)). { unfold flat. rewrite flat_map_seq_length. nia. }
    assert (Mod : length flat mod nrb = 0). { rewrite Lf, Nat.mul_comm. apply Nat.mod_mul. lia. }
    rewrite Mod, Nat.eqb_refl. cbn [negb].
    assert (Dv : length flat / nrb = rb * cb). { rewrite Lf, Nat.mul_comm. apply Nat.div_mul. lia. }
    rewrite Dv. eexists. split; [reflexivity|]. rewrite map_length, seq_length. split; [reflexivity|].
    intros k row Hk. assert (Hkn : k < nrb).
    { rewrite <- (seq_length nrb 0), <- (map_length (fun k => firstn (rb * cb) (skipn (k * (rb * cb)) flat))). apply nth_error_Some. congruence. }
    rewrite nth_error_map, nth_error_nth' with (d := 0) in Hk by now rewrite seq_length. rewrite seq_nth in Hk by exact Hkn.
    cbn [option_map Nat.add] in Hk. injection Hk as <-.
    assert (At : forall t, t < rb * cb -> nth_error (firstn (rb * cb) (skipn (k * (rb * cb)) flat)) t =
       Some (get w (k * rb + t / cb) (g * cb + t mod cb))).
    { intros t Ht. rewrite GgufPackProofs.nth_firstn by exact Ht. rewrite GgufPackProofs.nth_skipn.
      assert (t / cb < rb) by (apply Nat.div_lt_upper_bound; lia).
      replace (k * (rb * cb) + t) with ((k * rb + t / cb) * cb + t mod cb).
      - unfold flat. apply flat_map_seq_nth; [nia|apply Nat.mod_upper_bound; lia].
      - rewrite (Nat.div_mod t cb) at 3 by lia. lia. }
    assert (Ln : length (firstn (rb * cb) (skipn (k * (rb * cb)) flat)) = rb * cb).
    { rewrite firstn_length, skipn_length, Lf. nia. }
    split.
    - intros X. rewrite X in Ln. cbn in Ln. nia.
    - intros x. split.
      + intros Hx. apply In_nth_error in Hx. destruct Hx as [t Ht].
        assert (t < rb * cb) by (rewrite <- Ln; apply nth_error_Some; congruence). rewrite At in Ht by assumption. injection Ht as <-.
        assert (t / cb < rb) by (apply Nat.div_lt_upper_bound; lia). pose proof (Nat.mod_upper_bound t cb ltac:(lia)).
        exists (k * rb + t / cb), (g * cb + t mod cb). split; [nia|].
        rewrite !Nat.div_add_l by lia. rewrite (Nat.div_small (t / cb)), (Nat.div_small (t mod cb)) by assumption.
        split; [lia|]. split; [lia|reflexivity].
      + intros (r & c & Hr & Er & Ec & ->).
        assert (Rr : r = k * rb + r mod rb) by (rewrite (Nat.div_mod r rb) at 1 by lia; rewrite Er; lia).
        assert (Rc : c = g * cb + c mod cb) by (rewrite (Nat.div_mod c cb) at 1 by lia; rewrite Ec; lia).
        pose proof (Nat.mod_upper_bound r rb ltac:(lia)). pose proof (Nat.mod_upper_bound c cb ltac:(lia)).
        apply nth_error_In with (n := r mod rb * cb + c mod cb). rewrite At by nia.
        rewrite Nat.div_add_l, (Nat.div_small (c mod cb)), Nat.add_0_r by lia.
        rewrite (Nat.add_comm (r mod rb * cb)), Nat.mod_add, (Nat.mod_small (c mod cb)) by lia.
        now rewrite <- Rr, <- Rc.
  Qed.

  Lemma list_min_some (row : list Q) : row <> [] -> exists m, list_min row = Ok m.
  Proof. destruct row; [congruence|]. cbn. eauto. Qed.
  Lemma list_max_some (row : list Q) : row <> [] -> exists m, list_max row = Ok m.
  Proof. destruct row; [congruence|]. cbn. eauto. Qed.

  (** The parameters written for a group are those of its current ranges. *)
  Lemma recompute_new q w g q' u : fits_matrix rows cols [rb; cb] q -> g * cb < cols ->
    (forall r c, r < rows -> c / cb = g -> (get w r c == u r c)%Q) ->
    recompute q w rows cols (g * cb) cb nrb (cols / cb) = Ok q' -> group_scaled rows cols rb cb q' u g.
  Proof.
    intros F Hg Hu H. unfold recompute in H. destruct nrb_eq as [En Pn].
    destruct (group_rows_spec w g Hg) as (l & El & Ll & Sl). rewrite El in H. cbn [rbind] in H.
    destruct (rmapM list_min l) as [mins|] eqn:Em; [|discriminate]. cbn [rbind] in H.
    destruct (rmapM list_max l) as [maxs|] eqn:Ex; [|discriminate]. cbn [rbind] in H.
    rewrite Nat.div_mul in H by lia. apply update_spec in H. destruct H as (ss & oo & Ep & Es & Eq & Eo).
    pose proof (rmapM_length _ _ _ Em) as Lm. pose proof (rmapM_length _ _ _ Ex) as Lx.
    assert (Lr : length (combine mins maxs) = nrb) by (rewrite combine_length; lia).
    destruct (parameters_lengths _ _ _ _ _ _ Ep) as [Lss Loo].
    destruct (set_column_spec _ _ _ _ _ _ Es) as (_ & _ & Kk & _ & Ws & _).
    exists (combine mins maxs), ss, oo. split; [exact Lr|]. split; [|split].
    - intros k mn mx Hk.
      assert (Hkn : k < nrb) by (rewrite <- Lr; apply nth_error_Some; congruence).
      destruct (nth_error_lt_some l k) as [row Hrow]; [lia|].
      destruct (rmapM_nth _ _ _ _ _ Em Hrow) as (mn' & N1 & M1). destruct (rmapM_nth _ _ _ _ _ Ex Hrow) as (mx' & N2 & M2).
      assert (Ec : nth_error (combine mins maxs) k = Some (mn', mx')).
      { clear - N1 N2. revert maxs k N1 N2. induction mins as [|a mins IH]; intros [|b maxs] [|k] N1 N2; try discriminate.
        - cbn in *. congruence.
        - cbn [nth_error combine] in *. now apply IH. }
      rewrite Hk in Ec. injection Ec as -> ->. destruct (Sl k row Hrow) as [_ In_row].
      destruct (RangeProofs.list_min_is _ _ M1) as [I1 L1]. destruct (RangeProofs.list_max_is _ _ M2) as [I2 L2]. split.
      + split.
        * apply In_row in I1. destruct I1 as (r & c & Hr & Er & Ec & ->). exists r, c. split; [exact Hr|]. split; [exact Er|]. split; [exact Ec|]. now apply Hu.
        * intros y (r & c & Hr & Er & Ec & ->). rewrite <- (Hu r c Hr Ec). apply L1. apply In_row. exists r, c. auto.
      + split.
        * apply In_row in I2. destruct I2 as (r & c & Hr & Er & Ec & ->). exists r, c. split; [exact Hr|]. split; [exact Er|]. split; [exact Ec|]. now apply Hu.
        * intros y (r & c & Hr & Er & Ec & ->). rewrite <- (Hu r c Hr Ec). apply L2. apply In_row. exists r, c. auto.
    - rewrite Eq. exact Ep.
    - intros r c Hr Ec. unfold scale_of, offset_of. rewrite tile_row2, Ec.
      pose proof (div_lt rb r rows Hrb Dr Hr) as Hk. fold nrb in Hk.
      assert (One : forall v : list Q, length v = nrb -> nth (if length v =? 1 then 0 else r / rb) v 0%Q = nth (r / rb) v 0%Q).
      { intros v Lv. destruct (Nat.eqb_spec (length v) 1) as [L1|]; [|reflexivity]. rewrite L1 in Lv.
        assert (Z0 : r / rb = 0) by (apply Nat.lt_1_r; rewrite Lv; exact Hk). now rewrite Z0. }
      split.
      + rewrite (Ws (r / rb) Hk), One by lia. symmetry. apply nth_error_nth'. lia.
      + destruct (q_offset q) as [v0|].
        * destruct Eo as (v' & -> & Sv). destruct (set_column_spec _ _ _ _ _ _ Sv) as (_ & _ & _ & _ & Wv & _). cbn [nth_offset].
          rewrite (Wv (r / rb) Hk). destruct oo as [os|]; [|reflexivity].
          rewrite One by (rewrite (Loo os eq_refl); lia). symmetry. apply nth_error_nth'. rewrite (Loo os eq_refl). lia.
        * rewrite Eo. reflexivity.
  Qed.

  Lemma group_scaled_ext q q' u u' g : settings q q' ->
    (q_offset q = None <-> q_offset q' = None) ->
    (forall r c, r < rows -> c / cb = g -> scale_of rows cols [rb; cb] q' r c = scale_of rows cols [rb; cb] q r c /\
       offset_of rows cols [rb; cb] q' r c = offset_of rows cols [rb; cb] q r c) ->
    (forall r c, r < rows -> c / cb = g -> u' r c = u r c) ->
    group_scaled rows cols rb cb q u g -> group_scaled rows cols rb cb q' u' g.
  Proof.
    intros (_ & B & Sy & On & _) No Sc Hu (ranges & ss & oo & L & R & P & V). exists ranges, ss, oo.
    split; [exact L|]. split; [|split].
    - intros k mn mx Hk. destruct (R k mn mx Hk) as [[A1 A2] [B1 B2]].
      assert (X : forall x, in_group rows rb cb u' g k x <-> in_group rows rb cb u g k x).
      { intros x. split; intros (r & c & Hr & Er & Ec & Ex); exists r, c; (split; [exact Hr|]); (split; [exact Er|]); (split; [exact Ec|]).
        - rewrite <- (Hu r c Hr Ec). exact Ex.
        - rewrite (Hu r c Hr Ec). exact Ex. }
      split; (split; [now apply X|intros y Hy; apply X in Hy; auto]).
    - now rewrite B, Sy, On.
    - intros r c Hr Ec. destruct (V r c Hr Ec) as [V1 V2]. destruct (Sc r c Hr Ec) as [S1 S2]. rewrite S1, S2. split; [exact V1|].
      rewrite V2. destruct (q_offset q), (q_offset q'); try reflexivity; exfalso; [destruct No as [_ No]|destruct No as [No _]]; discriminate (No eq_refl).
  Qed.
End Group.

Section GroupLoop.
  Variables (rows cols rb cb bs : nat) (hinv : nat -> nat -> Q) (w0 : nat -> nat -> Q) (q_init : quantizer).
  Hypothesis Hbs : 0 < bs.
  Let nrb := rows / rb.
  Let ncb := cols / cb.
  Let order := seq 0 cols.
  Let grp := Some (cb, nrb, ncb).
  Let tile := [rb; cb].

  Lemma one_group : forall cb' nrb' ncb', grp = Some (cb', nrb', ncb') ->
    order = seq 0 cols /\ exists rb', tile = [rb'; cb'] /\ nrb' = rows / rb' /\ ncb' = cols / cb'.
  Proof. intros ? ? ? X. injection X as <- <- <-. split; [reflexivity|]. exists rb. auto. Qed.

  Lemma seq_in : forall p c, nth_error order p = Some c -> c < cols.
  Proof. intros p c X. apply nth_error_In, in_seq in X. lia. Qed.

  Notation Uc := (U hinv w0).
  Notation cinv' := (cinv rows cols tile order hinv w0 q_init).
  Notation binv' := (binv rows cols tile order hinv w0 q_init).

  (** Every group that has been reached uses the weights as they were at the start of the
      block in which it begins. *)
  Definition scaled (q : quantizer) (em : matrix) (n : nat) : Prop :=
    forall g, g * cb < n -> group_scaled rows cols rb cb q (fun r c => Uc em r (g * cb / bs * bs) c) g.

  Lemma recompute_offset q w p q' : recompute q w rows cols p cb nrb ncb = Ok q' -> (q_offset q = None <-> q_offset q' = None).
  Proof.
    unfold recompute. destruct (group_rows _ _ _ _ _ _) as [l|]; [|discriminate]. cbn [rbind].
    destruct (rmapM list_min l) as [mins|]; [|discriminate]. cbn [rbind]. destruct (rmapM list_max l) as [maxs|]; [|discriminate]. cbn [rbind].
    intros H. apply update_spec in H. destruct H as (s & o & _ & _ & _ & Ho). destruct (q_offset q).
    - destruct Ho as (v' & -> & _). split; discriminate.
    - rewrite Ho. tauto.
  Qed.

  Lemma column_step_scaled w stop st p st' i :
    p < stop -> stop <= cols -> i = p / bs * bs -> i <= p -> cinv' stop p st -> scaled (g_q st) (g_err st) p ->
    (forall c r, i <= c < cols -> r < rows -> (get w r c == Uc (g_err st) r i c)%Q) ->
    column_step rows cols order hinv grp w stop st p = Ok st' -> scaled (g_q st') (g_err st') (S p).
  Proof.
    intros Hp Hs Hi Hip I Sc Hw H.
    destruct (column_step_inv rows cols tile order hinv grp w0 one_group seq_in q_init w stop st p st' Hp Hs I H) as (_ & _ & e & En & Ee).
    destruct I as ((F & _) & _). pose proof (fits_divides _ _ _ _ F) as D.
    destruct (tile_two _ _ _ D) as (a & b & Eab & A & B & Da & Db). injection Eab as <- <-.
    assert (R0 : 0 < rows) by (destruct F; assumption).
    assert (Eu : forall r g c, g * cb <= p -> Uc (g_err st') r (g * cb / bs * bs) c = Uc (g_err st) r (g * cb / bs * bs) c).
    { intros r g c Hg. rewrite Ee. apply U_set. pose proof (Nat.mul_div_le (g * cb) bs ltac:(lia)). lia. }
    assert (Keep : forall g, g * cb < p -> (q_offset (g_q st) = None <-> q_offset (g_q st') = None) ->
       settings (g_q st) (g_q st') ->
       (forall r k, r < rows -> k < cols -> k / cb = g -> scale_of rows cols tile (g_q st') r k = scale_of rows cols tile (g_q st) r k /\
          offset_of rows cols tile (g_q st') r k = offset_of rows cols tile (g_q st) r k) ->
       group_scaled rows cols rb cb (g_q st') (fun r c => Uc (g_err st') r (g * cb / bs * bs) c) g).
    { intros g Hg No St K. eapply group_scaled_ext; [exact St|exact No| | |exact (Sc g Hg)].
      - intros r c Hr Ec. apply K; [exact Hr| |exact Ec].
        assert (g < cols / cb). { rewrite <- (Nat.div_mul g cb) by lia. apply div_lt; [lia|exact Db|lia]. }
        assert (c < (g + 1) * cb). { rewrite (Nat.div_mod c cb) by lia. pose proof (Nat.mod_upper_bound c cb ltac:(lia)). rewrite Ec. lia. }
        destruct Db as [k Ek]. rewrite Ek in *. rewrite Nat.div_mul in H0 by lia. nia.
      - intros r c _ _. apply Eu. lia. }
    unfold new_quantizer in En. cbn [grp] in En. intros g Hg.
    destruct (Nat.eqb_spec (p mod cb) 0) as [Z|Z].
    - destruct (recompute_keeps rows cols tile order hinv grp w0 one_group seq_in (g_q st) w p cb nrb ncb (g_q st') eq_refl F Z En) as (_ & St & K).
      assert (Ep : p = p / cb * cb) by (rewrite (Nat.div_mod p cb) at 1 by lia; lia).
      destruct (Nat.eq_dec g (p / cb)) as [->|Ng].
      + rewrite <- Ep. rewrite Ep in En. 
        eapply (recompute_new rows cols rb cb A B Da Db R0 (g_q st) w (p / cb) (g_q st') _ F); [lia| |exact En].
        intros r c Hr Ec. rewrite <- Hi, Ee, U_set by lia. apply Hw; [|exact Hr]. split.
        * rewrite (Nat.div_mod c cb) by lia. rewrite Ec. nia.
        * assert (p / cb < cols / cb) by (apply div_lt; [lia|exact Db|lia]).
          assert (c < (p / cb + 1) * cb). { rewrite (Nat.div_mod c cb) by lia. pose proof (Nat.mod_upper_bound c cb ltac:(lia)). rewrite Ec. lia. }
          destruct Db as [k Ek]. rewrite Ek in *. rewrite Nat.div_mul in H0 by lia. nia.
      + apply Keep; [|eapply recompute_offset; exact En|exact St|].
        * destruct (Nat.eq_dec (g * cb) p) as [X|]; [|lia]. exfalso. apply Ng. rewrite <- X. now rewrite Nat.div_mul by lia.
        * intros r k Hr Hk Ek. apply K; [exact Hr|exact Hk|]. rewrite Ek. exact Ng.
    - injection En as En. apply Keep; rewrite <- ?En; [|tauto|apply settings_refl|intros; auto].
      destruct (Nat.eq_dec (g * cb) p) as [X|]; [|lia]. exfalso. apply Z. rewrite <- X. apply Nat.mod_mul. lia.
  Qed.

  Lemma columns_loop_scaled w stop i m : forall n st st', n + m = stop -> stop <= cols -> stop <= i + bs -> i <= n -> i mod bs = 0 ->
    cinv' stop n st -> scaled (g_q st) (g_err st) n ->
    (forall c r, i <= c < cols -> r < rows -> (get w r c == Uc (g_err st) r i c)%Q) ->
    columns_loop rows cols order hinv grp w stop st (seq n m) = Ok st' -> scaled (g_q st') (g_err st') stop.
  Proof.
    induction m as [|m IH]; intros n st st' Hn Hs Hb Hi Mi I Sc Hw H; cbn [seq columns_loop] in H.
    - injection H as <-. rewrite Nat.add_0_r in Hn. now subst n.
    - destruct (column_step _ _ _ _ _ w stop st n) as [st1|] eqn:E; [|discriminate]. cbn [rbind] in H.
      destruct (column_step_inv rows cols tile order hinv grp w0 one_group seq_in q_init w stop st n st1 ltac:(lia) Hs I E) as (I1 & _ & e & _ & Ee).
      assert (Ei : i = n / bs * bs).
      { assert (Q : i = i / bs * bs) by (rewrite (Nat.div_mod i bs) at 1 by lia; lia). rewrite Q. f_equal.
        apply Nat.div_unique with (r := n - i); lia. }
      pose proof (column_step_scaled w stop st n st1 i ltac:(lia) Hs Ei Hi I Sc Hw E) as Sc1.
      apply (IH (S n) st1 st'); auto; try lia. intros c r Hc Hr. rewrite (Hw c r Hc Hr), Ee, U_set by lia. reflexivity.
  Qed.

  Lemma block_step_scaled i wst wst' : i < cols -> i mod bs = 0 -> binv' i wst -> scaled (g_q (snd wst)) (g_err (snd wst)) i ->
    block_step rows cols order hinv grp bs wst i = Ok wst' -> scaled (g_q (snd wst')) (g_err (snd wst')) (Nat.min (i + bs) cols).
  Proof.
    intros Hi Mi (Sd & Dn & Bl) Sc H. destruct wst as [w st]. cbn [fst snd] in *. unfold block_step in H.
    set (stop := Nat.min (i + bs) cols) in *.
    destruct (columns_loop _ _ _ _ _ _ _ _ _) as [st'|] eqn:E; [|discriminate]. cbn [rbind] in H. injection H as <-. cbn [snd].
    apply (columns_loop_scaled w stop i (stop - i) i (mkG w (g_quant st) (g_err st) (g_q st)) st'); auto; try lia.
    - split; [exact Sd|]. split; [exact Dn|]. cbn [g_block g_err]. intros c Hc. apply Bl. lia.
    - cbn [g_err]. intros c r Hc Hr. now apply Bl.
  Qed.

  Lemma blocks_loop_scaled m : forall a wst wst',
    (forall k, a <= k < a + m -> k * bs < cols) -> binv' (Nat.min (a * bs) cols) wst ->
    scaled (g_q (snd wst)) (g_err (snd wst)) (Nat.min (a * bs) cols) ->
    blocks_loop rows cols order hinv grp bs wst (map (fun k => k * bs) (seq a m)) = Ok wst' ->
    scaled (g_q (snd wst')) (g_err (snd wst')) (Nat.min ((a + m) * bs) cols).
  Proof.
    induction m as [|m IH]; intros a wst wst' Hk I Sc H; cbn [seq map blocks_loop] in H.
    - injection H as <-. now rewrite Nat.add_0_r.
    - destruct (block_step _ _ _ _ _ _ _ _) as [wst1|] eqn:E; [|discriminate]. cbn [rbind] in H.
      assert (Ha : a * bs < cols) by (apply Hk; lia). rewrite Nat.min_l in I, Sc by lia.
      destruct (block_step_inv rows cols tile order hinv grp w0 one_group seq_in q_init bs (a * bs) wst wst1 Hbs Ha I E) as [I1 _].
      pose proof (block_step_scaled (a * bs) wst wst1 Ha ltac:(apply Nat.mod_mul; lia) I Sc E) as Sc1.
      replace (a * bs + bs) with (S a * bs) in I1, Sc1 by lia. replace (a + S m) with (S a + m) by lia.
      apply (IH (S a) wst1 wst'); [|exact I1|exact Sc1|exact H]. intros k Hk1. apply Hk. lia.
  Qed.

  Lemma loop_scaled wst wst' : binv' 0 wst ->
    blocks_loop rows cols order hinv grp bs wst (range_step cols bs) = Ok wst' -> scaled (g_q (snd wst')) (g_err (snd wst')) cols.
  Proof.
    intros I H. destruct (range_step_end cols bs Hbs) as [K E]. unfold range_step in H.
    rewrite <- E. apply (blocks_loop_scaled _ 0 wst wst' K); [exact I| |exact H]. intros g Hg. cbn in Hg. lia.
  Qed.
End GroupLoop.
