(** The blocked column loop computes the GPTQ recurrence. *)
From Verif Require Import Prelude TilingModel TilingSpec TilingProofs GranularityModel GranularitySpec GranularityProofs
  AffineModel AffineSpec AffineProofs AffineTensorProofs FuseModel FuseSpec FuseFloatProofs GptqModel GptqSpec
  GptqHessianProofs GptqColumnProofs.
From Coq Require Import QArith Qfield Lqa.
Local Open Scope nat_scope.

Lemma snaps_proper rows cols tile q r c u u' y : (u == u')%Q -> snaps rows cols tile q r c u y -> snaps rows cols tile q r c u' y.
Proof. intros E (s & z & A & B & C). exists s, z. split; [exact A|]. split; [|exact C]. now rewrite <- (quantize_elem_proper _ _ _ _ _ E). Qed.

Lemma snaps_params rows cols tile q q' r c u y :
  q_bits q' = q_bits q -> scale_of rows cols tile q' r c = scale_of rows cols tile q r c ->
  offset_of rows cols tile q' r c = offset_of rows cols tile q r c ->
  snaps rows cols tile q r c u y -> snaps rows cols tile q' r c u y.
Proof. intros B S O (s & z & X & Y & Z). exists s, z. rewrite B, S, O. auto. Qed.

Lemma nth_map_seq (f : nat -> Q) n r : r < n -> nth r (map f (seq 0 n)) 0%Q = f r.
Proof.
  intros H. rewrite nth_indep with (d' := f 0) by (rewrite map_length, seq_length; exact H).
  rewrite map_nth. now rewrite seq_nth.
Qed.

Lemma settings_refl q : settings q q.
Proof. repeat split. Qed.

Lemma settings_trans a b c : settings a b -> settings b c -> settings a c.
Proof. unfold settings. intros (? & ? & ? & ? & ?) (? & ? & ? & ? & ?). repeat split; congruence. Qed.

(** [set_column] writes one column of the view. *)
Lemma set_column_spec v nr nc k vals v' : set_column v nr nc k vals = Ok v' ->
  length v' = length v /\ length v = nr * nc /\ k < nc /\
  (forall i, i < nr * nc -> i mod nc <> k -> nth_error v' i = nth_error v i) /\
  (forall i, i < nr -> nth_error v' (i * nc + k) = Some (nth (if length vals =? 1 then 0 else i) vals 0%Q)) /\
  (length vals = nr \/ length vals = 1).
Proof.
  unfold set_column. destruct (Nat.eqb_spec (length v) (nr * nc)) as [L|]; [|discriminate]. cbn [negb].
  destruct (Nat.leb_spec nc k) as [|K]; [discriminate|].
  destruct ((length vals =? nr) || (length vals =? 1)) eqn:V; [|discriminate]. cbn [negb]. intros H. injection H as <-.
  rewrite map_length, seq_length. split; [reflexivity|]. split; [exact L|]. split; [exact K|].
  assert (At : forall i, i < nr * nc -> nth_error (map (fun i => if i mod nc =? k then nth (if length vals =? 1 then 0 else i / nc) vals 0%Q else nth i v 0%Q) (seq 0 (length v))) i =
      Some (if i mod nc =? k then nth (if length vals =? 1 then 0 else i / nc) vals 0%Q else nth i v 0%Q)).
  { intros i Hi. rewrite nth_error_map, nth_error_nth' with (d := 0) by (rewrite seq_length; lia).
    rewrite seq_nth by lia. reflexivity. }
  split; [|split].
  - intros i Hi N. rewrite At by exact Hi. rewrite (proj2 (Nat.eqb_neq _ _) N). symmetry. apply nth_error_nth'. lia.
  - intros i Hi. assert (i * nc + k < nr * nc) by nia. rewrite At by assumption.
    rewrite (Nat.add_comm (i * nc) k), Nat.mod_add, Nat.div_add, (Nat.mod_small k nc), (Nat.div_small k nc) by lia.
    rewrite Nat.eqb_refl. reflexivity.
  - apply orb_prop in V. destruct V as [V|V]; apply Nat.eqb_eq in V; auto.
Qed.

Lemma update_spec q ranges nr nc k q' : update_partial_range q ranges nr nc k = Ok q' ->
  exists s o, parameters_for_range ranges (q_bits q) (q_symmetric q) (q_one_sided q) = Ok (s, o) /\
    set_column (q_scale q) nr nc k s = Ok (q_scale q') /\
    q' = with_params q (q_scale q') (q_offset q') /\
    match q_offset q with
    | None => q_offset q' = None
    | Some v => exists v', q_offset q' = Some v' /\ set_column v nr nc k (match o with Some o => o | None => [0%Q] end) = Ok v'
    end.
Proof.
  unfold update_partial_range. destruct (parameters_for_range _ _ _ _) as [[s o]|]; [|discriminate]. cbn [rbind].
  destruct (set_column (q_scale q) nr nc k s) as [s'|] eqn:S; [|discriminate]. cbn [rbind].
  destruct (q_offset q) as [v|].
  - destruct (set_column v nr nc k _) as [v'|] eqn:V; [|discriminate]. cbn [rmap rbind]. intros H. injection H as <-. exists s, o.
    split; [reflexivity|]. split; [exact S|]. split; [reflexivity|]. exists v'. auto.
  - cbn [rbind]. intros H. injection H as <-. exists s, o. auto.
Qed.

Lemma range_step_end cols bs : 0 < bs ->
  (forall k, 0 <= k < 0 + (cols + bs - 1) / bs -> k * bs < cols) /\ Nat.min ((0 + (cols + bs - 1) / bs) * bs) cols = cols.
Proof.
  intros Hb. set (m := (cols + bs - 1) / bs). pose proof (Nat.div_mod (cols + bs - 1) bs ltac:(lia)) as D. fold m in D.
  pose proof (Nat.mod_upper_bound (cols + bs - 1) bs ltac:(lia)). split.
  - intros k Hk. cbn [Nat.add] in Hk. assert (k * bs + bs <= m * bs) by nia. lia.
  - cbn [Nat.add]. apply Nat.min_r. nia.
Qed.

Section Loop.
  Variables (rows cols : nat) (tile order : list nat) (hinv : nat -> nat -> Q) (grp : option (nat * nat * nat)).
  Variable w0 : nat -> nat -> Q.   (* weights in processing order: row, position *)
  Notation fitsm := (fits_matrix rows cols tile).
  Notation ord p := (nth p order 0).

  (** Weight at a position, corrected by the errors of the first [k] columns. *)
  Definition U (em : matrix) (r k p : nat) : Q :=
    (w0 r p - qsum (map (fun j => get em r j * hinv j p) (seq 0 k)))%Q.

  Lemma U_ext em em' r k p : (forall j, j < k -> em' j = em j) -> U em' r k p = U em r k p.
  Proof. intros H. unfold U. do 2 f_equal. apply map_ext_in. intros j Hj. apply in_seq in Hj. unfold get. rewrite H by lia. reflexivity. Qed.

  Lemma U_set em p e r k c : k <= p -> U (set em p e) r k c = U em r k c.
  Proof. intros H. apply U_ext. intros j Hj. unfold set. rewrite (proj2 (Nat.eqb_neq j p)) by lia. reflexivity. Qed.

  Lemma U_plus em r k m c : (U em r (k + m) c == U em r k c - qsum (map (fun j => get em r j * hinv j c) (seq k m)))%Q.
  Proof. unfold U. rewrite seq_app, map_app, qsum_app. cbn [Nat.add]. ring. Qed.

  Lemma U_succ em p e r c : (U (set em p e) r (S p) c == U em r p c - nth r e 0 * hinv p c)%Q.
  Proof.
    replace (S p) with (p + 1) by lia. rewrite U_plus, U_set by lia. cbn [seq map]. unfold qsum. cbn [fold_right].
    unfold get, set. rewrite Nat.eqb_refl. ring.
  Qed.

  Hypothesis grp_ok : forall cb nrb ncb, grp = Some (cb, nrb, ncb) ->
    order = seq 0 cols /\ exists rb, tile = [rb; cb] /\ nrb = rows / rb /\ ncb = cols / cb.
  Hypothesis order_in : forall p c, nth_error order p = Some c -> c < cols.

  Definition done (q : quantizer) (qm em : matrix) (n : nat) : Prop :=
    forall r k, r < rows -> k < n ->
      snaps rows cols tile q r (ord k) (U em r k k) (get qm r k) /\ (get em r k * hinv k k == U em r k k - get qm r k)%Q.

  Lemma recompute_keeps q w p cb nrb ncb q' : grp = Some (cb, nrb, ncb) -> fitsm q -> p mod cb = 0 ->
    recompute q w rows cols p cb nrb ncb = Ok q' ->
    fitsm q' /\ settings q q' /\
    forall r k, r < rows -> k < cols -> k / cb <> p / cb ->
      scale_of rows cols tile q' r k = scale_of rows cols tile q r k /\ offset_of rows cols tile q' r k = offset_of rows cols tile q r k.
  Proof.
    intros G F Hp H. destruct (grp_ok _ _ _ G) as (Eo & rb & Et & En & Ec).
    unfold recompute in H. destruct (group_rows _ _ _ _ _ _) as [g|]; [|discriminate]. cbn [rbind] in H.
    destruct (rmapM list_min g) as [mins|]; [|discriminate]. cbn [rbind] in H.
    destruct (rmapM list_max g) as [maxs|]; [|discriminate]. cbn [rbind] in H.
    apply update_spec in H. destruct H as (s & o & _ & Hs & Eq & Ho).
    destruct (set_column_spec _ _ _ _ _ _ Hs) as (Ls & L0 & Kk & Keep & _).
    pose proof (fits_divides _ _ _ _ F) as D. rewrite Et in D. destruct (tile_two _ _ _ D) as (a & b & Eab & A & B & Da & Db).
    injection Eab as <- <-.
    assert (Idx : forall r k, r < rows -> k < cols -> k / cb <> p / cb ->
       r / rb * ncb + k / cb < nrb * ncb /\ (r / rb * ncb + k / cb) mod ncb <> p / cb).
    { intros r k Hr Hk N. pose proof (div_lt rb r rows A Da Hr). pose proof (div_lt cb k cols B Db Hk).
      rewrite En, Ec. split; [nia|]. rewrite Nat.add_comm, Nat.mod_add, Nat.mod_small by lia. exact N. }
    split; [|split].
    - destruct F as (R & C & Sg & Rg & T & L & Lo). rewrite Eq. unfold with_params, fits_matrix.
      cbn [q_gran q_scale q_offset]. split; [exact R|]. split; [exact C|]. split; [exact Sg|]. split; [exact Rg|]. split; [exact T|].
      split; [now rewrite Ls|]. intros v Ev. destruct (q_offset q) as [v0|].
      + destruct Ho as (v' & Ev' & Sv). rewrite Ev in Ev'. injection Ev' as <-. destruct (set_column_spec _ _ _ _ _ _ Sv) as (Lv & _).
        rewrite Lv, Ls. now apply Lo.
      + congruence.
    - rewrite Eq. repeat split.
    - intros r k Hr Hk N. destruct (Idx r k Hr Hk N) as [I1 I2]. unfold scale_of, offset_of. rewrite Et, tile_row2, <- Ec. split.
      + now apply Keep.
      + destruct (q_offset q) as [v0|].
        * destruct Ho as (v' & -> & Sv). destruct (set_column_spec _ _ _ _ _ _ Sv) as (_ & _ & _ & Kv & _). cbn [nth_offset]. now apply Kv.
        * now rewrite Ho.
  Qed.

  Definition new_quantizer (w : matrix) (q : quantizer) (p : nat) : result quantizer :=
    match grp with
    | Some (cb, nrb, ncb) => if p mod cb =? 0 then recompute q w rows cols p cb nrb ncb else Ok q
    | None => Ok q
    end.

  Lemma new_quantizer_keeps w q p q' : p < cols -> fitsm q -> new_quantizer w q p = Ok q' ->
    fitsm q' /\ settings q q' /\
    forall r k, r < rows -> k < p ->
      scale_of rows cols tile q' r (ord k) = scale_of rows cols tile q r (ord k) /\
      offset_of rows cols tile q' r (ord k) = offset_of rows cols tile q r (ord k).
  Proof.
    unfold new_quantizer. intros Hp F H. pose proof (recompute_keeps q w p) as RK. pose proof grp_ok as GO.
    destruct grp as [[[cb nrb] ncb]|]; [|injection H as <-; auto using settings_refl].
    destruct (Nat.eqb_spec (p mod cb) 0) as [Z|]; [|injection H as <-; auto using settings_refl].
    destruct (RK cb nrb ncb q' eq_refl F Z H) as (F' & B & K). split; [exact F'|]. split; [exact B|].
    intros r k Hr Hk. destruct (GO _ _ _ eq_refl) as (Eo & rb & Et & En & Ec). rewrite Eo, seq_nth by lia. cbn [Nat.add].
    apply K; [exact Hr|lia|].
    assert (0 < cb).
    { pose proof (fits_divides _ _ _ _ F) as D. rewrite Et in D. destruct (tile_two _ _ _ D) as (a & b & Eab & A & X & _). injection Eab as <- <-. exact X. }
    intros E. assert (k / cb < p / cb); [|lia].
    apply Nat.div_lt_upper_bound; [lia|]. rewrite (Nat.div_mod p cb) in Hk by lia. lia.
  Qed.

  Variable q_init : quantizer.

  Definition sound (n : nat) (q : quantizer) : Prop :=
    fitsm q /\ settings q_init q /\ (0 < n -> can_support_bitwidth (q_out q) (q_bits q) = true).

  Definition cinv (stop n : nat) (st : gstate) : Prop :=
    sound n (g_q st) /\ done (g_q st) (g_quant st) (g_err st) n /\
    forall c, n <= c < stop -> length (g_block st c) = rows /\
      forall r, r < rows -> (get (g_block st) r c == U (g_err st) r n c)%Q.

  Lemma column_step_inv w stop st p st' : p < stop -> stop <= cols -> cinv stop p st ->
    column_step rows cols order hinv grp w stop st p = Ok st' ->
    cinv stop (S p) st' /\ ~ (hinv p p == 0)%Q /\ exists e, new_quantizer w (g_q st) p = Ok (g_q st') /\ g_err st' = set (g_err st) p e.
  Proof.
    intros Hp Hs ((F & St & _) & Dn & Bl) H. unfold column_step in H.
    change (match grp with
            | Some (cb, nrb, ncb) => if p mod cb =? 0 then recompute (g_q st) w rows cols p cb nrb ncb else Ok (g_q st)
            | None => Ok (g_q st)
            end) with (new_quantizer w (g_q st) p) in H.
    destruct (new_quantizer w (g_q st) p) as [q|] eqn:Q; [|discriminate]. cbn [rbind] in H.
    destruct (nth_error order p) as [col|] eqn:O; [|discriminate].
    destruct (column_quantizer q rows cols col (g_block st p)) as [y|] eqn:Y; [|discriminate]. cbn [rbind] in H.
    destruct (rmapM _ (seq 0 rows)) as [e|] eqn:E; [|discriminate]. cbn [rbind] in H. injection H as <-.
    destruct (new_quantizer_keeps w (g_q st) p q ltac:(lia) F Q) as (Fq & Bq & Kq).
    destruct (Bl p) as [Lb Vb]; [lia|].
    destruct (column_quantizer_spec rows cols tile q col (g_block st p) Fq Lb (order_in _ _ O) y Y) as [Ly Sy].
    pose proof (column_quantizer_supported rows cols tile q col (g_block st p) Fq Lb (order_in _ _ O) y Y) as Cs.
    assert (Oc : ord p = col) by (apply nth_error_nth; exact O).
    assert (Er : forall r, r < rows -> (nth r e 0 * hinv p p == get (g_block st) r p - nth r y 0)%Q).
    { intros r Hr. destruct (rmapM_nth _ _ _ r r E) as (v & Nv & Dv).
      - rewrite nth_error_nth' with (d := 0) by now rewrite seq_length. now rewrite seq_nth.
      - apply qdiv_ok in Dv. destruct Dv as [Nz ->]. rewrite (nth_error_nth e r 0%Q Nv). field. exact Nz. }
    split; [|split; [|exists e; split; [reflexivity|reflexivity]]].
    2: { assert (R0 : 0 < rows) by (destruct F; assumption). destruct (rmapM_nth _ _ _ 0 0 E) as (v & _ & Dv).
         - destruct rows; [lia|reflexivity].
         - apply qdiv_ok in Dv. tauto. }
    split; [split; [exact Fq|]; split; [exact (settings_trans _ _ _ St Bq)|intros _; exact Cs]|]. cbn [g_q g_quant g_err g_block]. split.
    - intros r k Hr Hk. destruct (Nat.eq_dec k p) as [->|Nk].
      + rewrite U_set by lia. unfold get at 1 2 3, set. rewrite Nat.eqb_refl, Oc. split.
        * eapply snaps_proper; [|exact (Sy r Hr)]. exact (Vb r Hr).
        * rewrite (Er r Hr), (Vb r Hr). reflexivity.
      + destruct (Dn r k Hr) as [S1 S2]; [lia|]. destruct (Kq r k Hr) as [K1 K2]; [lia|].
        rewrite U_set by lia. unfold get, set. rewrite (proj2 (Nat.eqb_neq k p) Nk). split; [|exact S2].
        eapply snaps_params; [apply Bq|exact K1|exact K2|exact S1].
    - intros c Hc. rewrite (proj2 (Nat.ltb_lt p c)), (proj2 (Nat.ltb_lt c stop)) by lia. cbn [andb].
      rewrite map_length, seq_length. split; [reflexivity|]. intros r Hr.
      unfold get at 1. rewrite (proj2 (Nat.ltb_lt p c)), (proj2 (Nat.ltb_lt c stop)) by lia. cbn [andb].
      rewrite nth_map_seq by exact Hr. rewrite U_succ. destruct (Bl c) as [_ Vc]; [lia|]. now rewrite (Vc r Hr).
  Qed.

  Lemma columns_loop_inv w stop m : forall n st st', n + m = stop -> stop <= cols -> cinv stop n st ->
    columns_loop rows cols order hinv grp w stop st (seq n m) = Ok st' ->
    cinv stop stop st' /\ (forall k, k < n -> g_err st' k = g_err st k) /\ forall p, n <= p < stop -> ~ (hinv p p == 0)%Q.
  Proof.
    induction m as [|m IH]; intros n st st' Hn Hs I H; cbn [seq columns_loop] in H.
    - injection H as <-. rewrite Nat.add_0_r in Hn. subst n. split; [exact I|]. split; [reflexivity|lia].
    - destruct (column_step _ _ _ _ _ w stop st n) as [st1|] eqn:E; [|discriminate]. cbn [rbind] in H.
      destruct (column_step_inv w stop st n st1 ltac:(lia) Hs I E) as (I1 & Nz & e & _ & Ee).
      destruct (IH (S n) st1 st' ltac:(lia) Hs I1 H) as (I2 & K & D). split; [exact I2|].
      split; [|intros p Hp; destruct (Nat.eq_dec p n) as [->|]; [exact Nz|apply D; lia]]. intros k Hk. rewrite K by lia. rewrite Ee. unfold set. now rewrite (proj2 (Nat.eqb_neq k n)) by lia.
  Qed.

  Definition binv (n : nat) (wst : matrix * gstate) : Prop :=
    sound n (g_q (snd wst)) /\ done (g_q (snd wst)) (g_quant (snd wst)) (g_err (snd wst)) n /\
    forall c, n <= c < cols -> length (fst wst c) = rows /\
      forall r, r < rows -> (get (fst wst) r c == U (g_err (snd wst)) r n c)%Q.

  Lemma block_step_inv bs i wst wst' : 0 < bs -> i < cols -> binv i wst ->
    block_step rows cols order hinv grp bs wst i = Ok wst' -> binv (Nat.min (i + bs) cols) wst' /\
    forall p, i <= p < Nat.min (i + bs) cols -> ~ (hinv p p == 0)%Q.
  Proof.
    intros Hb Hi (F & Dn & Bl) H. destruct wst as [w st]. cbn [fst snd] in *. unfold block_step in H.
    set (stop := Nat.min (i + bs) cols) in *.
    destruct (columns_loop _ _ _ _ _ _ _ _ _) as [st'|] eqn:E; [|discriminate]. cbn [rbind] in H. injection H as <-.
    destruct (columns_loop_inv w stop (stop - i) i (mkG w (g_quant st) (g_err st) (g_q st)) st') as [(F' & D' & _) [K Dg]]; [lia|lia| |exact E|].
    { split; [exact F|]. split; [exact Dn|]. cbn [g_block g_err]. intros c Hc. apply Bl. lia. }
    split; [|exact Dg]. split; [exact F'|]. split; [exact D'|]. cbn [fst snd g_err] in *. intros c Hc.
    rewrite (proj2 (Nat.leb_le stop c)) by lia. rewrite map_length, seq_length. split; [reflexivity|]. intros r Hr.
    unfold get at 1. rewrite (proj2 (Nat.leb_le stop c)) by lia. rewrite nth_map_seq by exact Hr.
    destruct (Bl c) as [_ Vc]; [lia|]. rewrite (Vc r Hr), <- (U_ext (g_err st) (g_err st') r i c K).
    replace stop with (i + (stop - i)) at 2 by lia. rewrite U_plus. reflexivity.
  Qed.

  Lemma blocks_loop_inv bs m : 0 < bs -> forall a wst wst',
    (forall k, a <= k < a + m -> k * bs < cols) -> binv (Nat.min (a * bs) cols) wst ->
    blocks_loop rows cols order hinv grp bs wst (map (fun k => k * bs) (seq a m)) = Ok wst' ->
    binv (Nat.min ((a + m) * bs) cols) wst' /\ forall p, a * bs <= p < Nat.min ((a + m) * bs) cols -> ~ (hinv p p == 0)%Q.
  Proof.
    intros Hb. induction m as [|m IH]; intros a wst wst' Hk I H; cbn [seq map blocks_loop] in H.
    - injection H as <-. rewrite Nat.add_0_r. split; [exact I|lia].
    - destruct (block_step _ _ _ _ _ _ _ _) as [wst1|] eqn:E; [|discriminate]. cbn [rbind] in H.
      assert (Ha : a * bs < cols) by (apply Hk; lia). rewrite Nat.min_l in I by lia.
      destruct (block_step_inv bs (a * bs) wst wst1 Hb Ha I E) as [I1 D1].
      replace (a * bs + bs) with (S a * bs) in I1, D1 by lia. replace (a + S m) with (S a + m) by lia.
      destruct (IH (S a) wst1 wst') as [I2 D2]; [|exact I1|exact H|]; [intros k Hk1; apply Hk; lia|].
      split; [exact I2|]. intros p Hp. destruct (Nat.lt_ge_cases p (Nat.min (S a * bs) cols)) as [L|L]; [apply D1; lia|].
      apply D2. lia.
  Qed.

  Lemma loop_inv bs wst wst' : 0 < bs -> binv 0 wst ->
    blocks_loop rows cols order hinv grp bs wst (range_step cols bs) = Ok wst' -> binv cols wst'.
  Proof.
    intros Hb I H. destruct (range_step_end cols bs Hb) as [K E]. unfold range_step in H.
    rewrite <- E. apply (blocks_loop_inv bs _ Hb 0 wst wst' K); [|exact H]. exact I.
  Qed.

  Lemma loop_diag bs wst wst' : 0 < bs -> binv 0 wst ->
    blocks_loop rows cols order hinv grp bs wst (range_step cols bs) = Ok wst' -> forall p, p < cols -> ~ (hinv p p == 0)%Q.
  Proof.
    intros Hb I H p Hp. destruct (range_step_end cols bs Hb) as [K E]. unfold range_step in H.
    destruct (blocks_loop_inv bs _ Hb 0 wst wst' K I H) as [_ D]. apply D. rewrite E. lia.
  Qed.
End Loop.
