(** Proofs about the LPBQ compression of block scales. *)
From Coq Require Import String.
From Verif Require Import Prelude TilingModel TilingSpec TilingProofs GranularityModel GranularityProofs
  AffineModel AffineSpec AffineProofs AffineTensorProofs EncModel EncSpec.
From Coq Require Import QArith Qabs Qminmax Lqa Lia.
Local Open Scope nat_scope.
Local Open Scope list_scope.

Lemma qmax_pick a b : Qmax a b = a \/ Qmax a b = b.
Proof. unfold Qmax, GenericMinMax.gmax. destruct (a ?= b)%Q; auto. Qed.

Lemma fold_max_in l a : In (fold_left Qmax l a) (a :: l).
Proof.
  revert a; induction l as [|x l IH]; intros a; [now left|]. cbn [fold_left].
  destruct (IH (Qmax a x)) as [E|I].
  - rewrite <- E. destruct (qmax_pick a x) as [-> | ->]; cbn; auto.
  - right. now right.
Qed.

Lemma list_max_in l m : list_max l = Ok m -> In m l.
Proof. destruct l as [|a l]; [discriminate|]. intros [= <-]. apply fold_max_in. Qed.

Lemma get_ok {A} (t : tensor A) idx a : get t idx = Ok a <-> at_index t idx = Some a.
Proof. unfold get, at_index. destruct (nth_error _ _); split; congruence. Qed.

Lemma in_list_prod_seq n m i j : i < n -> j < m -> In (i, j) (list_prod (seq 0 n) (seq 0 m)).
Proof. intros. apply in_prod; apply in_seq; lia. Qed.

Lemma amax_spec (t m : tensor Q) e0 e1 e2 e3 :
  shape t = [e0; e1; e2; e3] -> amax_odd t = Ok m ->
  shape m = [e0; 1; e2; 1] /\ length (data m) = e0 * e2 /\
  forall i k, i < e0 -> k < e2 -> exists v, at_index m [i; 0; k; 0] = Some v /\
    nth_error (data m) (i * e2 + k) = Some v /\
    (exists j l, j < e1 /\ l < e3 /\ at_index t [i; j; k; l] = Some v) /\
    forall j l x, j < e1 -> l < e3 -> at_index t [i; j; k; l] = Some x -> (x <= v)%Q.
Proof.
  intros Hs. unfold amax_odd. rewrite Hs. intros E. apply rbind_ok in E as (d & Ed & [= <-]).
  cbn [shape data]. split; [reflexivity|]. split.
  { rewrite (rmapM_length _ _ _ Ed), prod_length, !seq_length. reflexivity. }
  intros i k Hi Hk.
  destruct (rmapM_nth _ _ _ _ _ Ed (nth_error_list_prod e0 e2 i k Hi Hk)) as (v & Hv & Ev).
  cbv beta iota in Ev. apply rbind_ok in Ev as (xs & Ex & Em). exists v.
  split; [|split; [exact Hv|split]].
  - unfold at_index. cbn [shape data ravel]. rewrite !prod_cons. unfold prod at 1 2 3. cbn [fold_right].
    rewrite <- Hv. f_equal. lia.
  - apply list_max_in in Em. apply In_nth_error in Em as (p & Hp).
    destruct (rmapM_nth' _ _ _ _ _ Ex Hp) as ((j, l) & Hjl & G). cbv beta iota in G.
    apply nth_error_In in Hjl. apply in_prod_iff in Hjl as [Hj Hl]. apply in_seq in Hj, Hl.
    exists j, l. repeat split; try lia. now apply get_ok.
  - intros j l x Hj Hl Hx. apply (list_max_ge _ _ _ Em).
    destruct (rmapM_nth _ _ _ _ _ Ex (nth_error_list_prod e1 e3 j l Hj Hl)) as (y & Hy & G).
    cbv beta iota in G. apply get_ok in G. rewrite Hx in G. injection G as ->. eapply nth_error_In, Hy.
Qed.

Lemma valid4 e0 e1 e2 e3 i j k l : i < e0 -> j < e1 -> k < e2 -> l < e3 -> valid [e0; e1; e2; e3] [i; j; k; l].
Proof. intros. repeat constructor; assumption. Qed.

(** One group: its scale [S], the largest block scale [m], and every block's integer. *)
Definition compressed (b : positive) (S m x : Q) (n : Z) : Prop :=
  n = clamp (round_half_even (x / S)) 1 (2 ^ Zpos b) /\ (S == m / inject_Z (2 ^ Zpos b))%Q /\ ~ (S == 0)%Q.

Lemma gdq_generic (t2 : tensor Q) g b e0 e1 e2 e3 ints floats :
  wf t2 -> expand_shape (shape t2) g = [e0; e1; e2; e3] ->
  grouped_dynamic_quantize t2 g b = Ok (ints, floats) ->
  length ints = length (data t2) /\ length floats = e0 * e2 /\ length (data t2) = prod [e0; e1; e2; e3] /\
  forall i k, i < e0 -> k < e2 -> exists S m,
    nth_error floats (i * e2 + k) = Some S /\
    (exists j l, j < e1 /\ l < e3 /\ nth_error (data t2) (ravel [e0; e1; e2; e3] [i; j; k; l]) = Some m) /\
    forall j l x, j < e1 -> l < e3 -> nth_error (data t2) (ravel [e0; e1; e2; e3] [i; j; k; l]) = Some x ->
      (x <= m)%Q /\ exists n, nth_error ints (ravel [e0; e1; e2; e3] [i; j; k; l]) = Some n /\ compressed b S m x n.
Proof.
  intros W Hs. unfold grouped_dynamic_quantize. rewrite Hs. intros E.
  apply rbind_ok in E as (gt & Eg & E). apply rbind_ok in E as (mx & Em & E).
  apply rbind_ok in E as (q & Eq & [= <- <-]).
  assert (Hgt : gt = mkT [e0; e1; e2; e3] (data t2) /\ prod [e0; e1; e2; e3] = length (data t2)).
  { unfold reshape in Eg. destruct (Nat.eqb_spec (prod [e0; e1; e2; e3]) (length (data t2))); [|discriminate].
    injection Eg as <-. auto. }
  destruct Hgt as [-> Hp]. clear Eg. cbn [shape data] in *.
  destruct (amax_spec (mkT [e0; e1; e2; e3] (data t2)) _ e0 e1 e2 e3 eq_refl Em) as (Sm & Lm & Am).
  split; [|split; [|split]].
  - rewrite (rmapM_length _ _ _ Eq), seq_length. reflexivity.
  - unfold tmap. cbn [data]. rewrite map_length. exact Lm.
  - now symmetry.
  - intros i k Hi Hk. destruct (Am i k Hi Hk) as (m & Hm & Hm' & (j0 & l0 & Hj0 & Hl0 & Hx0) & Hmax).
    exists (m / QofZ (2 ^ Zpos b))%Q, m. split; [|split].
    + unfold tmap. cbn [data]. rewrite nth_error_map, Hm'. reflexivity.
    + exists j0, l0. auto.
    + intros j l x Hj Hl Hx. split; [now apply (Hmax j l)|].
      pose proof (valid4 e0 e1 e2 e3 i j k l Hi Hj Hk Hl) as V.
      assert (P : ravel [e0; e1; e2; e3] [i; j; k; l] < length (data t2)) by (rewrite <- Hp; now apply ravel_lt).
      assert (N : nth_error (seq 0 (length (data t2))) (ravel [e0; e1; e2; e3] [i; j; k; l])
                  = Some (ravel [e0; e1; e2; e3] [i; j; k; l])).
      { rewrite nth_error_nth' with (d := 0) by (rewrite seq_length; exact P). rewrite seq_nth by exact P. reflexivity. }
      destruct (rmapM_nth _ _ _ _ _ Eq N) as (n & Hn & En). exists n. split; [exact Hn|].
      rewrite (unravel_ravel _ _ V) in En. cbv beta iota in En.
      apply rbind_ok in En as (x' & Ex & En). apply get_ok in Ex. unfold at_index in Ex. cbn [shape data] in Ex.
      rewrite Hx in Ex. injection Ex as <-.
      apply rbind_ok in En as (d & Ed & En). apply get_ok in Ed. rewrite tmap_at, Hm in Ed. injection Ed as <-.
      apply rbind_ok in En as (r & Er & [= <-]). apply qdiv_ok in Er as [Hz ->].
      repeat split; auto.
Qed.

Lemma pow2_pos b : (0 < inject_Z (2 ^ Zpos b))%Q.
Proof. change 0%Q with (inject_Z 0). rewrite <- Zlt_Qlt. apply Z.pow_pos_nonneg; lia. Qed.

(** The arithmetic of one block. *)
Lemma compressed_spec b S m x n : compressed b S m x n -> (0 < x)%Q -> (x <= m)%Q ->
  (0 < S)%Q /\ (S * inject_Z (2 ^ Zpos b) == m)%Q /\ (1 <= n <= 2 ^ Zpos b)%Z /\
  ((Qabs (inject_Z n * S - x) <= S / 2)%Q \/ ((x <= S / 2)%Q /\ n = 1%Z)) /\
  (Qabs (inject_Z n * S - x) < S)%Q /\ ((x == m)%Q -> n = (2 ^ Zpos b)%Z /\ (inject_Z n * S == x)%Q).
Proof.
  intros (-> & HS & HZ) Hx Hm. pose proof (pow2_pos b) as HP. set (P := inject_Z (2 ^ Zpos b)) in *.
  assert (PS : (0 < S)%Q). { rewrite HS. apply Qlt_shift_div_l; [exact HP|]. lra. }
  assert (ES : (S * P == m)%Q). { rewrite HS. field. intros E. rewrite E in HP. discriminate HP. }
  set (r := round_half_even (x / S)) in *.
  assert (S2 : (S / 2 == (1 # 2) * S)%Q) by field.
  assert (D : (x / S * S == x)%Q) by (field; exact HZ).
  assert (UP : (x / S <= P)%Q). { apply div_bounds_ge; [exact PS|]. rewrite Qmult_comm, ES. exact Hm. }
  assert (R : (r <= 2 ^ Zpos b)%Z).
  { unfold r. rewrite <- (round_QofZ (2 ^ Zpos b)). apply round_mono. exact UP. }
  assert (P1 : (1 <= 2 ^ Zpos b)%Z). { assert (0 < 2 ^ Zpos b)%Z by (apply Z.pow_pos_nonneg; lia). lia. }
  assert (C : clamp r 1 (2 ^ Zpos b) = Z.max r 1) by (unfold clamp; lia).
  rewrite C. split; [exact PS|]. split; [exact ES|]. split; [lia|].
  destruct (round_bounds (x / S)) as [B1 B2]. fold r in B1, B2.
  assert (BA : (Qabs (inject_Z r * S - x) <= S / 2)%Q).
  { assert (E : (inject_Z r * S - x == (inject_Z r - x / S) * S)%Q) by (rewrite <- D at 1; ring).
    rewrite E, Qabs_Qmult. rewrite (Qabs_pos S) by lra.
    assert (Qabs (inject_Z r - x / S) <= 1 # 2)%Q.
    { apply Qabs_Qle_condition. unfold QofZ in *. split; lra. }
    setoid_replace (S / 2)%Q with ((1#2) * S)%Q by (field). apply Qmult_le_compat_r; [assumption|lra]. }
  assert (rPos : (0 <= r)%Z).
  { unfold r. rewrite <- (round_QofZ 0). apply round_mono.
    apply Qle_shift_div_l; [exact PS|]. setoid_replace (QofZ 0 * S)%Q with 0%Q by (unfold QofZ, inject_Z; ring). lra. }
  destruct (Z_lt_le_dec r 1) as [H0|H1].
  - assert (r = 0%Z) by lia. rewrite Z.max_r by lia.
    assert (xs : (x <= S / 2)%Q).
    { rewrite H in BA. setoid_replace (inject_Z 0 * S - x)%Q with (- x)%Q in BA by (unfold inject_Z; ring).
      rewrite Qabs_opp, Qabs_pos in BA by lra. exact BA. }
    assert (E1 : (inject_Z 1 * S - x == S - x)%Q) by (unfold inject_Z; ring).
    split; [right; split; [exact xs|reflexivity]|]. split.
    + rewrite E1. rewrite S2 in xs. rewrite Qabs_pos; lra.
    + intros Ex. exfalso. assert (Hc : (S * P <= S / 2)%Q) by (rewrite ES, <- Ex; exact xs).
      assert (H2 : (1 <= P)%Q) by (unfold P; change 1%Q with (inject_Z 1); rewrite <- Zle_Qle; exact P1).
      assert ((S * 1 <= S * P)%Q). { rewrite !(Qmult_comm S). apply Qmult_le_compat_r; lra. }
      rewrite S2 in Hc. lra.
  - rewrite Z.max_l by lia. split; [left; exact BA|]. split; [rewrite S2 in BA; lra|].
    intros Ex. assert (x / S == P)%Q. { rewrite Ex, <- ES. field. exact HZ. }
    assert (r = (2 ^ Zpos b)%Z).
    { apply Z.le_antisymm; [exact R|]. unfold r. rewrite <- (round_QofZ (2 ^ Zpos b)). apply round_mono.
      rewrite H. apply Qle_refl. }
    split; [assumption|]. rewrite H0. fold P. rewrite Ex, <- ES. ring.
Qed.

(** ** Granularities of quantizers *)

Lemma set_nth_0 a l v : set_nth (a :: l) 0 v = v :: l. Proof. reflexivity. Qed.

Lemma py_index_0 n k : py_index n 0 = Ok k -> k = 0 /\ 0 < n.
Proof.
  intros E. pose proof (py_index_bound _ _ _ E) as B. split; [|lia].
  unfold py_index in E. destruct (_ && _); [injection E as <-; reflexivity|].
  destruct (_ && _) eqn:E2; [|discriminate]. apply andb_true_iff in E2 as [_ E2]. discriminate.
Qed.

Lemma py_index_1 n k : py_index n 1 = Ok k -> k = 1 /\ 1 < n.
Proof.
  intros E. pose proof (py_index_bound _ _ _ E) as B. unfold py_index in E.
  destruct (_ && _) eqn:E1; [injection E as <-; cbn in *; lia|].
  destruct ((- Z.of_nat n <=? 1)%Z && (1 <? 0)%Z) eqn:E2; [|discriminate]. apply andb_true_iff in E2 as [_ E2]. discriminate.
Qed.

Lemma channel_inv s t : Forall (fun n => 0 < n) s -> tile_divides s t ->
  granularity_from_sizes s t = PerChannel [0%Z] -> exists d r, s = d :: r /\ t = 1 :: r.
Proof.
  intros P D E. destruct (granularity_recovery s t P D) as (ta & Et & R). rewrite E in Et.
  cbn [tile_size set_dims_1] in Et. unfold py_set in Et.
  destruct (py_index (length s) 0) as [k|] eqn:EI; [|discriminate]. apply py_index_0 in EI as [-> L].
  destruct s as [|d r]; [cbn in L; lia|]. cbn [rbind rmap set_nth] in Et. injection Et as <-.
  exists d, r. split; [reflexivity|]. now symmetry.
Qed.

Lemma tensor_inv s t : Forall (fun n => 0 < n) s -> tile_divides s t ->
  granularity_from_sizes s t = PerTensor -> s = t.
Proof.
  intros P D E. destruct (granularity_recovery s t P D) as (ta & Et & R). rewrite E in Et. injection Et as <-.
  now symmetry.
Qed.

Lemma set_blocks_1 s st d sizes tile tile' : length sizes = 1 -> set_blocks s st [d] sizes tile = Ok tile' ->
  exists bs k, sizes = [bs] /\ py_index (length s) d = Ok k /\ exists k', py_index (length tile) d = Ok k' /\ tile' = set_nth tile k' bs.
Proof.
  destruct sizes as [|bs [|]]; try discriminate. intros _. cbn [set_blocks]. unfold py_get.
  destruct (py_index (length s) d) as [k|] eqn:E; [|discriminate]. cbn [rbind].
  destruct (nth_error s k) as [n|]; [|discriminate]. cbn [rbind].
  destruct (n <? bs); [discriminate|]. destruct (st && (bs =? 0)); [discriminate|].
  destruct (st && negb (n mod bs =? 0)); [discriminate|]. unfold py_set.
  destruct (py_index (length tile) d) as [k'|]; [|discriminate]. cbn [rbind]. intros [= <-].
  exists bs, k. repeat split. exists k'. auto.
Qed.

Lemma block_inv s t d pc sizes st : Forall (fun n => 0 < n) s -> tile_divides s t ->
  granularity_from_sizes s t = PerBlock [d] sizes [pc] st ->
  (d = 1 /\ pc = 0 \/ d = 0 /\ pc = 1)%Z ->
  exists l chans blks bs rest, sizes = [bs] /\ 0 < bs /\ d = (match l with Row_blocks => 1 | Column_blocks => 0 end)%Z /\
    s = lpbq_shape l chans blks bs rest /\ t = lpbq_tile l bs rest.
Proof.
  intros P D E C. destruct (granularity_recovery s t P D) as (ta & Et & R). rewrite E in Et.
  cbn [tile_size] in Et. destruct (Nat.eqb_spec (length [d]) (length sizes)) as [HL|]; [|discriminate].
  cbn [negb set_dims_1 length] in Et, HL. symmetry in HL. unfold py_set in Et.
  destruct (py_index (length s) pc) as [k|] eqn:EI; [|discriminate]. cbn [rbind] in Et.
  destruct (set_blocks s st [d] sizes (set_nth s k 1)) as [t'|] eqn:EB; [|discriminate].
  injection Et as <-. cbn [resolve_tile] in R. subst t'.
  apply (set_blocks_1 _ _ _ _ _ _ HL) in EB as (bs & k1 & -> & EI1 & k2 & EI2 & Ht).
  rewrite set_nth_length in EI2. rewrite EI1 in EI2. injection EI2 as <-.
  destruct C as [[-> ->]|[-> ->]].
  - apply py_index_0 in EI as [-> L]. apply py_index_1 in EI1 as [-> L1].
    destruct s as [|c [|n rest]]; cbn in L1; try lia. cbn [set_nth] in Ht.
    exists Row_blocks, c, (n / bs), bs, rest. subst t. inversion D as [|? ? ? ? _ D2]; subst.
    inversion D2 as [|? ? ? ? [Hb [q Hq]] _]; subst. repeat split; auto.
    cbn. rewrite Nat.div_mul by lia. reflexivity.
  - apply py_index_1 in EI as [-> L]. apply py_index_0 in EI1 as [-> L1].
    destruct s as [|n [|c rest]]; cbn in L; try lia. cbn [set_nth] in Ht.
    exists Column_blocks, c, (n / bs), bs, rest. subst t. inversion D as [|? ? ? ? [Hb [q Hq]] _]; subst.
    repeat split; auto. cbn. rewrite Nat.div_mul by lia. reflexivity.
Qed.

(** ** Tiles of the supported granularities *)

Lemma ones_grid r : Forall (fun n => 0 < n) r -> prod (grid r r) = 1.
Proof.
  induction 1 as [|n r Hn _ IH]; [reflexivity|]. unfold grid, zipmap in *. cbn [combine map].
  rewrite prod_cons, IH, Nat.div_same by lia. reflexivity.
Qed.

Lemma ones_row r idx : valid r idx -> ravel (grid r r) (tile_coord idx r) = 0.
Proof.
  intros V. induction V as [|i n idx r H V IH]; [reflexivity|].
  unfold grid, tile_coord, zipmap in *. cbn [combine map ravel]. rewrite IH, Nat.div_small by lia. lia.
Qed.

Lemma forall_pos_valid r idx : valid r idx -> Forall (fun n => 0 < n) r.
Proof. induction 1; constructor; auto; lia. Qed.

Lemma row_tensor s idx : valid s idx -> tile_row s s idx = 0.
Proof. apply ones_row. Qed.

Lemma row_channel d r i idx : valid (d :: r) (i :: idx) -> tile_row (d :: r) (1 :: r) (i :: idx) = i.
Proof.
  intros V. inversion V as [|? ? ? ? _ V']; subst. unfold tile_row, grid, tile_coord, zipmap. cbn [combine map ravel].
  change (map (fun '(x, y) => x / y) (combine r r)) with (grid r r).
  change (map (fun '(x, y) => x / y) (combine idx r)) with (tile_coord idx r).
  rewrite (ones_row r idx V'), (ones_grid r (forall_pos_valid _ _ V')), Nat.div_1_r. lia.
Qed.

Lemma row_blocks l chans blks bs rest i j idx : 0 < bs -> valid (lpbq_shape l chans blks bs rest) (i :: j :: idx) ->
  tile_row (lpbq_shape l chans blks bs rest) (lpbq_tile l bs rest) (i :: j :: idx) =
  match l with Row_blocks => block_at l chans blks i (j / bs) | Column_blocks => block_at l chans blks j (i / bs) end.
Proof.
  intros Hb V. unfold tile_row, grid, tile_coord, zipmap.
  assert (V' : valid rest idx).
  { destruct l; cbn in V; inversion V as [|? ? ? ? _ V1]; inversion V1; assumption. }
  destruct l; cbn [lpbq_shape lpbq_tile combine map ravel block_at];
  change (map (fun '(x, y) => x / y) (combine rest rest)) with (grid rest rest);
  change (map (fun '(x, y) => x / y) (combine idx rest)) with (tile_coord idx rest);
  rewrite (ones_row rest idx V'), prod_cons, (ones_grid rest (forall_pos_valid _ _ V')), !Nat.div_1_r.
  - rewrite Nat.div_mul by lia. lia.
  - lia.
Qed.

(** ** The compression of a whole quantizer *)

Lemma block_at_lt l chans blks c j : c < chans -> j < blks -> block_at l chans blks c j < chans * blks.
Proof. intros. destruct l; cbn [block_at]; nia. Qed.

Lemma py_get_0 a (l : list nat) : py_get (a :: l) 0 = Ok a.
Proof. reflexivity. Qed.
Lemma py_get_1 a b (l : list nat) : py_get (a :: b :: l) 1 = Ok b.
Proof.
  unfold py_get, py_index. replace ((0 <=? 1) && (1 <? Z.of_nat (length (a :: b :: l))))%Z with true; [reflexivity|].
  symmetry. apply andb_true_iff. split; [reflexivity|]. apply Z.ltb_lt. cbn [length]. lia.
Qed.

Lemma generate_spec st cb db b ss off qoff sym l chans blks bs rest x :
  0 < bs -> Forall (fun n => 0 < n) (lpbq_shape l chans blks bs rest) ->
  length ss = chans * blks -> Forall (fun s => (0 < s)%Q) ss ->
  generate_lpbq_encoding (cb, db)
    (mkPP (Vec ss) off qoff b sym (lpbq_shape l chans blks bs rest) (lpbq_tile l bs rest)) = Ok x ->
  granularity_from_sizes (lpbq_shape l chans blks bs rest) (lpbq_tile l bs rest)
    = PerBlock [match l with Row_blocks => 1 | Column_blocks => 0 end]%Z [bs]
               [match l with Row_blocks => 0 | Column_blocks => 1 end]%Z st ->
  b = cb /\ sym = true /\ lp_compressed x = cb /\ lp_bw x = db /\ lp_block x = bs /\
  lp_offset x = repeat (inject_Z (- 2 ^ (Zpos db - 1))) chans /\
  compresses b l chans blks ss (lp_int_scale x) (lp_scale x).
Proof.
  intros Hb Pos HL HP E G. unfold generate_lpbq_encoding, lpbq_granularity_and_block_size in E.
  cbn [p_shape p_tile p_symmetric p_bits p_scale pelems] in E. rewrite G in E. cbn [length Nat.eqb andb] in E.
  destruct sym; cbn [andb negb rbind] in E; [|discriminate].
  destruct (Pos.eqb_spec b cb) as [->|]; cbn [andb negb rbind] in E; [|discriminate].
  assert (E' : exists g e0 e1 e2 e3 t2, wf t2 /\ data t2 = ss /\ expand_shape (shape t2) g = [e0; e1; e2; e3] /\
             e0 * e2 = chans /\
             (e0 = chans /\ e1 = 1 /\ e2 = 1 /\ e3 = blks /\ l = Row_blocks \/
              e0 = 1 /\ e1 = blks /\ e2 = chans /\ e3 = 1 /\ l = Column_blocks) /\
             (let? (ints, floats) := grouped_dynamic_quantize t2 g cb in
              Ok (mkLP cb db bs ints floats (repeat (QofZ (- 2 ^ (Zpos db - 1))) (length floats)))) = Ok x).
  { destruct l; cbn [lpbq_shape lpbq_tile] in *.
    - unfold infer_scale_2d_shape, floordiv in E. rewrite py_get_0, py_get_1 in E. cbn [rbind] in E.
      destruct (Nat.eqb_spec bs 0); [lia|]. cbn [rbind] in E. rewrite Nat.div_mul in E by lia.
      unfold reshape in E. cbn [data] in E.
      destruct (Nat.eqb_spec (prod [chans; blks]) (length ss)) as [HW|]; [|discriminate]. cbn [rbind] in E.
      exists [1%Z; (-1)%Z], chans, 1, 1, blks, (mkT [chans; blks] ss).
      split; [symmetry; exact HW|]. split; [reflexivity|]. split; [|split; [lia|split; [left; auto|exact E]]].
      transitivity [chans / 1; 1; 1; blks]; [reflexivity|]. rewrite Nat.div_1_r. reflexivity.
    - unfold infer_scale_2d_shape, floordiv in E. rewrite py_get_0, py_get_1 in E. cbn [rbind] in E.
      destruct (Nat.eqb_spec bs 0); [lia|]. cbn [rbind] in E. rewrite Nat.div_mul in E by lia.
      unfold reshape in E. cbn [data] in E.
      destruct (Nat.eqb_spec (prod [blks; chans]) (length ss)) as [HW|]; [|discriminate]. cbn [rbind] in E.
      exists [(-1)%Z; 1%Z], 1, blks, chans, 1, (mkT [blks; chans] ss).
      split; [symmetry; exact HW|]. split; [reflexivity|]. split; [|split; [lia|split; [right; auto|exact E]]].
      transitivity [1; blks; chans / 1; 1]; [reflexivity|]. rewrite Nat.div_1_r. reflexivity. }
  clear E. destruct E' as (g & e0 & e1 & e2 & e3 & t2 & W & HD & HE & HC & HX & E).
  destruct (grouped_dynamic_quantize t2 g cb) as [[ints floats]|] eqn:EG; [|discriminate]. injection E as <-.
  destruct (gdq_generic t2 g cb e0 e1 e2 e3 ints floats W HE EG) as (Li & Lf & Lp & Q).
  cbn [lp_compressed lp_bw lp_block lp_offset lp_int_scale lp_scale]. rewrite Lf, HC.
  do 6 (split; [reflexivity|]). rewrite HD in *. split; [exact HL|]. split; [congruence|]. split; [congruence|].
  intros c Hc.
  set (i := match l with Row_blocks => c | Column_blocks => 0 end).
  set (k := match l with Row_blocks => 0 | Column_blocks => c end).
  assert (I : i < e0) by (unfold i; destruct HX as [(-> & -> & -> & -> & ->)|(-> & -> & -> & -> & ->)]; lia).
  assert (K : k < e2) by (unfold k; destruct HX as [(-> & -> & -> & -> & ->)|(-> & -> & -> & -> & ->)]; lia).
  destruct (Q i k I K) as (S & m & HS & (j0 & l0 & Hj0 & Hl0 & Hm) & HA).
  assert (POS : forall j, j < blks -> exists j1 l1, j1 < e1 /\ l1 < e3 /\
            ravel [e0; e1; e2; e3] [i; j1; k; l1] = block_at l chans blks c j).
  { intros j Hj. destruct HX as [(-> & -> & -> & -> & ->)|(-> & -> & -> & -> & ->)].
    - exists 0, j. split; [lia|]. split; [exact Hj|]. cbn [ravel block_at]. rewrite !prod_cons. unfold prod. cbn. unfold i, k. lia.
    - exists j, 0. split; [exact Hj|]. split; [lia|]. cbn [ravel block_at]. rewrite !prod_cons. unfold prod. cbn. unfold i, k. lia. }
  assert (J0 : exists j, j < blks /\ ravel [e0; e1; e2; e3] [i; j0; k; l0] = block_at l chans blks c j).
  { destruct HX as [(-> & -> & -> & -> & ->)|(-> & -> & -> & -> & ->)].
    - exists l0. split; [exact Hl0|]. cbn [ravel block_at]. rewrite !prod_cons. unfold prod. cbn. unfold i, k. lia.
    - exists j0. split; [exact Hj0|]. cbn [ravel block_at]. rewrite !prod_cons. unfold prod. cbn. unfold i, k. lia. }
  assert (ALL : forall j, j < blks -> exists s n, nth_error ss (block_at l chans blks c j) = Some s /\
            nth_error ints (block_at l chans blks c j) = Some n /\ (0 < s)%Q /\ (s <= m)%Q /\ compressed cb S m s n).
  { intros j Hj. destruct (POS j Hj) as (j1 & l1 & Hj1 & Hl1 & HR).
    destruct (nth_error_lt_some ss (block_at l chans blks c j)) as (s & Hs).
    { rewrite HL. now apply block_at_lt. }
    rewrite <- HR in Hs. destruct (HA j1 l1 s Hj1 Hl1 Hs) as (Hle & n & Hn & HC').
    exists s, n. rewrite <- HR. repeat split; auto.
    - rewrite Forall_forall in HP. eapply HP, nth_error_In, Hs.
    - apply HC'. - apply HC'. - apply HC'. }
  destruct J0 as (j & Hj & HJ). rewrite HJ in Hm.
  destruct (ALL j Hj) as (s & n & Hs & Hn & Ps & Ls & Cs). rewrite Hm in Hs. injection Hs as <-.
  destruct (compressed_spec cb S m m n Cs Ps Ls) as (PS & ES & Bn & _ & _ & Ex).
  destruct (Ex (Qeq_refl m)) as [-> ExS].
  exists S. split.
  { rewrite <- HS. f_equal. destruct HX as [(-> & -> & -> & -> & ->)|(-> & -> & -> & -> & ->)]; unfold i, k; lia. }
  split; [exact PS|]. split.
  - exists j, m. repeat split; auto. intros j' s' Hj' Hs'.
    destruct (ALL j' Hj') as (s2 & n2 & Hs2 & _ & _ & L2 & _). rewrite Hs' in Hs2. injection Hs2 as <-. exact L2.
  - intros j' Hj'. destruct (ALL j' Hj') as (s2 & n2 & Hs2 & Hn2 & P2 & L2 & C2).
    exists s2, n2. split; [exact Hs2|]. split; [exact Hn2|].
    destruct (compressed_spec cb S m s2 n2 C2 P2 L2) as (_ & _ & B2 & D2 & E2 & _). split; [exact B2|].
    destruct D2 as [D2|[D2 D3]]; [now left|right; auto].
Qed.
