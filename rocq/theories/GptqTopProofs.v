(** [gptq] as a whole: the recurrence, and the written weight as a fixed point. *)
From Verif Require Import Prelude TilingModel TilingSpec TilingProofs GranularityModel GranularitySpec GranularityProofs
  AffineModel AffineSpec AffineProofs AffineTensorProofs FuseModel FuseSpec FuseFloatProofs GptqModel GptqSpec
  GptqHessianProofs GptqColumnProofs GptqLoopProofs.
From Coq Require Import QArith Qfield Lqa Permutation.
Local Open Scope nat_scope.

Lemma groups_of_ok rows cols tile q actorder grp : fits_matrix rows cols tile q -> groups_of q rows cols actorder = Ok grp ->
  forall cb nrb ncb, grp = Some (cb, nrb, ncb) ->
    actorder = false /\ 1 < cols / cb /\ exists rb, tile = [rb; cb] /\ nrb = rows / rb /\ ncb = cols / cb.
Proof.
  intros F H cb nrb ncb ->. destruct F as (_ & _ & _ & _ & (ta & T & Rt) & _).
  assert (K : (let? (rb, cb) := block_sides (q_gran q) rows cols in
      if (rb =? 0) || (cb =? 0) then Err ZeroDivisionError else
      Ok (if (1 <? cols / cb) && negb actorder then Some (cb, rows / rb, cols / cb) else None)) = Ok (Some (cb, nrb, ncb))).
  { unfold groups_of in H. destruct (q_gran q); [discriminate|discriminate|exact H|exact H]. }
  unfold block_sides in K. rewrite T in K. cbn [rbind] in K. rewrite Rt in K. destruct tile as [|a [|b [|]]]; try discriminate.
  cbn [rbind] in K. destruct ((a =? 0) || (b =? 0)); [discriminate|].
  destruct (Nat.ltb_spec 1 (cols / b)); [|discriminate]. destruct actorder; [discriminate|]. cbn [andb negb] in K.
  injection K as <- <- <-. split; [reflexivity|]. split; [assumption|]. exists a. auto.
Qed.

Lemma flat_map_rows_nth (f : nat -> nat -> Q) n m r c : r < n -> c < m ->
  nth_error (flat_map (fun r => map (f r) (seq 0 m)) (seq 0 n)) (r * m + c) = Some (f r c).
Proof.
  assert (G : forall a k, k < n * m -> nth_error (flat_map (fun r => map (f r) (seq 0 m)) (seq a n)) k = Some (f (a + k / m) (k mod m))).
  { induction n as [|n IH]; intros a k Hk; [lia|]. cbn [seq flat_map]. assert (0 < m) by nia.
    destruct (Nat.lt_ge_cases k m) as [L|L].
    - rewrite nth_error_app1 by (rewrite map_length, seq_length; exact L). rewrite nth_error_map.
      rewrite nth_error_nth' with (d := 0) by (rewrite seq_length; exact L). rewrite seq_nth by exact L. cbn [option_map Nat.add].
      rewrite Nat.div_small, Nat.mod_small, Nat.add_0_r by exact L. reflexivity.
    - rewrite nth_error_app2 by (rewrite map_length, seq_length; exact L). rewrite map_length, seq_length, IH by lia.
      replace k with ((k - m) + 1 * m) at 3 4 by lia. rewrite Nat.div_add, Nat.mod_add by lia. do 2 f_equal. lia. }
  intros Hr Hc. rewrite G by nia. rewrite Nat.div_add_l, Nat.div_small, Nat.add_0_r by lia.
  rewrite (Nat.add_comm (r * m) c), Nat.mod_add, Nat.mod_small by lia. reflexivity.
Qed.

Lemma flat_map_rows_length (f : nat -> nat -> Q) n m a : length (flat_map (fun r => map (f r) (seq 0 m)) (seq a n)) = n * m.
Proof. revert a. induction n as [|n IH]; intros a; [reflexivity|]. cbn [seq flat_map]. rewrite app_length, map_length, seq_length, IH. lia. Qed.

Section Top.
  Variable estimate : quantizer -> tensor Q -> result quantizer.
  Variable argsort : list Q -> list nat.
  Variable cholesky : nat -> (nat -> nat -> Q) -> result (nat -> nat -> Q).
  Hypothesis argsort_perm : forall l, Permutation (argsort l) (seq 0 (length l)).

  Definition order_for (actorder : bool) (cols : nat) (h : nat -> nat -> Q) : list nat :=
    if actorder then argsort (map (fun i => h i i) (seq 0 cols)) else seq 0 cols.

  Lemma order_perm actorder cols h : Permutation (order_for actorder cols h) (seq 0 cols).
  Proof.
    unfold order_for. destruct actorder; [|reflexivity].
    pose proof (argsort_perm (map (fun i => h i i) (seq 0 cols))) as P. now rewrite map_length, seq_length in P.
  Qed.

  (** What a successful call did, step by step. *)
  Lemma gptq_steps l fmt weight q0 s ds bs damp actorder w' q' s' :
    gptq estimate argsort cholesky l fmt weight (Some q0) s ds bs damp actorder = Ok (w', q', s') ->
    exists rows cols q h hinv grp st',
      check_granularity l (q_gran q0) = Ok tt /\ flat_shape l (shape weight) = Ok (rows, cols) /\
      estimate q0 (mkT [rows; cols] (data weight)) = Ok q /\ calculate_hessian l cols s ds = Ok (h, s') /\
      let order := order_for actorder cols h in
      cholesky cols (dampen cols damp (fun i j => h (nth i order 0) (nth j order 0))) = Ok hinv /\
      groups_of q rows cols actorder = Ok grp /\ (bs <> 0)%Z /\
      (exists w, blocks_loop rows cols order hinv grp (Z.to_nat bs)
        (fun p => map (fun r => nth (r * cols + nth p order 0) (data weight) 0%Q) (seq 0 rows),
         mkG (fun _ => repeat 0%Q rows) (fun _ => repeat 0%Q rows) (fun _ => repeat 0%Q rows) q)
        (if (bs <? 0)%Z then [] else range_step cols (Z.to_nat bs)) = Ok (w, st')) /\
      q' = g_q st' /\
      w' = mkT (shape weight) (flat_map (fun r => map (fun c =>
             cast fmt (get (g_quant st') r (match index_of c order with Some k => k | None => 0 end))) (seq 0 cols)) (seq 0 rows)).
  Proof.
    unfold gptq. intros H.
    destruct (check_granularity l (q_gran q0)) as [[]|] eqn:E1; [|discriminate]. cbn [rbind] in H.
    destruct (flat_shape l (shape weight)) as [[rows cols]|] eqn:E2; [|discriminate]. cbn [rbind] in H.
    destruct (estimate q0 _) as [q|] eqn:E3; [|discriminate]. cbn [rbind] in H.
    destruct (calculate_hessian l cols s ds) as [[h s1]|] eqn:E4; [|discriminate]. cbn [rbind] in H.
    fold (order_for actorder cols h) in H.
    destruct (cholesky cols _) as [hinv|] eqn:E5; [|discriminate]. cbn [rbind] in H.
    destruct (groups_of q rows cols actorder) as [grp|] eqn:E6; [|discriminate]. cbn [rbind] in H.
    destruct (bs =? 0)%Z eqn:E7; [discriminate|].
    destruct (blocks_loop _ _ _ _ _ _ _ _) as [[w st']|] eqn:E8; [|discriminate]. cbn [rbind] in H.
    injection H as <- <- <-.
    exists rows, cols, q, h, hinv, grp, st'. split; [reflexivity|]. split; [reflexivity|]. split; [exact E3|]. split; [exact E4|].
    cbn zeta. split; [exact E5|]. split; [exact E6|]. split; [now apply Z.eqb_neq|]. split; [exists w; exact E8|]. split; reflexivity.
  Qed.

  Section Run.
    Variables (l : layer) (fmt : format) (weight : tensor Q) (q0 : quantizer) (s : store) (ds : list (list nat)) (bs : Z)
      (damp : Q) (actorder : bool) (rows cols : nat) (tile : list nat).
    Hypothesis Hshape : flat_shape l (shape weight) = Ok (rows, cols).
    Hypothesis Hest : forall q, estimate q0 (mkT [rows; cols] (data weight)) = Ok q -> fits_matrix rows cols tile q.
    Hypothesis Hbs : (0 < bs)%Z.

    Let at_ (r c : nat) : Q := nth (r * cols + c) (data weight) 0%Q.

    Lemma gptq_recurrence w' q' s' :
      gptq estimate argsort cholesky l fmt weight (Some q0) s ds bs damp actorder = Ok (w', q', s') ->
      exists q h order hinv y e,
        estimate q0 (mkT [rows; cols] (data weight)) = Ok q /\ settings q q' /\
        calculate_hessian l cols s ds = Ok (h, s') /\ Permutation order (seq 0 cols) /\ (actorder = false -> order = seq 0 cols) /\
        cholesky cols (dampen cols damp (fun i j => h (nth i order 0) (nth j order 0))) = Ok hinv /\
        fits_matrix rows cols tile q' /\ can_support_bitwidth (q_out q') (q_bits q') = true /\
        recurrence rows cols tile q' at_ (fun p => nth p order 0) hinv y e /\
        shape w' = shape weight /\ length (data w') = rows * cols /\
        (forall r p, r < rows -> p < cols -> nth_error (data w') (r * cols + nth p order 0) = Some (cast fmt (y r p))).
    Proof.
      intros H. apply gptq_steps in H. destruct H as (rows' & cols' & q & h & hinv & grp & st' & _ & E2 & E3 & E4 & K).
      rewrite Hshape in E2. injection E2 as <- <-. cbn zeta in K. destruct K as (E5 & E6 & _ & (w & E8) & -> & ->).
      set (order := order_for actorder cols h) in *. pose proof (Hest q E3) as F.
      assert (P : Permutation order (seq 0 cols)) by apply order_perm.
      assert (Lo : length order = cols) by (rewrite (Permutation_length P); apply seq_length).
      assert (Go : forall cb nrb ncb, grp = Some (cb, nrb, ncb) ->
         order = seq 0 cols /\ exists rb, tile = [rb; cb] /\ nrb = rows / rb /\ ncb = cols / cb).
      { intros cb nrb ncb G. destruct (groups_of_ok _ _ _ _ _ _ F E6 _ _ _ G) as (-> & _ & X). split; [reflexivity|exact X]. }
      assert (Oin : forall p c, nth_error order p = Some c -> c < cols).
      { intros p c X. apply nth_error_In in X. apply (Permutation_in _ P) in X. apply in_seq in X. lia. }
      rewrite (proj2 (Z.ltb_ge bs 0)) in E8 by lia.
      set (w0 := fun r p => at_ r (nth p order 0)).
      assert (Lb : 0 < Z.to_nat bs) by lia.
      pose proof (fun I => loop_inv rows cols tile order hinv grp w0 Go Oin q (Z.to_nat bs) _ _ Lb I E8) as LI.
      destruct LI as ((Fq & Sq & Cq) & Dn & _).
      { split; [split; [exact F|split; [apply settings_refl|lia]]|]. split; [intros r k _ Hk; lia|].
        cbn [fst snd g_err]. intros c Hc. rewrite map_length, seq_length. split; [reflexivity|]. intros r Hr.
        unfold get, U. rewrite nth_map_seq by exact Hr. cbn [seq map]. unfold qsum. cbn [fold_right]. unfold w0, at_. ring. }
      exists q, h, order, hinv, (fun r p => get (g_quant st') r p), (fun r p => get (g_err st') r p).
      split; [exact E3|]. split; [exact Sq|]. split; [exact E4|]. split; [exact P|]. split; [intros ->; reflexivity|]. split; [exact E5|].
      split; [exact Fq|]. split; [apply Cq; destruct F as (_ & X & _); exact X|]. split; [|split; [reflexivity|split]].
      - intros r p Hr Hp. cbn zeta. exact (Dn r p Hr Hp).
      - cbn [data]. apply flat_map_rows_length.
      - intros r p Hr Hp. cbn [data].
        assert (O : nth_error order p = Some (nth p order 0)) by (apply nth_error_nth'; lia).
        rewrite flat_map_rows_nth; [|exact Hr|exact (Oin _ _ O)].
        rewrite (index_of_nth order p (nth p order 0)); [reflexivity| |exact O].
        apply (Permutation_NoDup (Permutation_sym P)), seq_NoDup.
    Qed.

    (** Every element of the written weight is a dequantized code of its tile. *)
    Lemma gptq_on_grid w' q' s' :
      gptq estimate argsort cholesky l fmt weight (Some q0) s ds bs damp actorder = Ok (w', q', s') ->
      forall r c, r < rows -> c < cols -> exists sc z, scale_of rows cols tile q' r c = Some sc /\ ~ (sc == 0)%Q /\
        code (q_bits q') z /\
        nth_error (data w') (r * cols + c) = Some (cast fmt (dequantize_elem sc (offset_of rows cols tile q' r c) z)).
    Proof.
      intros H r c Hr Hc. destruct (gptq_recurrence _ _ _ H) as (q & h & order & hinv & y & e & _ & _ & _ & P & _ & _ & _ & _ & Rc & _ & _ & V).
      assert (I : In c order) by (apply (Permutation_in _ (Permutation_sym P)), in_seq; lia).
      apply In_nth_error in I. destruct I as [p Hp].
      assert (p < cols). { rewrite <- (seq_length cols 0), <- (Permutation_length P). apply nth_error_Some. congruence. }
      pose proof (nth_error_nth order p 0 Hp) as Ec.
      specialize (V r p Hr H0). destruct (Rc r p Hr H0) as [(sc & z & A & B & C) _]. cbn beta in A, B, C. rewrite Ec in *.
      exists sc, z. split; [exact A|]. split.
      { unfold quantize_elem in B. destruct (qdiv _ sc) as [d|] eqn:D; [|discriminate]. apply qdiv_ok in D. tauto. }
      split; [eapply quantize_in_range; exact B|]. rewrite V, C. reflexivity.
    Qed.
  End Run.
End Top.

(** A tensor whose elements are dequantized codes is a fixed point. *)
Lemma grid_fixed d s a w :
  fits s a -> precise d a -> shape w = s -> length (data w) = prod s ->
  (forall idx, valid s idx -> exists sc z, nth_error (a_scale a) (tile_row s (resolve_tile s (a_tile a)) idx) = Some sc /\
     code (a_bits a) z /\
     at_index w idx = Some (cast d (dequantize_elem sc (nth_offset (a_offset a) (tile_row s (resolve_tile s (a_tile a)) idx)) z))) ->
  affine_qdq d a w = Ok w.
Proof.
  intros F P Sw Lw H. destruct (affine_codes s a w F Sw Lw) as (z & E & Sz & Wz & G).
  destruct (affine_values s a z F Sz Wz) as (v & E' & Sv & Wv & V).
  unfold affine_qdq. rewrite E. cbn [rbind]. rewrite E'. cbn [rbind]. f_equal.
  apply tensor_ext; [unfold wf, tmap; cbn [data shape]; rewrite map_length; exact Wv|unfold wf; congruence|cbn; congruence|].
  cbn [shape tmap]. rewrite Sv. intros idx Vi. destruct (H idx Vi) as (sc & c & A & B & C).
  destruct (G idx _ Vi C) as (sc' & c' & A' & B' & C'). rewrite A in A'. injection A' as <-.
  destruct (V idx c' Vi B') as (sc' & A' & D'). rewrite A in A'. injection A' as <-.
  rewrite tmap_at, D'. cbn [option_map]. rewrite C. do 3 f_equal.
  assert (Q : quantize_elem sc (nth_offset (a_offset a) (tile_row s (resolve_tile s (a_tile a)) idx)) (a_bits a)
     (cast d (dequantize_elem sc (nth_offset (a_offset a) (tile_row s (resolve_tile s (a_tile a)) idx)) c)) = Ok c).
  { destruct F as (_ & _ & _ & O & S & _). apply quantize_cast.
    - apply S. eapply nth_error_In; eassumption.
    - exact B.
    - eapply precise_elem; eassumption. }
  rewrite Q in C'. now injection C'.
Qed.

(** The tiles of the weight are those of the flattened matrix. *)
Lemma flat_tiles l sh rows cols tile q ta :
  check_granularity l (q_gran q) = Ok tt -> flat_shape l sh = Ok (rows, cols) -> fits_matrix rows cols tile q ->
  tile_size (q_gran q) sh = Ok ta ->
  prod sh = rows * cols /\ tile_divides sh (resolve_tile sh ta) /\
  prod (grid sh (resolve_tile sh ta)) = prod (grid [rows; cols] tile) /\
  forall idx, valid sh idx -> exists r c, r < rows /\ c < cols /\ ravel sh idx = r * cols + c /\
    tile_row sh (resolve_tile sh ta) idx = tile_row [rows; cols] tile [r; c].
Proof.
  intros Hc Hs F T. destruct l as [|u].
  - destruct sh as [|o [|i [|]]]; try discriminate. cbn in Hs. injection Hs as -> ->. pose proof (fits_divides _ _ _ _ F) as D.
    destruct F as (R & C & _ & _ & (ta' & T' & Rt) & _). rewrite T in T'. injection T' as <-. rewrite Rt.
    split; [apply prod2|]. split; [exact D|]. split; [reflexivity|]. intros idx V.
    inversion V as [|r ? ri ? Hr V1]; subst. inversion V1 as [|c ? ci ? Hci V2]; subst. inversion V2; subst.
    exists r, c. split; [exact Hr|]. split; [exact Hci|]. split; [|reflexivity].
    cbn [ravel]. unfold prod. cbn [fold_right]. lia.
  - destruct sh as [|o [|i [|kh [|kw [|]]]]]; try discriminate. cbn in Hs. injection Hs as -> <-.
    destruct F as (R & C & _ & _ & (ta' & T' & Rt) & _).
    assert (Pc : prod [i; kh; kw] = i * kh * kw) by (unfold prod; cbn [fold_right]; lia).
    assert (Pos : 0 < i /\ 0 < kh /\ 0 < kw) by nia. destruct Pos as (Pi & Ph & Pw).
    assert (Rav : forall r a b c, ravel [rows; i; kh; kw] [r; a; b; c] = r * (i * kh * kw) + ravel [i; kh; kw] [a; b; c]).
    { intros. cbn [ravel]. unfold prod. cbn [fold_right]. nia. }
    assert (K : q_gran q = PerTensor \/ q_gran q = PerChannel [0%Z]).
    { destruct (q_gran q) as [|dims|? ? ? st|]; [auto| |destruct st; discriminate|discriminate].
      destruct dims as [|[| |] [|]]; try discriminate. auto. }
    split; [unfold prod; cbn [fold_right]; nia|].
    destruct K as [K|K]; rewrite K in T, T'; cbn in T, T'; injection T as <-; injection T' as <-.
    + cbn [resolve_tile] in *. subst tile. split; [|split].
      * repeat (constructor; [split; [lia|apply Nat.divide_refl]|]). constructor.
      * unfold grid, zipmap. cbn [combine map]. rewrite !Nat.div_same by lia. reflexivity.
      * intros idx V. inversion V as [|r ? ri ? Hr V1]; subst. inversion V1 as [|a ? ai ? Ha V2]; subst.
        inversion V2 as [|b ? bi ? Hb V3]; subst. inversion V3 as [|c ? ci ? Hci V4]; subst. inversion V4; subst.
        exists r, (ravel [i; kh; kw] [a; b; c]). split; [exact Hr|]. split; [rewrite <- Pc; apply ravel_lt; exact V1|]. split; [apply Rav|].
        unfold tile_row, grid, tile_coord, zipmap. cbn [combine map]. rewrite !Nat.div_same by lia.
        assert (ravel [i; kh; kw] [a; b; c] < i * kh * kw) by (rewrite <- Pc; apply ravel_lt; exact V1).
        rewrite (Nat.div_small r), (Nat.div_small a), (Nat.div_small b), (Nat.div_small c), (Nat.div_small (ravel _ _)) by assumption.
        reflexivity.
    + change (Z.to_nat 0) with 0 in *. cbn [resolve_tile] in *. subst tile.
      change (resolve_tile [rows; i; kh; kw] (Tile [1; i; kh; kw])) with [1; i; kh; kw]. split; [|split].
      * constructor; [split; [lia|exists rows; lia]|]. repeat (constructor; [split; [lia|apply Nat.divide_refl]|]). constructor.
      * unfold grid, zipmap. cbn [combine map]. rewrite !Nat.div_same, !Nat.div_1_r by lia. unfold prod. cbn [fold_right]. lia.
      * intros idx V. inversion V as [|r ? ri ? Hr V1]; subst. inversion V1 as [|a ? ai ? Ha V2]; subst.
        inversion V2 as [|b ? bi ? Hb V3]; subst. inversion V3 as [|c ? ci ? Hci V4]; subst. inversion V4; subst.
        exists r, (ravel [i; kh; kw] [a; b; c]). split; [exact Hr|]. split; [rewrite <- Pc; apply ravel_lt; exact V1|]. split; [apply Rav|].
        assert (ravel [i; kh; kw] [a; b; c] < i * kh * kw) by (rewrite <- Pc; apply ravel_lt; exact V1).
        unfold tile_row, grid, tile_coord, zipmap. cbn [combine map]. rewrite !Nat.div_same, !Nat.div_1_r by lia.
        rewrite (Nat.div_small a), (Nat.div_small b), (Nat.div_small c), (Nat.div_small (ravel _ _)) by assumption.
        cbn [ravel]. unfold prod. cbn [fold_right]. lia.
Qed.
