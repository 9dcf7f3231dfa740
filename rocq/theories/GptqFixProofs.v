(** The weight written by [gptq] is a fixed point; the block size does not matter. *)
From Verif Require Import Prelude TilingModel TilingSpec TilingProofs GranularityModel GranularitySpec GranularityProofs
  AffineModel AffineSpec AffineProofs AffineTensorProofs FuseModel FuseSpec FuseFloatProofs GptqModel GptqSpec
  GptqHessianProofs GptqColumnProofs GptqLoopProofs GptqTopProofs.
From Coq Require Import QArith Qfield Lqa Permutation.
Local Open Scope nat_scope.

Section Fix.
  Variable estimate : quantizer -> tensor Q -> result quantizer.
  Variable argsort : list Q -> list nat.
  Variable cholesky : nat -> (nat -> nat -> Q) -> result (nat -> nat -> Q).
  Hypothesis argsort_perm : forall l, Permutation (argsort l) (seq 0 (length l)).

  Section Run.
    Variables (l : layer) (fmt : format) (weight : tensor Q) (q0 : quantizer) (s : store) (ds : list (list nat))
      (damp : Q) (actorder : bool) (rows cols : nat) (tile : list nat).
    Hypothesis Hshape : flat_shape l (shape weight) = Ok (rows, cols).
    Hypothesis Hest : forall q, estimate q0 (mkT [rows; cols] (data weight)) = Ok q ->
      q_gran q = q_gran q0 /\ fits_matrix rows cols tile q.

    Let run bs := gptq estimate argsort cholesky l fmt weight (Some q0) s ds bs damp actorder.

    Lemma gptq_fixed bs w' q' s' ta :
      (0 < bs)%Z -> run bs = Ok (w', q', s') -> tile_size (q_gran q') (shape weight) = Ok ta ->
      let a := mkAffine (q_scale q') (q_offset q') ta (q_bits q') (q_out q') in
      precise fmt a -> affine_qdq fmt a w' = Ok w'.
    Proof.
      intros Hb H T a P. assert (Hf : forall q, estimate q0 (mkT [rows; cols] (data weight)) = Ok q -> fits_matrix rows cols tile q) by (intros q X; now apply Hest).
      pose proof (gptq_on_grid estimate argsort cholesky argsort_perm l fmt weight q0 s ds bs damp actorder rows cols tile Hshape Hf Hb w' q' s' H) as Gr.
      destruct (gptq_recurrence estimate argsort cholesky argsort_perm l fmt weight q0 s ds bs damp actorder rows cols tile Hshape Hf Hb w' q' s' H)
        as (q & h & order & hinv & y & e & Eq & (Sg & _) & _ & _ & _ & _ & F & Cs & _ & Sw & Lw & _).
      assert (Ck : check_granularity l (q_gran q') = Ok tt).
      { apply gptq_steps in H. destruct H as (? & ? & ? & ? & ? & ? & ? & X & _). rewrite Sg, (proj1 (Hest q Eq)). exact X. }
      destruct (flat_tiles l (shape weight) rows cols tile q' ta Ck Hshape F T) as (Pp & D & Pg & Idx).
      pose proof (fits_divides _ _ _ _ F) as D2.
      pose proof F as (R & C & _ & _ & _ & Ls & Lo).
      assert (Fa : fits (shape weight) a).
      { unfold fits, a. cbn [a_tile a_scale a_offset a_bits a_out]. split; [rewrite Pp; nia|]. split; [exact D|].
        split; [now rewrite Pg|]. split; [exact Lo|]. split; [|exact Cs].
        intros x Ix. apply In_nth_error in Ix. destruct Ix as [k Hk].
        assert (Hkl : k < prod (grid [rows; cols] tile)) by (rewrite <- Ls; apply nth_error_Some; congruence).
        destruct (tile_position_surjective [rows; cols] tile k 0 D2 Hkl) as (idx & V & Ek & _).
        { eapply divides_prod_pos; exact D2. }
        inversion V as [|r ? ri ? Hr V1]; subst. inversion V1 as [|c ? ci ? Hci V2]; subst. inversion V2; subst.
        destruct (Gr r c Hr Hci) as (sc & z & A & Nz & _). unfold scale_of, tile_row in A. rewrite Hk in A. now injection A as ->. }
      apply (grid_fixed fmt (shape weight) a w' Fa P Sw); [now rewrite Lw, Pp|].
      intros idx V. destruct (Idx idx V) as (r & c & Hr & Hc & Ei & Et).
      destruct (Gr r c Hr Hc) as (sc & z & A & _ & B & W). exists sc, z. cbn [a a_tile a_scale a_offset a_bits].
      rewrite Et. split; [exact A|]. split; [exact B|].
      unfold at_index. rewrite Sw, Ei. exact W.
    Qed.
  End Run.
End Fix.

(** The recurrence determines the result. *)
Lemma recurrence_unique rows cols tile q w order hinv y e y' e' :
  recurrence rows cols tile q w order hinv y e -> recurrence rows cols tile q w order hinv y' e' ->
  (forall p, p < cols -> ~ (hinv p p == 0)%Q) ->
  forall r p, r < rows -> p < cols -> y r p = y' r p /\ (e r p == e' r p)%Q.
Proof.
  intros R R' N r p Hr. induction p as [p IH] using lt_wf_ind. intros Hp.
  destruct (R r p Hr Hp) as [S E]. destruct (R' r p Hr Hp) as [S' E'].
  set (u := (w r (order p) - qsum (map (fun k => e r k * hinv k p) (seq 0 p)))%Q) in *.
  set (u' := (w r (order p) - qsum (map (fun k => e' r k * hinv k p) (seq 0 p)))%Q) in *.
  assert (Eu : (u == u')%Q).
  { unfold u, u'. apply Qplus_comp; [reflexivity|]. apply Qopp_comp.
    assert (G : forall n a, a + n <= p -> (qsum (map (fun k => e r k * hinv k p) (seq a n)) == qsum (map (fun k => e' r k * hinv k p) (seq a n)))%Q).
    { induction n as [|n IHn]; intros a Ha; [reflexivity|]. cbn [seq map]. unfold qsum in *. cbn [fold_right].
      rewrite IHn by lia. destruct (IH a) as [_ X]; [lia|lia|]. now rewrite X. }
    apply G. lia. }
  destruct S as (s & z & A & B & C). destruct S' as (s' & z' & A' & B' & C').
  rewrite A in A'. injection A' as <-. rewrite (quantize_elem_proper _ _ _ _ _ Eu) in B. rewrite B in B'. injection B' as <-.
  assert (Ey : y r p = y' r p) by congruence. split; [exact Ey|].
  rewrite Ey, Eu in E. rewrite <- E' in E. apply (Qmult_inj_r _ _ (hinv p p)); [now apply N|exact E].
Qed.

Section Total.
  Variables (rows cols : nat) (tile order : list nat) (hinv : nat -> nat -> Q) (w0 : nat -> nat -> Q) (q : quantizer).
  Hypothesis order_len : length order = cols.
  Hypothesis order_in : forall p c, nth_error order p = Some c -> c < cols.
  Hypothesis diag : forall p, p < cols -> ~ (hinv p p == 0)%Q.
  Hypothesis scales : forall r c sc, r < rows -> c < cols -> scale_of rows cols tile q r c = Some sc -> ~ (sc == 0)%Q.
  Hypothesis bits : can_support_bitwidth (q_out q) (q_bits q) = true.

  Lemma no_groups : forall cb nrb ncb, None = Some (cb, nrb, ncb) ->
    order = seq 0 cols /\ exists rb, tile = [rb; cb] /\ nrb = rows / rb /\ ncb = cols / cb.
  Proof. intros. discriminate. Qed.

  Lemma column_step_total w stop st p : p < stop -> stop <= cols -> cinv rows cols tile order hinv w0 q stop p st -> g_q st = q ->
    exists st', column_step rows cols order hinv None w stop st p = Ok st' /\ g_q st' = q.
  Proof.
    intros Hp Hs ((F & _) & _ & Bl) Eq. unfold column_step. cbn [rbind].
    destruct (nth_error_lt_some order p) as [col O]; [lia|]. rewrite O.
    destruct (Bl p) as [Lb _]; [lia|].
    destruct (column_quantizer_total rows cols tile (g_q st) col (g_block st p) F Lb (order_in _ _ O)) as [y ->].
    { rewrite Eq. intros r sc Hr. apply scales; [exact Hr|exact (order_in _ _ O)]. }
    { now rewrite Eq. }
    cbn [rbind]. destruct (rmapM_total (fun r => qdiv (get (g_block st) r p - nth r y 0%Q)%Q (hinv p p)) (seq 0 rows)) as [e Ee].
    { intros r _. eexists. apply qdiv_nz. apply diag. lia. }
    rewrite Ee. cbn [rbind]. eexists. split; [reflexivity|exact Eq].
  Qed.

  Lemma columns_loop_total w stop m : forall n st, n + m = stop -> stop <= cols -> cinv rows cols tile order hinv w0 q stop n st -> g_q st = q ->
    exists st', columns_loop rows cols order hinv None w stop st (seq n m) = Ok st' /\ g_q st' = q.
  Proof.
    induction m as [|m IH]; intros n st Hn Hs I Eq; cbn [seq columns_loop]; [eauto|].
    destruct (column_step_total w stop st n ltac:(lia) Hs I Eq) as (st1 & E & Eq1). rewrite E. cbn [rbind].
    destruct (column_step_inv rows cols tile order hinv None w0 no_groups order_in q w stop st n st1 ltac:(lia) Hs I E) as (I1 & _).
    apply IH; [lia|exact Hs|exact I1|exact Eq1].
  Qed.

  Lemma block_step_total bs i wst : 0 < bs -> i < cols -> binv rows cols tile order hinv w0 q i wst -> g_q (snd wst) = q ->
    exists wst', block_step rows cols order hinv None bs wst i = Ok wst' /\ g_q (snd wst') = q.
  Proof.
    intros Hb Hi (Sd & Dn & Bl) Eq. destruct wst as [w st]. cbn [fst snd] in *. unfold block_step.
    set (stop := Nat.min (i + bs) cols).
    destruct (columns_loop_total w stop (stop - i) i (mkG w (g_quant st) (g_err st) (g_q st))) as (st' & -> & Eq'); [lia|lia| |exact Eq|].
    { split; [exact Sd|]. split; [exact Dn|]. cbn [g_block g_err]. intros c Hc. apply Bl. lia. }
    cbn [rbind]. eauto.
  Qed.

  Lemma blocks_loop_total bs m : 0 < bs -> forall a wst, (forall k, a <= k < a + m -> k * bs < cols) ->
    binv rows cols tile order hinv w0 q (Nat.min (a * bs) cols) wst -> g_q (snd wst) = q ->
    exists wst', blocks_loop rows cols order hinv None bs wst (map (fun k => k * bs) (seq a m)) = Ok wst' /\ g_q (snd wst') = q.
  Proof.
    intros Hb. induction m as [|m IH]; intros a wst Hk I Eq; cbn [seq map blocks_loop]; [eauto|].
    assert (Ha : a * bs < cols) by (apply Hk; lia). rewrite Nat.min_l in I by lia.
    destruct (block_step_total bs (a * bs) wst Hb Ha I Eq) as (wst1 & E & Eq1). rewrite E. cbn [rbind].
    destruct (block_step_inv rows cols tile order hinv None w0 no_groups order_in q bs (a * bs) wst wst1 Hb Ha I E) as [I1 _].
    replace (a * bs + bs) with (S a * bs) in I1 by lia.
    apply IH; [|exact I1|exact Eq1]. intros k Hk1. apply Hk. lia.
  Qed.

  Lemma loop_total bs wst : 0 < bs -> binv rows cols tile order hinv w0 q 0 wst -> g_q (snd wst) = q ->
    exists wst', blocks_loop rows cols order hinv None bs wst (range_step cols bs) = Ok wst' /\ g_q (snd wst') = q.
  Proof.
    intros Hb I Eq. destruct (range_step_end cols bs Hb) as [K _].
    apply (blocks_loop_total bs _ Hb 0 wst K); [exact I|exact Eq].
  Qed.
End Total.

(** Scales are not recomputed. *)
Lemma groups_none q0 actorder rows cols tile q : q_gran q = q_gran q0 -> fits_matrix rows cols tile q ->
  (actorder = true \/ (forall a b c d, q_gran q0 <> PerBlock a b c d) /\ (forall t, q_gran q0 <> PerTile t) \/ nth 1 tile 0 = cols) ->
  groups_of q rows cols actorder = Ok None.
Proof.
  intros G F H. pose proof (fits_divides _ _ _ _ F) as D. destruct (tile_two _ _ _ D) as (a & b & -> & A & B & _).
  destruct F as (R & C & _ & _ & (ta & T & Rt) & _). unfold groups_of.
  assert (K : (q_gran q = PerTensor \/ exists ds, q_gran q = PerChannel ds) \/
              (actorder = true \/ b = cols)).
  { destruct H as [->|[[H1 H2]|H]]; [auto| |auto]. left. rewrite G. destruct (q_gran q0); eauto; exfalso; [eapply H1|eapply H2]; reflexivity. }
  destruct K as [[->|[dm ->]]|K]; [reflexivity|reflexivity|].
  assert (X : (let? (rb, cb) := block_sides (q_gran q) rows cols in
    if (rb =? 0) || (cb =? 0) then Err ZeroDivisionError else
    Ok (if (1 <? cols / cb) && negb actorder then Some (cb, rows / rb, cols / cb) else None)) = Ok None).
  { unfold block_sides. rewrite T. cbn [rbind]. rewrite Rt. cbn [rbind].
    rewrite (proj2 (Nat.eqb_neq a 0)), (proj2 (Nat.eqb_neq b 0)) by lia. cbn [orb].
    destruct K as [->| ->]; [now rewrite Bool.andb_false_r|]. rewrite Nat.div_same by lia. reflexivity. }
  destruct (q_gran q); [reflexivity|reflexivity|exact X|exact X].
Qed.

Section Same.
  Variable estimate : quantizer -> tensor Q -> result quantizer.
  Variable argsort : list Q -> list nat.
  Variable cholesky : nat -> (nat -> nat -> Q) -> result (nat -> nat -> Q).
  Hypothesis argsort_perm : forall l, Permutation (argsort l) (seq 0 (length l)).

  Variables (l : layer) (fmt : format) (weight : tensor Q) (q0 : quantizer) (s : store) (ds : list (list nat))
    (damp : Q) (actorder : bool) (rows cols : nat) (tile : list nat).
  Hypothesis Hshape : flat_shape l (shape weight) = Ok (rows, cols).
  Hypothesis Hest : forall q, estimate q0 (mkT [rows; cols] (data weight)) = Ok q ->
    q_gran q = q_gran q0 /\ fits_matrix rows cols tile q.

  Lemma columns_loop_q w stop order hinv ps : forall st st',
    columns_loop rows cols order hinv None w stop st ps = Ok st' -> g_q st' = g_q st.
  Proof.
    induction ps as [|p ps IH]; intros st st' H; cbn [columns_loop] in H; [now injection H as <-|].
    destruct (column_step _ _ _ _ _ _ _ _ _) as [st1|] eqn:E; [|discriminate]. cbn [rbind] in H. rewrite (IH _ _ H).
    unfold column_step in E. cbn [rbind] in E. destruct (nth_error order p); [|discriminate].
    destruct (column_quantizer _ _ _ _ _); [|discriminate]. cbn [rbind] in E.
    destruct (rmapM _ _); [|discriminate]. cbn [rbind] in E. now injection E as <-.
  Qed.

  Lemma blocks_loop_q order hinv bs is : forall wst wst',
    blocks_loop rows cols order hinv None bs wst is = Ok wst' -> g_q (snd wst') = g_q (snd wst).
  Proof.
    induction is as [|i is IH]; intros wst wst' H; cbn [blocks_loop] in H; [now injection H as <-|].
    destruct (block_step _ _ _ _ _ _ _ _) as [wst1|] eqn:E; [|discriminate]. cbn [rbind] in H. rewrite (IH _ _ H).
    destruct wst as [w st]. unfold block_step in E. destruct (columns_loop _ _ _ _ _ _ _ _ _) as [st'|] eqn:L; [|discriminate].
    cbn [rbind] in E. injection E as <-. cbn [snd]. now rewrite (columns_loop_q _ _ _ _ _ _ _ L).
  Qed.

  Lemma block_size_irrelevant bs bs' r :
    (actorder = true \/ (forall a b c d, q_gran q0 <> PerBlock a b c d) /\ (forall t, q_gran q0 <> PerTile t) \/ nth 1 tile 0 = cols) ->
    (0 < bs)%Z -> (0 < bs')%Z ->
    gptq estimate argsort cholesky l fmt weight (Some q0) s ds bs damp actorder = Ok r ->
    gptq estimate argsort cholesky l fmt weight (Some q0) s ds bs' damp actorder = Ok r.
  Proof.
    intros Hg Hb Hb' H. destruct r as [[w' q'] s'].
    assert (Hf : forall q, estimate q0 (mkT [rows; cols] (data weight)) = Ok q -> fits_matrix rows cols tile q) by (intros q X; now apply Hest).
    pose proof (gptq_on_grid estimate argsort cholesky argsort_perm l fmt weight q0 s ds bs damp actorder rows cols tile Hshape Hf Hb w' q' s' H) as Gr.
    destruct (gptq_recurrence estimate argsort cholesky argsort_perm l fmt weight q0 s ds bs damp actorder rows cols tile Hshape Hf Hb w' q' s' H)
        as (q1 & _ & _ & _ & _ & _ & Eq1 & St & _ & _ & _ & _ & F' & Cs & _ & _ & _ & _).
    pose proof (gptq_steps _ _ _ _ _ _ _ _ _ _ _ _ _ _ _ H) as (rows' & cols' & q & h & hinv & grp & st & E1 & E2 & E3 & E4 & K).
    rewrite Hshape in E2. injection E2 as <- <-. cbn zeta in K. destruct K as (E5 & E6 & E7 & (w & E8) & E9 & E10).
    set (order := order_for argsort actorder cols h) in *.
    destruct (Hest q E3) as [Gq F]. rewrite (groups_none q0 actorder rows cols tile q Gq F Hg) in E6. injection E6 as <-.
    rewrite (proj2 (Z.ltb_ge bs 0)) in E8 by lia.
    pose proof (blocks_loop_q _ _ _ _ _ _ E8) as Q. cbn [snd g_q] in Q. rewrite Q in E9. subst q'.
    assert (P : Permutation order (seq 0 cols)) by (apply order_perm; exact argsort_perm).
    assert (Lo : length order = cols) by (rewrite (Permutation_length P); apply seq_length).
    assert (Oin : forall p c, nth_error order p = Some c -> c < cols).
    { intros p c X. apply nth_error_In in X. apply (Permutation_in _ P) in X. apply in_seq in X. lia. }
    assert (Go : forall cb nrb ncb, None = Some (cb, nrb, ncb) ->
         order = seq 0 cols /\ exists rb, tile = [rb; cb] /\ nrb = rows / rb /\ ncb = cols / cb) by discriminate.
    set (w0 := fun r p => nth (r * cols + nth p order 0) (data weight) 0%Q).
    set (init := (fun p => map (fun r => nth (r * cols + nth p order 0) (data weight) 0%Q) (seq 0 rows),
         mkG (fun _ => repeat 0%Q rows) (fun _ => repeat 0%Q rows) (fun _ => repeat 0%Q rows) q)) in *.
    assert (I0 : binv rows cols tile order hinv w0 q 0 init).
    { split; [split; [exact F|split; [apply settings_refl|lia]]|]. split; [intros r k _ Hk; lia|].
      cbn [fst snd init g_err]. intros c Hc. rewrite map_length, seq_length. split; [reflexivity|]. intros r Hr.
      unfold get, U. rewrite nth_map_seq by exact Hr. cbn [seq map]. unfold qsum. cbn [fold_right]. unfold w0. ring. }
    assert (Lb : 0 < Z.to_nat bs) by lia. assert (Lb' : 0 < Z.to_nat bs') by lia.
    destruct (loop_inv rows cols tile order hinv None w0 Go Oin q (Z.to_nat bs) _ _ Lb I0 E8) as (_ & Dn & _).
    cbn [snd fst] in Dn.
    assert (Diag : forall p, p < cols -> ~ (hinv p p == 0)%Q).
    { intros p Hp. exact (loop_diag rows cols tile order hinv None w0 Go Oin q (Z.to_nat bs) _ _ Lb I0 E8 p Hp). }
    assert (Sc : forall r c sc, r < rows -> c < cols -> scale_of rows cols tile q r c = Some sc -> ~ (sc == 0)%Q).
    { intros r c sc Hr Hc X. destruct (Gr r c Hr Hc) as (sc' & z & A & Nz & _). rewrite X in A. injection A as <-. exact Nz. }
    destruct (loop_total rows cols tile order hinv w0 q Lo Oin Diag Sc Cs (Z.to_nat bs') init Lb' I0 eq_refl) as ([w2 st2] & E8' & Q2).
    destruct (loop_inv rows cols tile order hinv None w0 Go Oin q (Z.to_nat bs') _ _ Lb' I0 E8') as (_ & Dn' & _).
    cbn [snd fst] in Dn', Q2.
    unfold gptq. rewrite E1. cbn [rbind]. rewrite Hshape. cbn [rbind]. rewrite E3. cbn [rbind]. rewrite E4. cbn [rbind].
    fold (order_for argsort actorder cols h). fold order. rewrite E5. cbn [rbind]. rewrite (groups_none q0 actorder rows cols tile q Gq F Hg). cbn [rbind].
    rewrite (proj2 (Z.eqb_neq bs' 0)), (proj2 (Z.ltb_ge bs' 0)) by lia. cbn zeta.
    match goal with |- context [blocks_loop _ _ _ _ _ _ ?g _] => change g with init end. rewrite E8'. cbn [rbind]. rewrite Q2, E10. do 4 f_equal.
    rewrite !flat_map_concat_map. f_equal. apply map_ext_in. intros r Hr. apply map_ext_in. intros c Hc. apply in_seq in Hr, Hc.
    assert (Ic : In c order) by (apply (Permutation_in _ (Permutation_sym P)), in_seq; lia).
    destruct (index_of_in c order Ic) as (p & -> & Np). assert (Hp : p < cols) by (rewrite <- Lo; apply nth_error_Some; congruence).
    f_equal.
    assert (Rr : forall st, g_q st = q -> done rows cols tile order hinv w0 (g_q st) (g_quant st) (g_err st) cols ->
      recurrence rows cols tile q (fun r c => nth (r * cols + c) (data weight) 0%Q) (fun p => nth p order 0) hinv
        (fun r p => get (g_quant st) r p) (fun r p => get (g_err st) r p)).
    { intros st3 Eq3 D3 r3 p3 Hr3 Hp3. rewrite Eq3 in D3. exact (D3 r3 p3 Hr3 Hp3). }
    destruct (recurrence_unique _ _ _ _ _ _ _ _ _ _ _ (Rr st2 Q2 Dn') (Rr st Q Dn) Diag r p) as [X _]; [lia|exact Hp|]. exact X.
  Qed.
End Same.
