(** When [gptq] succeeds and when it refuses; recomputed group scales of a whole run. *)
From Verif Require Import Prelude TilingModel TilingSpec TilingProofs GranularityModel GranularitySpec GranularityProofs
  AffineModel AffineSpec AffineProofs AffineTensorProofs FuseModel FuseSpec FuseFloatProofs GptqModel GptqSpec
  GptqHessianProofs GptqColumnProofs GptqLoopProofs GptqTopProofs GptqFixProofs GptqGroupProofs.
From Coq Require Import QArith Qfield Lqa Permutation.
Local Open Scope nat_scope.

Lemma nth_error_combine {A B} (l : list A) (l' : list B) k a b :
  nth_error l k = Some a -> nth_error l' k = Some b -> nth_error (combine l l') k = Some (a, b).
Proof.
  revert l' k. induction l as [|x l IH]; intros [|y l'] [|k] H H'; try discriminate; cbn in *; [congruence|now apply IH].
Qed.

Lemma set_column_total v nr nc k vals : length v = nr * nc -> k < nc -> length vals = nr \/ length vals = 1 ->
  exists v', set_column v nr nc k vals = Ok v'.
Proof.
  intros L K V. unfold set_column. rewrite (proj2 (Nat.eqb_eq _ _) L), (proj2 (Nat.leb_gt _ _) K). cbn [negb].
  destruct V as [V|V]; rewrite (proj2 (Nat.eqb_eq _ _) V); rewrite ?Bool.orb_true_r; cbn; eauto.
Qed.

Section Total.
  Variables (rows cols : nat) (tile order : list nat) (hinv : nat -> nat -> Q) (grp : option (nat * nat * nat))
    (w0 : nat -> nat -> Q) (q_init : quantizer).
  Hypothesis grp_ok : forall cb nrb ncb, grp = Some (cb, nrb, ncb) ->
    order = seq 0 cols /\ exists rb, tile = [rb; cb] /\ nrb = rows / rb /\ ncb = cols / cb.
  Hypothesis order_len : length order = cols.
  Hypothesis order_in : forall p c, nth_error order p = Some c -> c < cols.
  Hypothesis diag : forall p, p < cols -> ~ (hinv p p == 0)%Q.
  Hypothesis bits : can_support_bitwidth (q_out q_init) (q_bits q_init) = true.
  Hypothesis asym : grp = None \/ q_symmetric q_init = false.

  Definition nz (q : quantizer) : Prop :=
    forall r c sc, r < rows -> c < cols -> scale_of rows cols tile q r c = Some sc -> ~ (sc == 0)%Q.

  Lemma new_quantizer_total w q p : p < cols -> fits_matrix rows cols tile q -> settings q_init q -> nz q ->
    exists q', new_quantizer rows cols grp w q p = Ok q' /\ nz q'.
  Proof.
    intros Hp F St N. unfold new_quantizer.
    pose proof (fun cb nrb ncb q' E => recompute_keeps rows cols tile order hinv grp w0 grp_ok order_in q w p cb nrb ncb q' E F) as RK.
    destruct grp as [[[cb nrb] ncb]|]; [|eauto]. destruct (grp_ok _ _ _ eq_refl) as (Eo & rb & Et & -> & ->).
    destruct (Nat.eqb_spec (p mod cb) 0) as [Z|]; [|eauto].
    pose proof (fits_divides _ _ _ _ F) as D. rewrite Et in D. destruct (tile_two _ _ _ D) as (a & b & Eab & A & B & Da & Db).
    injection Eab as <- <-. pose proof F as (R0 & _ & _ & _ & _ & Ls & Lo). rewrite Et, grid2 in Ls.
    assert (Ep : p = p / cb * cb) by (rewrite (Nat.div_mod p cb) at 1 by lia; lia).
    assert (Hg : p / cb < cols / cb) by (apply div_lt; assumption).
    destruct asym as [|As]; [discriminate|]. destruct St as (_ & Eb & Es & Eon & _).
    assert (Ex : exists q', recompute q w rows cols (p / cb * cb) cb (rows / rb) (cols / cb) = Ok q').
    { unfold recompute. destruct (group_rows_spec rows cols rb cb A B Da Db R0 w (p / cb)) as (l & El & Ll & Sl); [lia|].
      rewrite El. cbn [rbind].
      destruct (rmapM_total list_min l) as [mins Em].
      { intros row I. apply In_nth_error in I. destruct I as [k Hk]. apply list_min_some. now apply (Sl k row Hk). }
      destruct (rmapM_total list_max l) as [maxs Ex].
      { intros row I. apply In_nth_error in I. destruct I as [k Hk]. apply list_max_some. now apply (Sl k row Hk). }
      rewrite Em. cbn [rbind]. rewrite Ex. cbn [rbind]. rewrite Nat.div_mul by lia. unfold update_partial_range.
      pose proof (rmapM_length _ _ _ Em) as Lm. pose proof (rmapM_length _ _ _ Ex) as Lx.
      assert (Lr : length (combine mins maxs) = rows / rb) by (rewrite combine_length; lia).
      assert (Pn : 0 < rows / rb) by (apply Nat.div_str_pos; split; [exact A|apply Nat.divide_pos_le; assumption]).
      destruct (parameters_for_range_total (combine mins maxs) (q_bits q) (q_symmetric q) (q_one_sided q)) as (ss & oo & Ep' & Lss).
      { intros X. rewrite X in Lr. cbn in Lr. lia. }
      { rewrite Es, As. discriminate. }
      rewrite Ep'. cbn [rbind]. destruct (parameters_lengths _ _ _ _ _ _ Ep') as [_ Loo].
      destruct (set_column_total (q_scale q) (rows / rb) (cols / cb) (p / cb) ss) as [s' Es']; [exact Ls|exact Hg|left; lia|].
      rewrite Es'. cbn [rbind]. destruct (q_offset q) as [v|]; [|cbn [rbind]; eauto].
      destruct (set_column_total v (rows / rb) (cols / cb) (p / cb) (match oo with Some o => o | None => [0%Q] end)) as [v' Ev'].
      - rewrite (Lo v eq_refl). exact Ls.
      - exact Hg.
      - destruct oo as [os|]; [left; rewrite (Loo os eq_refl); lia|right; reflexivity].
      - rewrite Ev'. cbn [rmap rbind]. eauto. }
    destruct Ex as [q' Eq']. exists q'. rewrite Ep at 1. split; [exact Eq'|].
    destruct (RK cb (rows / rb) (cols / cb) q' eq_refl Z) as (F' & St' & K); [rewrite Ep at 1; exact Eq'|].
    rewrite Et in F.
    pose proof (recompute_new rows cols rb cb A B Da Db R0 q w (p / cb) q' (fun r c => get w r c) F ltac:(lia) ltac:(reflexivity) Eq') as (rg & ss & oo & Lr & Rg & Pr & V).
    intros r c sc Hr Hc Hsc. destruct (Nat.eq_dec (c / cb) (p / cb)) as [E|E].
    - rewrite Et in Hsc. rewrite (proj1 (V r c Hr E)) in Hsc.
      pose proof (div_lt rb r rows A Da Hr) as Hk.
      destruct (nth_error_lt_some rg (r / rb)) as [[mn mx] Hm]; [lia|].
      destruct (Rg _ _ _ Hm) as [[I1 _] [_ L2]].
      destruct (covers_weak _ _ _ _ _ _ _ _ _ _ Pr Hm (L2 _ I1) Hsc) as (_ & _ & Pos & _).
      assert (Sy : q_symmetric q' = false) by (destruct St' as (_ & _ & X & _); congruence). specialize (Pos Sy).
      intros X. rewrite X in Pos. discriminate Pos.
    - rewrite (proj1 (K r c Hr Hc E)) in Hsc. exact (N r c sc Hr Hc Hsc).
  Qed.

  Notation cinv' := (cinv rows cols tile order hinv w0 q_init).
  Notation binv' := (binv rows cols tile order hinv w0 q_init).

  Lemma step_total w stop st p : p < stop -> stop <= cols -> cinv' stop p st -> nz (g_q st) ->
    exists st', column_step rows cols order hinv grp w stop st p = Ok st' /\ nz (g_q st').
  Proof.
    intros Hp Hs ((F & St & _) & _ & Bl) N. unfold column_step.
    change (match grp with
            | Some (cb, nrb, ncb) => if p mod cb =? 0 then recompute (g_q st) w rows cols p cb nrb ncb else Ok (g_q st)
            | None => Ok (g_q st)
            end) with (new_quantizer rows cols grp w (g_q st) p).
    destruct (new_quantizer_total w (g_q st) p ltac:(lia) F St N) as (q & Eq & Nq). rewrite Eq. cbn [rbind].
    destruct (new_quantizer_keeps rows cols tile order hinv grp w0 grp_ok order_in w (g_q st) p q ltac:(lia) F Eq) as (Fq & Sq & _).
    destruct (nth_error_lt_some order p) as [col O]; [lia|]. rewrite O.
    destruct (Bl p) as [Lb _]; [lia|].
    destruct (column_quantizer_total rows cols tile q col (g_block st p) Fq Lb (order_in _ _ O)) as [y ->].
    { intros r sc Hr. apply Nq; [exact Hr|exact (order_in _ _ O)]. }
    { destruct (settings_trans _ _ _ St Sq) as (_ & -> & _ & _ & ->). exact bits. }
    cbn [rbind]. destruct (rmapM_total (fun r => qdiv (get (g_block st) r p - nth r y 0%Q)%Q (hinv p p)) (seq 0 rows)) as [e Ee].
    { intros r _. eexists. apply qdiv_nz. apply diag. lia. }
    rewrite Ee. cbn [rbind]. eexists. split; [reflexivity|exact Nq].
  Qed.

  Lemma steps_total w stop m : forall n st, n + m = stop -> stop <= cols -> cinv' stop n st -> nz (g_q st) ->
    exists st', columns_loop rows cols order hinv grp w stop st (seq n m) = Ok st' /\ nz (g_q st').
  Proof.
    induction m as [|m IH]; intros n st Hn Hs I N; cbn [seq columns_loop]; [eauto|].
    destruct (step_total w stop st n ltac:(lia) Hs I N) as (st1 & E & N1). rewrite E. cbn [rbind].
    destruct (column_step_inv rows cols tile order hinv grp w0 grp_ok order_in q_init w stop st n st1 ltac:(lia) Hs I E) as (I1 & _).
    apply IH; [lia|exact Hs|exact I1|exact N1].
  Qed.

  Lemma bstep_total bs i wst : 0 < bs -> i < cols -> binv' i wst -> nz (g_q (snd wst)) ->
    exists wst', block_step rows cols order hinv grp bs wst i = Ok wst' /\ nz (g_q (snd wst')).
  Proof.
    intros Hb Hi (Sd & Dn & Bl) N. destruct wst as [w st]. cbn [fst snd] in *. unfold block_step.
    set (stop := Nat.min (i + bs) cols).
    destruct (steps_total w stop (stop - i) i (mkG w (g_quant st) (g_err st) (g_q st))) as (st' & -> & N'); [lia|lia| |exact N|].
    { split; [exact Sd|]. split; [exact Dn|]. cbn [g_block g_err]. intros c Hc. apply Bl. lia. }
    cbn [rbind]. eauto.
  Qed.

  Lemma bsteps_total bs m : 0 < bs -> forall a wst, (forall k, a <= k < a + m -> k * bs < cols) ->
    binv' (Nat.min (a * bs) cols) wst -> nz (g_q (snd wst)) ->
    exists wst', blocks_loop rows cols order hinv grp bs wst (map (fun k => k * bs) (seq a m)) = Ok wst'.
  Proof.
    intros Hb. induction m as [|m IH]; intros a wst Hk I N; cbn [seq map blocks_loop]; [eauto|].
    assert (Ha : a * bs < cols) by (apply Hk; lia). rewrite Nat.min_l in I by lia.
    destruct (bstep_total bs (a * bs) wst Hb Ha I N) as (wst1 & E & N1). rewrite E. cbn [rbind].
    destruct (block_step_inv rows cols tile order hinv grp w0 grp_ok order_in q_init bs (a * bs) wst wst1 Hb Ha I E) as [I1 _].
    replace (a * bs + bs) with (S a * bs) in I1 by lia.
    apply IH; [|exact I1|exact N1]. intros k Hk1. apply Hk. lia.
  Qed.

  Lemma all_total bs wst : 0 < bs -> binv' 0 wst -> nz (g_q (snd wst)) ->
    exists wst', blocks_loop rows cols order hinv grp bs wst (range_step cols bs) = Ok wst'.
  Proof.
    intros Hb I N. destruct (range_step_end cols bs Hb) as [K _]. apply (bsteps_total bs _ Hb 0 wst K); [exact I|exact N].
  Qed.
End Total.

Section Run.
  Variable estimate : quantizer -> tensor Q -> result quantizer.
  Variable argsort : list Q -> list nat.
  Variable cholesky : nat -> (nat -> nat -> Q) -> result (nat -> nat -> Q).
  Hypothesis argsort_perm : forall l, Permutation (argsort l) (seq 0 (length l)).

  Variables (l : layer) (fmt : format) (weight : tensor Q) (q0 : quantizer) (s : store) (ds : list (list nat)) (bs : Z)
    (damp : Q) (actorder : bool) (rows cols : nat) (tile : list nat).
  Hypothesis Hshape : flat_shape l (shape weight) = Ok (rows, cols).
  Hypothesis Hbs : (0 < bs)%Z.

  Let run := gptq estimate argsort cholesky l fmt weight (Some q0) s ds bs damp actorder.
  Let at_ (r c : nat) : Q := nth (r * cols + c) (data weight) 0%Q.

  Lemma init_inv order hinv q : fits_matrix rows cols tile q ->
    binv rows cols tile order hinv (fun r p => at_ r (nth p order 0)) q 0
      (fun p => map (fun r => nth (r * cols + nth p order 0) (data weight) 0%Q) (seq 0 rows),
       mkG (fun _ => repeat 0%Q rows) (fun _ => repeat 0%Q rows) (fun _ => repeat 0%Q rows) q).
  Proof.
    intros F. split; [split; [exact F|split; [apply settings_refl|lia]]|]. split; [intros r k _ Hk; lia|].
    cbn [fst snd g_err]. intros c Hc. rewrite map_length, seq_length. split; [reflexivity|]. intros r Hr.
    unfold get, U. rewrite nth_map_seq by exact Hr. cbn [seq map]. unfold qsum. cbn [fold_right]. unfold at_. ring.
  Qed.

  (** Asymmetric quantizers, and quantizers whose scales are not recomputed, succeed. *)
  Lemma gptq_total q h s' :
    check_granularity l (q_gran q0) = Ok tt ->
    estimate q0 (mkT [rows; cols] (data weight)) = Ok q -> q_gran q = q_gran q0 -> fits_matrix rows cols tile q ->
    (forall r c sc, r < rows -> c < cols -> scale_of rows cols tile q r c = Some sc -> ~ (sc == 0)%Q) ->
    can_support_bitwidth (q_out q) (q_bits q) = true ->
    (q_symmetric q = false \/ actorder = true \/
     (forall a b c d, q_gran q0 <> PerBlock a b c d) /\ (forall t, q_gran q0 <> PerTile t) \/ nth 1 tile 0 = cols) ->
    calculate_hessian l cols s ds = Ok (h, s') ->
    (forall m, exists hinv, cholesky cols m = Ok hinv /\ forall p, p < cols -> ~ (hinv p p == 0)%Q) ->
    exists w' q', run = Ok (w', q', s').
  Proof.
    intros Ck Eq Gq F Nz Cs As Eh Ch. unfold run, gptq. rewrite Ck. cbn [rbind]. rewrite Hshape. cbn [rbind]. rewrite Eq. cbn [rbind].
    rewrite Eh. cbn [rbind]. fold (order_for argsort actorder cols h). set (order := order_for argsort actorder cols h).
    cbn zeta.
    destruct (Ch (dampen cols damp (fun i j => h (nth i order 0) (nth j order 0)))) as (hinv & -> & Dg). cbn [rbind].
    assert (P : Permutation order (seq 0 cols)) by (apply order_perm; exact argsort_perm).
    assert (Lo : length order = cols) by (rewrite (Permutation_length P); apply seq_length).
    assert (Oin : forall p c, nth_error order p = Some c -> c < cols).
    { intros p c X. apply nth_error_In in X. apply (Permutation_in _ P) in X. apply in_seq in X. lia. }
    assert (Gk : exists grp, groups_of q rows cols actorder = Ok grp).
    { unfold groups_of. destruct F as (R & C & Sg & Rg & (ta & T & Rt) & _).
      destruct (tile_two rows cols tile) as (a & b & Et & A & B & _); [rewrite <- Rt; eapply granularity_compatible; eauto|].
      unfold block_sides. rewrite T. cbn [rbind]. rewrite Rt, Et. cbn [rbind].
      rewrite (proj2 (Nat.eqb_neq a 0)), (proj2 (Nat.eqb_neq b 0)) by lia. cbn [orb]. destruct (q_gran q); eauto. }
    destruct Gk as [grp Eg]. rewrite Eg. cbn [rbind].
    rewrite (proj2 (Z.eqb_neq bs 0)), (proj2 (Z.ltb_ge bs 0)) by lia.
    assert (Go : forall cb nrb ncb, grp = Some (cb, nrb, ncb) ->
       order = seq 0 cols /\ exists rb, tile = [rb; cb] /\ nrb = rows / rb /\ ncb = cols / cb).
    { intros cb nrb ncb G. destruct (groups_of_ok _ _ _ _ _ _ F Eg _ _ _ G) as (Ea & _ & X). split; [|exact X].
      unfold order. rewrite Ea. reflexivity. }
    assert (As' : grp = None \/ q_symmetric q = false).
    { destruct As as [As|As]; [auto|left]. rewrite (groups_none q0 actorder rows cols tile q Gq F As) in Eg. now injection Eg as <-. }
    destruct (all_total rows cols tile order hinv grp (fun r p => at_ r (nth p order 0)) q Go Lo Oin Dg Cs As'
      (Z.to_nat bs) _ ltac:(lia) (init_inv order hinv q F) Nz) as [[w st] E].
    match goal with |- context [blocks_loop ?a ?b ?c ?d ?e ?f ?g ?h] =>
      change (blocks_loop a b c d e f g h) with (blocks_loop rows cols order hinv grp (Z.to_nat bs)
        (fun p => map (fun r => nth (r * cols + nth p order 0) (data weight) 0%Q) (seq 0 rows),
         mkG (fun _ => repeat 0%Q rows) (fun _ => repeat 0%Q rows) (fun _ => repeat 0%Q rows) q) (range_step cols (Z.to_nat bs))) end.
    rewrite E. cbn [rbind]. eauto.
  Qed.

  (** Recomputed scales: each group uses the weights corrected by the errors of the
      columns before the block in which the group starts. *)
  Lemma gptq_groups q rb cb w' q' s' :
    actorder = false -> estimate q0 (mkT [rows; cols] (data weight)) = Ok q -> q_gran q = q_gran q0 -> fits_matrix rows cols tile q ->
    (exists a b c d, q_gran q0 = PerBlock a b c d) \/ (exists t, q_gran q0 = PerTile t) ->
    tile = [rb; cb] -> 1 < cols / cb ->
    run = Ok (w', q', s') ->
    exists h hinv y e,
      calculate_hessian l cols s ds = Ok (h, s') /\ cholesky cols (dampen cols damp (fun i j => h (nth i (seq 0 cols) 0) (nth j (seq 0 cols) 0))) = Ok hinv /\
      recurrence rows cols tile q' at_ (fun p => p) hinv y e /\
      (forall r c, r < rows -> c < cols -> nth_error (data w') (r * cols + c) = Some (cast fmt (y r c))) /\
      forall g, g < cols / cb ->
        group_scaled rows cols rb cb q' (corrected at_ e hinv (g * cb / Z.to_nat bs * Z.to_nat bs)) g.
  Proof.
    intros Ea Eq Gq F Gr Et Hc H. unfold run in H. apply gptq_steps in H.
    destruct H as (rows' & cols' & q1 & h & hinv & grp & st' & _ & E2 & E3 & E4 & K).
    rewrite Hshape in E2. injection E2 as <- <-. rewrite Eq in E3. injection E3 as <-.
    cbn zeta in K. destruct K as (E5 & E6 & _ & (w & E8) & -> & ->). rewrite (proj2 (Z.ltb_ge bs 0)) in E8 by lia.
    assert (Eo : order_for argsort actorder cols h = seq 0 cols) by (rewrite Ea; reflexivity). rewrite Eo in *.
    assert (Eg : grp = Some (cb, rows / rb, cols / cb)).
    { pose proof (fits_divides _ _ _ _ F) as D. rewrite Et in D. destruct (tile_two _ _ _ D) as (a & b & Eab & A & B & _). injection Eab as <- <-.
      assert (X : (let? (rb, cb) := block_sides (q_gran q) rows cols in
        if (rb =? 0) || (cb =? 0) then Err ZeroDivisionError else
        Ok (if (1 <? cols / cb) && negb actorder then Some (cb, rows / rb, cols / cb) else None)) = Ok grp).
      { rewrite <- E6. unfold groups_of. rewrite Gq. destruct Gr as [(? & ? & ? & ? & ->)|(? & ->)]; reflexivity. }
      destruct F as (_ & _ & _ & _ & (ta & T & Rt) & _).
      unfold block_sides in X. rewrite T in X. cbn [rbind] in X. rewrite Rt, Et in X. cbn [rbind] in X.
      rewrite (proj2 (Nat.eqb_neq rb 0)), (proj2 (Nat.eqb_neq cb 0)), (proj2 (Nat.ltb_lt 1 (cols / cb))), Ea in X by lia.
      now injection X as <-. }
    assert (Sin : forall p c, nth_error (seq 0 cols) p = Some c -> c < cols) by (intros p c X; apply nth_error_In, in_seq in X; lia).
    subst grp. assert (Lb : 0 < Z.to_nat bs) by lia.
    pose proof (init_inv (seq 0 cols) hinv q F) as I0. rewrite Et in I0 |- *.
    pose proof (loop_scaled rows cols rb cb (Z.to_nat bs) hinv (fun r p => at_ r (nth p (seq 0 cols) 0)) q Lb _ _ I0 E8) as Sc.
    destruct (loop_inv rows cols [rb; cb] (seq 0 cols) hinv (Some (cb, rows / rb, cols / cb)) (fun r p => at_ r (nth p (seq 0 cols) 0))
      (one_group rows cols rb cb) Sin q (Z.to_nat bs) _ _ Lb I0 E8) as ((Fq & _ & _) & Dn & _).
    cbn [snd fst] in *.
    exists h, hinv, (fun r p => get (g_quant st') r p), (fun r p => get (g_err st') r p). split; [exact E4|].
    pose proof (fits_divides _ _ _ _ Fq) as D. destruct (tile_two _ _ _ D) as (a & b & Eab & A & B & Da & Db). injection Eab as <- <-.
    split; [|split; [|split]].
    - exact E5.
    - intros r p Hr Hp. cbn zeta. specialize (Dn r p Hr Hp). rewrite seq_nth in Dn by exact Hp. cbn [Nat.add] in Dn.
      unfold U in Dn. rewrite seq_nth in Dn by exact Hp. exact Dn.
    - intros r c Hr Hc'. cbn [data]. rewrite flat_map_rows_nth by assumption.
      rewrite (index_of_nth (seq 0 cols) c c); [reflexivity|apply seq_NoDup|].
      rewrite nth_error_nth' with (d := 0) by now rewrite seq_length. now rewrite seq_nth.
    - intros g Hg. assert (Hgc : g * cb < cols) by (destruct Db as [k Ek]; rewrite Ek, Nat.div_mul in * by lia; nia).
      eapply group_scaled_ext; [apply settings_refl|tauto|intros; auto| |exact (Sc g Hgc)].
      intros r c Hr Ec. unfold corrected, U. rewrite seq_nth; [reflexivity|].
      rewrite (Nat.div_mod c cb) by lia. pose proof (Nat.mod_upper_bound c cb ltac:(lia)). rewrite Ec.
      destruct Db as [k Ek]. rewrite Ek, Nat.div_mul in * by lia. nia.
  Qed.
End Run.
