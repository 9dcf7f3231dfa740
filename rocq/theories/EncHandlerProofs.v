(** Proofs about handlers as objects, LPBQ entries and the ONNX metadata. *)
From Coq Require Import String.
From Verif Require Import Prelude TilingModel TilingSpec TilingProofs GranularityModel GranularityProofs
  AffineModel AffineSpec AffineProofs AffineTensorProofs EncModel EncSpec EncLpbqProofs EncProofs EncV2Proofs.
From Coq Require Import QArith Qabs Lqa Lia.
Local Open Scope nat_scope.
Local Open Scope list_scope.

(** ** LPBQ *)

Lemma lpbq_new_inv c d bws : lpbq_new c d = Ok bws ->
  (Zpos (fst bws) = c /\ Zpos (snd bws) = d /\ 0 < c < d /\ c <= 8 /\ d <= 32)%Z.
Proof.
  unfold lpbq_new. destruct (_ || _)%Z eqn:E1; [discriminate|]. apply orb_false_iff in E1 as [A B].
  destruct (Z.leb_spec d c); [discriminate|]. destruct (Z.ltb_spec 8 c); [discriminate|].
  destruct (Z.ltb_spec 32 d); [discriminate|]. intros [= <-]. cbn [fst snd].
  apply Z.leb_gt in A, B. rewrite !Z2Pos.id by lia. lia.
Qed.

Lemma v1_lpbq_inv l e b ss oo s t x : describes e b ss oo s t -> Forall (fun q => (0 < q)%Q) ss ->
  v1_build l e = Ok (V1Lpbq x) ->
  exists c d lay chans blks rest, l = Some (c, d) /\ s = lpbq_shape lay chans blks (lp_block x) rest /\
    t = lpbq_tile lay (lp_block x) rest /\ 0 < lp_block x /\ b = c /\ sym_of (off_z oo ss) = true /\
    lp_compressed x = c /\ lp_bw x = d /\
    lp_offset x = repeat (inject_Z (- 2 ^ (Zpos d - 1))) chans /\
    compresses b lay chans blks ss (lp_int_scale x) (lp_scale x).
Proof.
  intros D PS E. pose proof (d_positive _ _ _ _ _ _ D) as P. pose proof (d_divides _ _ _ _ _ _ D) as Dv.
  unfold v1_build in E. rewrite (preprocess_eq _ _ _ _ _ _ D) in E.
  cbn [rbind piter p_scale p_qnn_offset p_shape p_tile p_symmetric p_bits] in E.
  assert (PB : forall dd pc sizes st os, granularity_from_sizes s t = PerBlock [dd] sizes [pc] st ->
     (dd = 1 /\ pc = 0 \/ dd = 0 /\ pc = 1)%Z ->
     handle_per_block l (mkPP (Vec ss) (Vec (map QofZ (off_z oo ss)))
       (Vec (map (fun z => (QofZ z - QofZ (2 ^ (Zpos b - 1)))%Q) (off_z oo ss))) b (sym_of (off_z oo ss)) s t)
       [dd] sizes ss os = Ok (V1Lpbq x) ->
     exists c d lay chans blks rest, l = Some (c, d) /\ s = lpbq_shape lay chans blks (lp_block x) rest /\
    t = lpbq_tile lay (lp_block x) rest /\ 0 < lp_block x /\ b = c /\ sym_of (off_z oo ss) = true /\
    lp_compressed x = c /\ lp_bw x = d /\
    lp_offset x = repeat (inject_Z (- 2 ^ (Zpos d - 1))) chans /\
    compresses b lay chans blks ss (lp_int_scale x) (lp_scale x)).
  { intros dd pc sizes st os G C H.
    destruct (block_inv _ _ _ _ _ _ P Dv G C) as (lay & chans & blks & bs & rest & -> & Hb & Hd & Es & Et).
    unfold handle_per_block in H. cbn [length Nat.ltb Nat.leb orb] in H.
    destruct l as [[c d]|]; [|discriminate].
    destruct (generate_lpbq_encoding _ _) as [y|] eqn:Ey; [|discriminate]. injection H as <-.
    subst s t. pose proof (d_scales _ _ _ _ _ _ D) as HS.
    assert (HL : length ss = chans * blks).
    { rewrite HS. destruct lay; cbn [lpbq_shape lpbq_tile] in *; inversion P as [|? ? P1 P']; inversion P' as [|? ? P2 P'']; subst;
      unfold grid, zipmap; cbn [combine map];
      change (map (fun '(x, y) => x / y) (combine rest rest)) with (grid rest rest);
      rewrite !prod_cons, (ones_grid rest) by assumption; rewrite Nat.div_1_r, Nat.div_mul by lia; lia. }
    destruct (generate_spec st c d b ss _ _ _ lay chans blks bs rest y Hb P HL PS Ey) as (H1 & H2 & H3 & H4 & H5 & H6 & H7).
    { rewrite G. f_equal; [now rewrite Hd|]. destruct C as [[-> ->]|[-> ->]], lay; cbn in Hd; try discriminate; reflexivity. }
    exists c, d, lay, chans, blks, rest. rewrite H5. repeat split; auto; apply H7. }
  destruct (granularity_from_sizes s t) as [|dims|dims sizes pc st|] eqn:G; try discriminate.
  - destruct dims as [|[| |] [|]]; discriminate.
  - destruct dims as [|[|[| |]|] [|]]; try discriminate; destruct pc as [|[|[| |]|] [|]]; try discriminate.
    + exact (PB _ _ _ _ _ eq_refl (or_intror (conj eq_refl eq_refl)) E).
    + exact (PB _ _ _ _ _ eq_refl (or_introl (conj eq_refl eq_refl)) E).
Qed.

Lemma lpbq_exported c d bws e b ss oo s t name p h x :
  lpbq_new c d = Ok bws -> describes e b ss oo s t -> Forall (fun q => (0 < q)%Q) ss ->
  add_encoding (HV1 (Some bws) v1_init) name e p = Ok h -> build_encodings h p = [(name, EV1 (V1Lpbq x))] ->
  exists l chans blks rest,
    s = lpbq_shape l chans blks (lp_block x) rest /\ t = lpbq_tile l (lp_block x) rest /\
    Zpos b = c /\ Zpos (lp_compressed x) = c /\ Zpos (lp_bw x) = d /\
    lp_offset x = repeat (inject_Z (- 2 ^ (d - 1))) chans /\
    compresses b l chans blks ss (lp_int_scale x) (lp_scale x).
Proof.
  intros N D PS A B. apply (v1_single _ _ _ _ _ _ A) in B. destruct (lpbq_new_inv _ _ _ N) as (Nc & Nd & _).
  destruct (v1_lpbq_inv _ _ _ _ _ _ _ _ D PS B) as (c' & d' & l & chans & blks & rest & [= ->] & -> & -> & _ & -> & _ & H1 & H2 & H3 & H4).
  cbn [fst snd] in *. subst c d. exists l, chans, blks, rest. rewrite H1, H2. repeat split; auto; apply H4.
Qed.

Lemma lpbq_weights c d bws e b ss oo s t name p h x :
  lpbq_new c d = Ok bws -> describes e b ss oo s t -> Forall (fun q => (0 < q)%Q) ss -> offsets_zero oo ->
  add_encoding (HV1 (Some bws) v1_init) name e p = Ok h -> build_encodings h p = [(name, EV1 (V1Lpbq x))] ->
  exists l chans blks rest,
    s = lpbq_shape l chans blks (lp_block x) rest /\ t = lpbq_tile l (lp_block x) rest /\
    forall y w idx z v, wf y -> shape y = s -> dequantize_by_tile y ss (Tile t) oo = Ok w ->
      valid s idx -> at_index y idx = Some z -> at_index w idx = Some v ->
      exists S o n, nth_error (lp_scale x) (channel_of l idx) = Some S /\
        nth_error (lp_offset x) (channel_of l idx) = Some o /\
        nth_error (lp_int_scale x) (block_at l chans blks (channel_of l idx) (block_of l (lp_block x) idx)) = Some n /\
        (Qabs (qnn_decode S o (stored (lp_bw x) (z * n)) - v) <= inject_Z (Z.abs z) * S)%Q.
Proof.
  intros N D PS HO A B. apply (v1_single _ _ _ _ _ _ A) in B. destruct (lpbq_new_inv _ _ _ N) as (Nc & Nd & _).
  destruct (v1_lpbq_inv _ _ _ _ _ _ _ _ D PS B) as (c' & d' & l & chans & blks & rest & [= ->] & Es & Et & Hb & -> & _ & H1 & H2 & H3 & H4).
  exists l, chans, blks, rest. split; [exact Es|]. split; [exact Et|].
  intros y w idx z v W Hs E V Hz Hv.
  destruct (deq_at _ _ _ _ _ _ _ _ _ _ _ D W Hs E V Hz Hv) as (sc & Hsc & _ & Ho & ->).
  pose proof (off_zero oo ss HO) as F. rewrite Forall_forall in F. rewrite (F _ (nth_error_In _ _ Ho)).
  rewrite Es, Et in *.
  assert (exists i j idx', idx = i :: j :: idx') as (i & j & idx' & ->).
  { destruct l; cbn in V; inversion V as [|? ? ? ? _ V1]; inversion V1; subst; eauto. }
  rewrite row_blocks in Hsc by assumption.
  assert (CB : channel_of l (i :: j :: idx') < chans /\ block_of l (lp_block x) (i :: j :: idx') < blks).
  { destruct l; cbn in V; inversion V as [|? ? ? ? V0 V1]; inversion V1 as [|? ? ? ? V2 V3]; subst;
    cbn [channel_of block_of nth]; (split; [assumption|]); apply Nat.div_lt_upper_bound; lia. }
  destruct CB as [Cc Cb]. destruct H4 as (_ & _ & _ & H4). destruct (H4 _ Cc) as (S & HS & PosS & _ & HB).
  destruct (HB _ Cb) as (sc' & n & Hsc' & Hn & Bn & Err).
  assert (sc' = sc). { destruct l; cbn [channel_of block_of nth] in Hsc'; congruence. } subst sc'.
  exists S, (inject_Z (- 2 ^ (Zpos d' - 1))), n. split; [exact HS|]. split.
  { rewrite H3. apply nth_error_repeat. exact Cc. }
  split; [exact Hn|]. rewrite H2. unfold qnn_decode, stored, QofZ.
  assert (Er : (Qabs (inject_Z n * S - sc) <= S)%Q).
  { destruct Err as [L|(_ & _ & L)]; [|lra]. assert (S / 2 == (1 # 2) * S)%Q by field. rewrite H in L. lra. }
  match goal with |- (Qabs ?a <= _)%Q => assert (EQ : (a == inject_Z z * (inject_Z n * S - sc))%Q) end.
  { rewrite !inject_Z_plus, inject_Z_opp, inject_Z_mult. change (inject_Z 0) with 0%Q. ring. }
  rewrite EQ, Qabs_Qmult.
  assert (AZ : (Qabs (inject_Z z) == inject_Z (Z.abs z))%Q).
  { unfold inject_Z, Qabs. reflexivity. }
  rewrite AZ. rewrite !(Qmult_comm (inject_Z (Z.abs z))). apply Qmult_le_compat_r; [exact Er|].
  change 0%Q with (inject_Z 0). rewrite <- Zle_Qle. lia.
Qed.

(** The decompressed codes fit the decompressed width if that is at least twice the
    compressed one. *)
Lemma lpbq_fits b d z n : (2 * Zpos b <= Zpos d)%Z -> code b z -> (1 <= n <= 2 ^ Zpos b)%Z -> code d (z * n).
Proof.
  unfold code. intros H Hz Hn.
  assert (P1 : (2 ^ Zpos b = 2 * 2 ^ (Zpos b - 1))%Z) by (rewrite <- Z.pow_succ_r by lia; f_equal; lia).
  assert (P2 : (2 ^ (Zpos b - 1) * 2 ^ Zpos b <= 2 ^ (Zpos d - 1))%Z).
  { rewrite <- Z.pow_add_r by lia. apply Z.pow_le_mono_r; lia. }
  assert (0 < 2 ^ (Zpos b - 1))%Z by (apply Z.pow_pos_nonneg; lia).
  set (q := (2 ^ (Zpos b - 1))%Z) in *. set (r := (2 ^ (Zpos d - 1))%Z) in *. nia.
Qed.

(** ** The flag *)

Lemma flag_iff h0 name e p h x b ss oo s t : fresh h0 -> describes e b ss oo s t ->
  add_encoding h0 name e p = Ok h -> build_encodings h p = [(name, x)] ->
  flagged x (sym_of (off_z oo ss)) /\ (flagged x true -> sym_of (off_z oo ss) = true).
Proof.
  intros F D A B. inversion F as [E|l E|E]; subst h0.
  - cbn [add_encoding] in A. unfold legacy_add in A. destruct (legacy_build e) as [en|] eqn:EB; [|discriminate]. cbn [rbind] in A.
    assert (x = ELegacy en) as ->. { destruct p; cbn in A; injection A as <-; cbn in B; congruence. }
    assert (A' : add_encoding (HLegacy legacy_init) name e p = Ok h).
    { cbn [add_encoding]. unfold legacy_add. rewrite EB. exact A. }
    destruct (legacy_decodes _ _ _ _ _ _ _ _ _ _ D A' B) as (HL & _ & _).
    unfold legacy_build in EB. rewrite (preprocess_eq _ _ _ _ _ _ D) in EB.
    cbn [rbind p_shape p_tile p_scale p_offset p_bits p_qnn_offset p_symmetric] in EB.
    apply rbind_ok in EB as (u & _ & EB). apply rbind_ok in EB as ((mn & mx) & _ & EB). cbn [piter rbind] in EB.
    apply rbind_ok in EB as (mns & _ & EB). apply rbind_ok in EB as (mxs & _ & [= <-]).
    assert (FA : Forall (fun en0 => le_symmetric en0 = sym_of (off_z oo ss))
      (map (fun '(s, (o, (a, b'))) => mkLE b (sym_of (off_z oo ss)) a b' (int_of o) s)
        (combine ss (combine (map (fun z => (QofZ z - QofZ (2 ^ (Zpos b - 1)))%Q) (off_z oo ss)) (combine mns mxs))))).
    { apply Forall_forall. intros y I. apply in_map_iff in I as ((s1 & o1 & a1 & b1) & <- & _). reflexivity. }
    split; [exact FA|]. cbn [flagged]. intros FT.
    pose proof (grid_pos _ _ (d_positive _ _ _ _ _ _ D) (d_divides _ _ _ _ _ _ D)) as G.
    rewrite <- (d_scales _ _ _ _ _ _ D), <- HL in G.
    destruct (map _ _) as [|y ys]; [cbn in G; lia|]. inversion FA; inversion FT; congruence.
  - cbn [add_encoding] in A. unfold v1_add in A. destruct (v1_build l e) as [en|] eqn:EB; [|discriminate]. cbn [rbind] in A.
    assert (x = EV1 en) as ->. { destruct p; cbn in A; injection A as <-; cbn in B; congruence. }
    destruct en as [k sy bw sc of|y]; cbn [flagged].
    + destruct (v1_build_inv _ _ _ _ _ _ _ _ _ _ _ _ D EB) as (_ & _ & -> & _). auto.
    + unfold v1_build in EB. rewrite (preprocess_eq _ _ _ _ _ _ D) in EB. cbn [rbind piter p_scale p_qnn_offset p_shape p_tile] in EB.
      assert (sym_of (off_z oo ss) = true); [|auto].
      assert (HB : forall dims sizes s1 o1,
        handle_per_block l (mkPP (Vec ss) (Vec (map QofZ (off_z oo ss)))
         (Vec (map (fun z => (QofZ z - QofZ (2 ^ (Zpos b - 1)))%Q) (off_z oo ss))) b (sym_of (off_z oo ss)) s t)
          dims sizes s1 o1 = Ok (V1Lpbq y) -> sym_of (off_z oo ss) = true).
      { intros dims sizes s1 o1 H. unfold handle_per_block in H. destruct (_ || _); [discriminate|].
        destruct l as [[c d]|]; [|destruct sizes; discriminate].
        destruct (generate_lpbq_encoding _ _) as [y'|] eqn:Ey; [|discriminate].
        unfold generate_lpbq_encoding, lpbq_granularity_and_block_size in Ey.
        apply rbind_ok in Ey as (q & Ey & _). cbn [p_shape p_tile p_symmetric p_bits] in Ey.
        destruct (granularity_from_sizes s t); try discriminate.
        destruct (sym_of (off_z oo ss)); [reflexivity|]. rewrite andb_false_r in Ey. discriminate. }
      destruct (granularity_from_sizes s t) as [|dims|dims sizes pc st|]; try discriminate.
      * destruct dims as [|[| |] [|]]; discriminate.
      * destruct dims as [|[|[| |]|] [|]]; try discriminate; destruct pc as [|[|[| |]|] [|]]; try discriminate;
          exact (HB _ _ _ _ EB).
  - cbn [add_encoding] in A. unfold v2_add in A. destruct (v2_build e) as [en|] eqn:EB; [|discriminate]. cbn [rbind] in A.
    assert (x = EV2 en) as ->. { cbn in A; injection A as <-; cbn in B; congruence. }
    destruct (v2_build_inv _ _ _ _ _ _ _ D EB) as (_ & Hu & _). cbn [flagged]. split; [exact Hu|].
    intros H. rewrite Hu in H. now destruct (sym_of _).
Qed.

Lemma flag_correct h0 name e p h x b ss oo s t : fresh h0 -> describes e b ss oo s t ->
  offsets_zero oo \/ offsets_nonzero oo ->
  add_encoding h0 name e p = Ok h -> build_encodings h p = [(name, x)] ->
  (flagged x true <-> offsets_zero oo) /\ (flagged x false <-> offsets_nonzero oo).
Proof.
  intros F D HO A B. destruct (flag_iff _ _ _ _ _ _ _ _ _ _ _ F D A B) as [F1 F2].
  assert (X : offsets_zero oo -> offsets_nonzero oo -> False).
  { intros Z (os & -> & NZ). specialize (Z os eq_refl).
    pose proof (grid_pos _ _ (d_positive _ _ _ _ _ _ D) (d_divides _ _ _ _ _ _ D)) as G.
    rewrite <- (d_scales _ _ _ _ _ _ D), <- (d_offsets _ _ _ _ _ _ D os eq_refl) in G.
    destruct os; [cbn in G; lia|]. inversion Z; inversion NZ; congruence. }
  assert (Y : flagged x true -> flagged x false -> False).
  { intros T T'. pose proof (F2 T) as Sy. rewrite Sy in F1.
    destruct x as [es|[k sy bw sc of|y]|y]; cbn [flagged] in *; try congruence.
    - inversion F as [E|l E|E]; subst h0.
      + destruct (legacy_decodes _ _ _ _ _ _ _ _ _ _ D A B) as (HL & _ & _).
        pose proof (grid_pos _ _ (d_positive _ _ _ _ _ _ D) (d_divides _ _ _ _ _ _ D)) as G.
        rewrite <- (d_scales _ _ _ _ _ _ D), <- HL in G. destruct es; [cbn in G; lia|]. inversion T; inversion T'; congruence.
      + cbn [add_encoding] in A. destruct (v1_add l v1_init name e p) as [h'|]; [|discriminate]. injection A as <-.
        cbn in B. destruct (if p then _ else _) as [|[? ?] ?]; discriminate.
      + cbn [add_encoding] in A. destruct (v2_add v2_init name e p) as [h'|]; [|discriminate]. injection A as <-.
        cbn in B. destruct (v2_encs h') as [|[? ?] ?]; discriminate.
    - cbn [negb] in T, T'. congruence. }
  destruct HO as [HO|HO].
  - rewrite (sym_zero _ _ _ _ _ _ D HO) in F1. split; split; auto; intros H; exfalso; eauto.
  - rewrite (sym_nonzero oo ss HO) in F1. split; split; auto; intros H; exfalso; eauto.
Qed.

(** ** Names *)

Definition is_add (o : op) : bool := match o with Add _ _ _ => true | Clear => false end.

(** What a handler of the kind of [h0] makes of one encoding. *)
Definition enc (h0 : handler) (e : quant_params) : result any_entry :=
  match h0 with
  | HLegacy _ => rmap ELegacy (legacy_build e)
  | HV1 l _ => rmap EV1 (v1_build l e)
  | HV2 _ => rmap EV2 (v2_build e)
  end.

Definition cat (h0 : handler) (p q : bool) : bool := match h0 with HV2 _ => true | _ => Bool.eqb p q end.

Lemma cat_spec h0 p q : cat h0 p q = true <-> same_category h0 p q.
Proof. destruct h0; cbn; try rewrite Bool.eqb_true_iff; split; auto. Qed.

(** [h] is a state of the handler [h0] (new). *)
Definition state (h0 h : handler) : Prop :=
  clear h = h0 /\ (forall e, enc h e = enc h0 e) /\ (forall p q, cat h p q = cat h0 p q) /\
  match h with
  | HLegacy _ => True
  | HV1 _ s => (forall n, known n (v1_param_names s) = known n (map fst (v1_param s))) /\
               (forall n, known n (v1_act_names s) = known n (map fst (v1_act s)))
  | HV2 s => forall n, known n (v2_names s) = known n (map fst (v2_encs s))
  end.

Lemma state_fresh h0 : fresh h0 -> state h0 h0.
Proof. intros [|l|]; repeat split. Qed.

Lemma known_snoc n l m : known n (l ++ [m]) = known n (m :: l).
Proof. unfold known. rewrite existsb_app. cbn [existsb]. rewrite orb_false_r. apply orb_comm. Qed.

Lemma known_in n l : known n l = true <-> In n l.
Proof.
  unfold known. rewrite existsb_exists. split.
  - intros (x & I & E). apply String.eqb_eq in E. now subst.
  - intros I. exists n. split; [exact I|apply String.eqb_refl].
Qed.

Lemma fst_build h q : map fst (build_encodings h q) =
  match h with
  | HLegacy s => map fst (if q then lg_param s else lg_act s)
  | HV1 _ s => map fst (if q then v1_param s else v1_act s)
  | HV2 s => map fst (v2_encs s)
  end.
Proof. destruct h; cbn [build_encodings]; rewrite map_map; apply map_ext; intros [? ?]; reflexivity. Qed.

Lemma add_spec h0 h n e p : state h0 h ->
  match enc h0 e with
  | Err x => add_encoding h n e p = Err x
  | Ok y => exists h', add_encoding h n e p = Ok h' /\ state h0 h' /\
      forall q, build_encodings h' q =
        if cat h0 p q && negb (known n (map fst (build_encodings h q))) then build_encodings h q ++ [(n, y)]
        else build_encodings h q
  end.
Proof.
  intros (C & E & K & S). rewrite <- E. destruct h as [s|l s|s]; cbn [enc add_encoding clear] in *.
  - unfold legacy_add. destruct (legacy_build e) as [y|]; cbn [rmap rbind]; [|reflexivity].
    destruct p.
    + destruct (known n (map fst (lg_param s))) eqn:Kn.
      * exists (HLegacy s). split; [reflexivity|]. split; [repeat split; auto|]. intros q. rewrite fst_build, <- K.
        destruct q; cbn [cat Bool.eqb andb]; [rewrite Kn|]; reflexivity.
      * eexists. split; [reflexivity|]. split; [repeat split; auto|]. intros q. rewrite fst_build, <- K.
        destruct q; cbn [cat Bool.eqb andb build_encodings lg_param lg_act]; [rewrite Kn; cbn [negb]|reflexivity].
        rewrite map_app. reflexivity.
    + destruct (known n (map fst (lg_act s))) eqn:Kn.
      * exists (HLegacy s). split; [reflexivity|]. split; [repeat split; auto|]. intros q. rewrite fst_build, <- K.
        destruct q; cbn [cat Bool.eqb andb]; [|rewrite Kn]; reflexivity.
      * eexists. split; [reflexivity|]. split; [repeat split; auto|]. intros q. rewrite fst_build, <- K.
        destruct q; cbn [cat Bool.eqb andb build_encodings lg_param lg_act]; [reflexivity|rewrite Kn; cbn [negb]].
        rewrite map_app. reflexivity.
  - destruct S as [S1 S2]. unfold v1_add. destruct (v1_build l e) as [y|]; cbn [rmap rbind]; [|reflexivity].
    destruct p.
    + destruct (known n (v1_param_names s)) eqn:Kn; pose proof Kn as Kn'; rewrite S1 in Kn.
      * exists (HV1 l s). split; [reflexivity|]. split; [repeat split; auto|]. intros q. rewrite fst_build, <- K.
        destruct q; cbn [cat Bool.eqb andb]; [rewrite Kn|]; reflexivity.
      * eexists. split; [reflexivity|]. split.
        { repeat split; auto; cbn [v1_param_names v1_param v1_act_names v1_act]; auto.
          intros m. rewrite map_app. cbn [map fst]. rewrite known_snoc. unfold known. cbn [existsb]. f_equal. apply S1. }
        intros q. rewrite fst_build, <- K.
        destruct q; cbn [cat Bool.eqb andb build_encodings v1_param v1_act]; [rewrite Kn; cbn [negb]|reflexivity].
        rewrite map_app. reflexivity.
    + destruct (known n (v1_act_names s)) eqn:Kn; pose proof Kn as Kn'; rewrite S2 in Kn.
      * exists (HV1 l s). split; [reflexivity|]. split; [repeat split; auto|]. intros q. rewrite fst_build, <- K.
        destruct q; cbn [cat Bool.eqb andb]; [|rewrite Kn]; reflexivity.
      * eexists. split; [reflexivity|]. split.
        { repeat split; auto; cbn [v1_param_names v1_param v1_act_names v1_act]; auto.
          intros m. rewrite map_app. cbn [map fst]. rewrite known_snoc. unfold known. cbn [existsb]. f_equal. apply S2. }
        intros q. rewrite fst_build, <- K.
        destruct q; cbn [cat Bool.eqb andb build_encodings v1_param v1_act]; [reflexivity|rewrite Kn; cbn [negb]].
        rewrite map_app. reflexivity.
  - unfold v2_add. destruct (v2_build e) as [y|]; cbn [rmap rbind]; [|reflexivity].
    destruct (known n (v2_names s)) eqn:Kn; pose proof Kn as Kn'; rewrite S in Kn.
    + exists (HV2 s). split; [reflexivity|]. split; [repeat split; auto|]. intros q. rewrite fst_build, <- K.
      cbn [cat andb]. rewrite Kn. reflexivity.
    + eexists. split; [reflexivity|]. split.
      { repeat split; auto. cbn [v2_names v2_encs].
        intros m. rewrite map_app. cbn [map fst]. rewrite known_snoc. unfold known. cbn [existsb]. f_equal. apply S. }
      intros q. rewrite fst_build, <- K. cbn [cat andb]. rewrite Kn. cbn [negb build_encodings v2_encs].
      rewrite map_app. reflexivity.
Qed.

Lemma step_state h0 h o : fresh h0 -> state h0 h -> state h0 (step h o).
Proof.
  intros F S. destruct o as [n e p|]; cbn [step].
  - pose proof (add_spec h0 h n e p S) as A. destruct (enc h0 e).
    + destruct A as (h' & -> & S' & _). exact S'.
    + rewrite A. exact S.
  - destruct S as (-> & _). now apply state_fresh.
Qed.

Lemma run_state h0 ops h : fresh h0 -> state h0 h -> state h0 (run h ops).
Proof.
  revert h; induction ops as [|o ops IH]; intros h F S; [exact S|]. apply IH; [exact F|]. now apply step_state.
Qed.

Lemma since_adds ops : forallb is_add (since_clear ops) = true.
Proof.
  induction ops as [|o ops IH]; [reflexivity|]. cbn [since_clear].
  destruct (existsb _ ops) eqn:E; [exact IH|].
  assert (A : forallb is_add ops = true).
  { apply forallb_forall. intros x I. destruct x; [reflexivity|]. exfalso.
    apply not_true_iff_false in E. apply E. apply existsb_exists. exists Clear. auto. }
  destruct o; [cbn [forallb is_add andb]|]; exact A.
Qed.

Lemma run_since h0 ops h : fresh h0 -> state h0 h -> (h = h0 \/ existsb (fun o => match o with Clear => true | _ => false end) ops = true) ->
  run h ops = run h0 (since_clear ops).
Proof.
  intros F. revert h; induction ops as [|o ops IH]; intros h S C.
  - destruct C as [->|C]; [reflexivity|discriminate].
  - cbn [since_clear]. destruct (existsb _ ops) eqn:E.
    + change (run h (o :: ops)) with (run (step h o) ops). apply IH; [now apply step_state|now right].
    + destruct o as [n e p|].
      * cbn [existsb] in C. rewrite E in C. destruct C as [->|C]; [reflexivity|discriminate].
      * change (run h (Clear :: ops)) with (run (clear h) ops). destruct S as (-> & _). reflexivity.
Qed.

Lemma enc_add h0 n e p y : fresh h0 -> enc h0 e = Ok y ->
  exists h, add_encoding h0 n e p = Ok h /\ forall q, cat h0 p q = true -> build_encodings h q = [(n, y)].
Proof.
  intros F E. pose proof (add_spec h0 h0 n e p (state_fresh h0 F)) as A. rewrite E in A.
  destruct A as (h & A & _ & B). exists h. split; [exact A|]. intros q C. rewrite B, C.
  inversion F; cbn; destruct q; reflexivity.
Qed.

Lemma enc_err h0 n e p x : fresh h0 -> add_encoding h0 n e p = Err x <-> enc h0 e = Err x.
Proof.
  intros F. pose proof (add_spec h0 h0 n e p (state_fresh h0 F)) as A. destruct (enc h0 e).
  - destruct A as (h & A & _). rewrite A. split; discriminate.
  - rewrite A. split; congruence.
Qed.

Lemma exists_last_or_nil {A} (l : list A) : l = [] \/ exists l' a, l = l' ++ [a].
Proof. destruct l as [|a l] using rev_ind; [now left|right; eauto]. Qed.

Lemma NoDup_snoc {A} (l : list A) a : NoDup l -> ~ In a l -> NoDup (l ++ [a]).
Proof.
  intros N H. induction N as [|x l I N IH]; [constructor; [intros []|constructor]|].
  cbn. constructor.
  - rewrite in_app_iff. intros [J|[<-|[]]]; [contradiction|]. apply H. now left.
  - apply IH. intros J. apply H. now right.
Qed.

Lemma names_adds h0 calls q : fresh h0 -> forallb is_add calls = true ->
  NoDup (map fst (build_encodings (run h0 calls) q)) /\
  (forall name, In name (map fst (build_encodings (run h0 calls) q)) <->
     exists e p y, In (Add name e p) calls /\ same_category h0 p q /\ enc h0 e = Ok y) /\
  forall name y, In (name, y) (build_encodings (run h0 calls) q) <->
    exists e p, first_added h0 calls name q e p /\ enc h0 e = Ok y.
Proof.
  intros F. induction calls as [|c calls IH] using rev_ind; intros HA.
  - assert (build_encodings h0 q = []) as E by (inversion F; cbn; destruct q; reflexivity).
    cbn [run fold_left]. rewrite E. split; [constructor|]. split.
    + intros name. split; [intros []|intros (e & p & y & [] & _)].
    + intros name y. split; [intros []|intros (e & p & (pre & post & H & _) & _); destruct pre; discriminate].
  - rewrite forallb_app in HA. apply andb_true_iff in HA as [HA Hc]. destruct (IH HA) as (ND & KN & IN). clear IH.
    cbn in Hc. destruct c as [n e p|]; [clear Hc|discriminate].
    assert (R : run h0 (calls ++ [Add n e p]) = step (run h0 calls) (Add n e p)) by (unfold run; now rewrite fold_left_app).
    rewrite R. cbn [step]. set (h := run h0 calls) in *.
    pose proof (add_spec h0 h n e p (run_state h0 calls h0 F (state_fresh h0 F))) as A.
    assert (NEW : forall name e' p' y', first_added h0 (calls ++ [Add n e p]) name q e' p' /\ enc h0 e' = Ok y' <->
      (first_added h0 calls name q e' p' /\ enc h0 e' = Ok y') \/
      (name = n /\ e' = e /\ p' = p /\ cat h0 p q = true /\ enc h0 e = Ok y' /\ ~ In n (map fst (build_encodings h q)))).
    { intros name e' p' y'. split.
      - intros ((pre & post & EQ & SC & (h1 & H1) & PR) & EN).
        destruct (exists_last_or_nil post) as [->|(post' & o & ->)].
        + apply app_inj_tail in EQ as [-> [= -> -> ->]]. right. repeat split; auto; [now apply cat_spec|].
          rewrite KN. intros (e2 & p2 & y2 & I2 & SC2 & E2). destruct (PR e2 p2 I2 SC2) as (x & Hx).
          apply (enc_err h0 name e2 p2 x F) in Hx. congruence.
        + rewrite app_comm_cons, app_assoc in EQ. apply app_inj_tail in EQ as [-> _]. left. split; [|exact EN].
          exists pre, post'. split; [reflexivity|]. split; [exact SC|]. split; [now exists h1|exact PR].
      - intros [((pre & post & -> & SC & H1 & PR) & EN)|(-> & -> & -> & SC & EN & NI)].
        + split; [|exact EN]. exists pre, (post ++ [Add n e p]). rewrite <- app_assoc. repeat split; auto.
        + split; [|exact EN]. exists calls, []. split; [reflexivity|]. split; [now apply cat_spec|]. split.
          * destruct (enc_add h0 n e p y' F EN) as (h1 & H1 & _). now exists h1.
          * intros e2 p2 I2 SC2. destruct (enc h0 e2) as [y2|x] eqn:E2.
            -- exfalso. apply NI. apply KN. exists e2, p2, y2. auto.
            -- exists x. now apply enc_err. }
    destruct (enc h0 e) as [y|x] eqn:EE.
    + destruct A as (h' & -> & _ & B). rewrite B. destruct (cat h0 p q) eqn:C; cbn [andb].
      * destruct (known n (map fst (build_encodings h q))) eqn:Kn; cbn [negb].
        -- apply known_in in Kn. split; [exact ND|]. split.
           ++ intros name. rewrite KN. split.
              ** intros (e2 & p2 & y2 & I & H). exists e2, p2, y2. split; [apply in_or_app; now left|exact H].
              ** intros (e2 & p2 & y2 & I & H). apply in_app_or in I as [I|[[= <- <- <-]|[]]].
                 { exists e2, p2, y2. auto. } { now apply KN. }
           ++ intros name y0. rewrite IN. split.
              ** intros (e2 & p2 & H). exists e2, p2. apply NEW. now left.
              ** intros (e2 & p2 & H). exists e2, p2. apply NEW in H as [H|(-> & _ & _ & _ & _ & NI)]; [exact H|contradiction].
        -- assert (NI : ~ In n (map fst (build_encodings h q))) by (rewrite <- known_in; congruence).
           rewrite map_app. cbn [map fst]. split.
           { apply NoDup_snoc; assumption. }
           split.
           ++ intros name. rewrite in_app_iff, KN. split.
              ** intros [(e2 & p2 & y2 & I & H)|[<-|[]]].
                 { exists e2, p2, y2. split; [apply in_or_app; now left|exact H]. }
                 { exists e, p, y. split; [apply in_or_app; right; now left|]. split; [now apply cat_spec|exact EE]. }
              ** intros (e2 & p2 & y2 & I & H). apply in_app_or in I as [I|[[= <- <- <-]|[]]].
                 { left. exists e2, p2, y2. auto. } { right. now left. }
           ++ intros name y0. rewrite in_app_iff, IN. split.
              ** intros [(e2 & p2 & H)|[[= <- <-]|[]]].
                 { exists e2, p2. apply NEW. now left. }
                 { exists e, p. apply NEW. right. repeat split; auto. }
              ** intros (e2 & p2 & H). apply NEW in H as [H|(-> & -> & -> & _ & [= ->] & _)]; [left; now exists e2, p2|right; now left].
      * split; [exact ND|]. split.
        -- intros name. rewrite KN. split.
           ++ intros (e2 & p2 & y2 & I & H). exists e2, p2, y2. split; [apply in_or_app; now left|exact H].
           ++ intros (e2 & p2 & y2 & I & H1 & H2). apply in_app_or in I as [I|[[= <- <- <-]|[]]].
              { exists e2, p2, y2. auto. } { apply cat_spec in H1. congruence. }
        -- intros name y0. rewrite IN. split.
           ++ intros (e2 & p2 & H). exists e2, p2. apply NEW. now left.
           ++ intros (e2 & p2 & H). exists e2, p2. apply NEW in H as [H|(_ & _ & _ & C2 & _)]; [exact H|discriminate].
    + rewrite A. split; [exact ND|]. split.
      * intros name. rewrite KN. split.
        -- intros (e2 & p2 & y2 & I & H). exists e2, p2, y2. split; [apply in_or_app; now left|exact H].
        -- intros (e2 & p2 & y2 & I & H1 & H2). apply in_app_or in I as [I|[[= <- <- <-]|[]]].
           { exists e2, p2, y2. auto. } { congruence. }
      * intros name y0. rewrite IN. split.
        -- intros (e2 & p2 & H). exists e2, p2. apply NEW. now left.
        -- intros (e2 & p2 & H). exists e2, p2. apply NEW in H as [H|(_ & _ & _ & _ & C2 & _)]; [exact H|discriminate].
Qed.
