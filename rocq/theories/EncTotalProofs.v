(** LPBQ encodings exist for every quantizer with a supported layout. *)
From Coq Require Import String.
From Verif Require Import Prelude TilingModel TilingSpec TilingProofs GranularityModel GranularityProofs
  AffineModel AffineSpec AffineProofs AffineTensorProofs EncModel EncSpec EncLpbqProofs EncProofs EncV2Proofs EncHandlerProofs.
From Coq Require Import QArith Qabs Lqa Lia.
Local Open Scope nat_scope.
Local Open Scope list_scope.

Lemma get_total (t : tensor Q) idx : wf t -> valid (shape t) idx -> exists v, get t idx = Ok v /\ In v (data t).
Proof.
  intros W V. pose proof (ravel_lt _ _ V) as L. unfold wf in W. rewrite <- W in L.
  destruct (nth_error_lt_some (data t) _ L) as (v & E). exists v. unfold get. rewrite E.
  split; [reflexivity|]. eapply nth_error_In, E.
Qed.

Lemma list_max_total l : l <> [] -> exists m, list_max l = Ok m /\ In m l.
Proof.
  destruct l as [|a l]; [congruence|]. intros _. eexists. split; [reflexivity|]. now apply list_max_in.
Qed.

Lemma amax_total (t : tensor Q) e0 e1 e2 e3 : wf t -> shape t = [e0; e1; e2; e3] -> 0 < e1 -> 0 < e3 ->
  exists m, amax_odd t = Ok m.
Proof.
  intros W S H1 H3. unfold amax_odd. rewrite S.
  destruct (rmapM_total (fun '(i, k) =>
     let? xs := rmapM (fun '(j, l) => get t [i; j; k; l]) (list_prod (seq 0 e1) (seq 0 e3)) in list_max xs)
     (list_prod (seq 0 e0) (seq 0 e2))) as (d & ->); [|eexists; reflexivity].
  intros [i k] I. apply in_prod_iff in I as [Ii Ik]. apply in_seq in Ii, Ik.
  destruct (rmapM_total (fun '(j, l) => get t [i; j; k; l]) (list_prod (seq 0 e1) (seq 0 e3))) as (xs & Ex).
  { intros [j l] I. apply in_prod_iff in I as [Ij Il]. apply in_seq in Ij, Il.
    destruct (get_total t [i; j; k; l] W) as (v & E & _); [rewrite S; apply valid4; lia|]. eauto. }
  rewrite Ex. cbn [rbind]. destruct (list_max_total xs) as (m & Em & _); [|eauto].
  pose proof (rmapM_length _ _ _ Ex) as L. rewrite prod_length, !seq_length in L.
  intros ->. cbn in L. nia.
Qed.

Lemma valid4_inv e0 e1 e2 e3 idx : valid [e0; e1; e2; e3] idx ->
  exists i j k l, idx = [i; j; k; l] /\ i < e0 /\ j < e1 /\ k < e2 /\ l < e3.
Proof.
  intros V. apply valid_cons_inv in V as (i & x & -> & Hi & V). apply valid_cons_inv in V as (j & y & -> & Hj & V).
  apply valid_cons_inv in V as (k & z & -> & Hk & V). apply valid_cons_inv in V as (l & w & -> & Hl & V).
  inversion V. exists i, j, k, l. auto.
Qed.

Lemma gdq_total (t2 : tensor Q) g b e0 e1 e2 e3 : wf t2 -> expand_shape (shape t2) g = [e0; e1; e2; e3] ->
  prod [e0; e1; e2; e3] = length (data t2) -> 0 < e1 -> 0 < e3 -> Forall (fun q => (0 < q)%Q) (data t2) ->
  exists r, grouped_dynamic_quantize t2 g b = Ok r.
Proof.
  intros W HE HP H1 H3 PS. unfold grouped_dynamic_quantize. rewrite HE. unfold reshape. rewrite HP, Nat.eqb_refl. cbn [rbind].
  set (t := mkT [e0; e1; e2; e3] (data t2)). assert (Wt : wf t) by (symmetry; exact HP).
  destruct (amax_total t e0 e1 e2 e3 Wt eq_refl H1 H3) as (m & Em). rewrite Em. cbn [rbind].
  destruct (amax_spec t m e0 e1 e2 e3 eq_refl Em) as (_ & _ & Am).
  match goal with |- context [rmapM ?f ?l] => destruct (rmapM_total f l) as (r & ->); [|eexists; reflexivity] end.
  intros p Ip. apply in_seq in Ip. cbn [shape data] in *. unfold t in *. cbn [shape data] in *.
  assert (V : valid [e0; e1; e2; e3] (unravel [e0; e1; e2; e3] p)) by (apply unravel_valid; rewrite HP; lia).
  apply valid4_inv in V as (i & j & k & l & -> & Hi & Hj & Hk & Hl).
  destruct (get_total (mkT [e0; e1; e2; e3] (data t2)) [i; j; k; l] Wt) as (x & Ex & _); [now apply valid4|].
  rewrite Ex. cbn [rbind].
  destruct (Am i k Hi Hk) as (v & Hv & _ & (j0 & l0 & Hj0 & Hl0 & Hat) & _).
  assert (G : get (tmap (fun m => (m / QofZ (2 ^ Zpos b))%Q) m) [i; 0; k; 0] = Ok (v / QofZ (2 ^ Zpos b))%Q).
  { apply get_ok. rewrite tmap_at, Hv. reflexivity. }
  rewrite G. cbn [rbind].
  assert (PV : (0 < v / QofZ (2 ^ Zpos b))%Q).
  { apply Qlt_shift_div_l; [apply pow2_pos|]. rewrite Forall_forall in PS. rewrite Qmult_0_l. apply PS.
    eapply nth_error_In, Hat. }
  rewrite qdiv_pos by exact PV. eexists. reflexivity.
Qed.

Lemma filter_same f (r : list nat) o : (forall d, f d d = false) ->
  filter (fun p : nat * (nat * nat) => f (fst (snd p)) (snd (snd p))) (combine (seq o (length r)) (combine r r)) = [] /\
  filter (fun p : nat * nat => f (fst p) (snd p)) (combine r r) = [].
Proof.
  intros H. revert o; induction r as [|d r IH]; intros o; [auto|].
  cbn [length seq combine filter fst snd]. rewrite H. split; apply (IH (S o)).
Qed.

Lemma lpbq_granularity l chans blks bs rest : 1 < chans -> 1 < blks -> 1 < bs -> Forall (fun n => 0 < n) rest ->
  exists st, granularity_from_sizes (lpbq_shape l chans blks bs rest) (lpbq_tile l bs rest)
    = PerBlock [match l with Row_blocks => 1 | Column_blocks => 0 end]%Z [bs]
               [match l with Row_blocks => 0 | Column_blocks => 1 end]%Z st.
Proof.
  intros Hc Hk Hb P. unfold granularity_from_sizes.
  set (s := lpbq_shape l chans blks bs rest). set (t := lpbq_tile l bs rest).
  destruct (size_eqb s t) eqn:E1.
  { apply size_eqb_eq in E1. unfold s, t in E1. destruct l; cbn in E1; injection E1; intros; nia. }
  destruct (forallb _ (combine s t)) eqn:E2.
  { exfalso. unfold s, t in E2.
    assert (X : Qeq_bool (divq (blks * bs) bs) 1 || Qeq_bool (divq (blks * bs) bs) (inject_Z (Z.of_nat (blks * bs))) = false).
    { rewrite divq_1, divq_d by nia. apply orb_false_iff. split; apply Nat.eqb_neq; nia. }
    destruct l; cbn [lpbq_shape lpbq_tile combine forallb] in E2; rewrite X in E2; cbn [andb] in E2;
      try discriminate; rewrite andb_false_r in E2; discriminate. }
  unfold select_dims, select_sizes, s, t.
  assert (B1 : (blks * bs =? 1) = false) by (apply Nat.eqb_neq; nia).
  assert (B2 : (bs =? 1) = false) by (apply Nat.eqb_neq; nia).
  assert (B3 : (bs =? blks * bs) = false) by (apply Nat.eqb_neq; nia).
  assert (B4 : (1 <? chans) = true) by (apply Nat.ltb_lt; lia).
  assert (FB := fun o => filter_same (fun d t => negb ((t =? 1) || (t =? d))) rest o
                  ltac:(intros d; cbv beta; rewrite Nat.eqb_refl, orb_true_r; reflexivity)).
  assert (FC := fun o => filter_same (fun d t => (t =? 1) && (1 <? d)) rest o
                  ltac:(intros d; cbv beta; destruct (Nat.eqb_spec d 1) as [->|]; reflexivity)).
  destruct (FB 2) as [FB1 FB2]. destruct (FC 2) as [FC1 _]. cbn [fst snd] in *.
  destruct l; eexists; cbn [lpbq_shape lpbq_tile length seq combine filter fst snd Nat.eqb andb orb negb];
    rewrite ?B2, ?B3, ?B4; cbn [andb orb negb]; rewrite FB1, FB2, FC1; reflexivity.
Qed.

Lemma generate_total st cb db ss off qoff l chans blks bs rest :
  0 < bs -> 0 < blks -> length ss = chans * blks -> Forall (fun s => (0 < s)%Q) ss ->
  granularity_from_sizes (lpbq_shape l chans blks bs rest) (lpbq_tile l bs rest)
    = PerBlock [match l with Row_blocks => 1 | Column_blocks => 0 end]%Z [bs]
               [match l with Row_blocks => 0 | Column_blocks => 1 end]%Z st ->
  exists x, generate_lpbq_encoding (cb, db)
    (mkPP (Vec ss) off qoff cb true (lpbq_shape l chans blks bs rest) (lpbq_tile l bs rest)) = Ok x.
Proof.
  intros Hb Hk HL HP G. unfold generate_lpbq_encoding, lpbq_granularity_and_block_size.
  cbn [p_shape p_tile p_symmetric p_bits p_scale pelems]. rewrite G. cbn [length Nat.eqb andb]. rewrite Pos.eqb_refl.
  cbn [negb rbind].
  assert (N : (bs =? 0) = false) by (apply Nat.eqb_neq; lia).
  destruct l; cbn [lpbq_shape lpbq_tile]; unfold infer_scale_2d_shape, floordiv; rewrite py_get_0, py_get_1; cbn [rbind];
    rewrite N; cbn [rbind]; rewrite Nat.div_mul by lia; unfold reshape; cbn [data].
  - assert (HW : prod [chans; blks] = length ss) by (rewrite !prod_cons; unfold prod; cbn; lia).
    rewrite HW, Nat.eqb_refl. cbn [rbind].
    destruct (gdq_total (mkT [chans; blks] ss) [1%Z; (-1)%Z] cb chans 1 1 blks) as ((r1 & r2) & ->).
    + symmetry; exact HW. + transitivity [chans / 1; 1; 1; blks]; [reflexivity|]. now rewrite Nat.div_1_r.
    + cbn [data]. rewrite <- HW, !prod_cons. lia. + lia. + lia. + exact HP.
    + eexists. reflexivity.
  - assert (HW : prod [blks; chans] = length ss) by (rewrite !prod_cons; unfold prod; cbn; lia).
    rewrite HW, Nat.eqb_refl. cbn [rbind].
    destruct (gdq_total (mkT [blks; chans] ss) [(-1)%Z; 1%Z] cb 1 blks chans 1) as ((r1 & r2) & ->).
    + symmetry; exact HW. + transitivity [1; blks; chans / 1; 1]; [reflexivity|]. now rewrite Nat.div_1_r.
    + cbn [data]. rewrite <- HW, !prod_cons. lia. + lia. + lia. + exact HP.
    + eexists. reflexivity.
Qed.

Lemma lpbq_accepted c d bws e b ss oo l chans blks bs rest name p :
  lpbq_new c d = Ok bws -> Zpos b = c -> 1 < chans -> 1 < blks -> 1 < bs ->
  describes e b ss oo (lpbq_shape l chans blks bs rest) (lpbq_tile l bs rest) ->
  Forall (fun q => (0 < q)%Q) ss -> offsets_zero oo ->
  exists h x, add_encoding (HV1 (Some bws) v1_init) name e p = Ok h /\
    build_encodings h p = [(name, EV1 (V1Lpbq x))].
Proof.
  intros N Hc H1 H2 H3 D PS HO. destruct (lpbq_new_inv _ _ _ N) as (Nc & Nd & _). destruct bws as [c' d']. cbn [fst snd] in *.
  assert (b = c') by congruence. subst c'.
  pose proof (d_positive _ _ _ _ _ _ D) as P.
  assert (PR : Forall (fun n => 0 < n) rest) by (destruct l; inversion P as [|? ? _ P']; inversion P'; assumption).
  destruct (lpbq_granularity l chans blks bs rest H1 H2 H3 PR) as (st & G).
  assert (HL : length ss = chans * blks).
  { rewrite (d_scales _ _ _ _ _ _ D). destruct l; cbn [lpbq_shape lpbq_tile];
      unfold grid, zipmap; cbn [combine map];
      change (map (fun '(x, y) => x / y) (combine rest rest)) with (grid rest rest);
      rewrite !prod_cons, (ones_grid rest) by assumption; rewrite Nat.div_1_r, Nat.div_mul by lia; lia. }
  pose proof (generate_total st b d' ss (Vec (map QofZ (off_z oo ss)))
    (Vec (map (fun z => (QofZ z - QofZ (2 ^ (Zpos b - 1)))%Q) (off_z oo ss))) l chans blks bs rest ltac:(lia) ltac:(lia) HL PS G) as (x & Ex).
  assert (B : v1_build (Some (b, d')) e = Ok (V1Lpbq x)).
  { unfold v1_build. rewrite (preprocess_eq _ _ _ _ _ _ D). cbn [rbind piter p_scale p_qnn_offset p_shape p_tile].
    rewrite (sym_zero _ _ _ _ _ _ D HO). rewrite G. destruct l; unfold handle_per_block; cbn [length Nat.ltb Nat.leb orb];
      rewrite Ex; reflexivity. }
  cbn [add_encoding]. unfold v1_add. rewrite B. cbn [rbind]. exists (HV1 (Some (b, d')) (if p then mkV1H [(name, V1Lpbq x)] [] [name] [] else mkV1H [] [(name, V1Lpbq x)] [] [name])), x.
  destruct p; split; reflexivity.
Qed.

(** ** Acceptance of per-tensor and per-channel quantizers *)

Lemma channel_granularity d r : 1 < d -> Forall (fun n => 0 < n) r ->
  granularity_from_sizes (d :: r) (1 :: r) = PerChannel [0%Z].
Proof.
  intros Hd P. unfold granularity_from_sizes.
  destruct (size_eqb (d :: r) (1 :: r)) eqn:E1.
  { apply size_eqb_eq in E1. injection E1. lia. }
  assert (F : forallb (fun '(d, t) => Qeq_bool (divq d t) 1 || Qeq_bool (divq d t) (inject_Z (Z.of_nat d))) (combine r r) = true).
  { clear - P. induction P as [|n r Hn _ IH]; [reflexivity|]. cbn [combine forallb]. rewrite IH, divq_1, Nat.eqb_refl by lia. reflexivity. }
  cbn [combine forallb]. rewrite F, divq_1, divq_d by lia. cbn [Nat.eqb]. rewrite orb_true_r. cbn [andb].
  unfold select_dims. destruct (filter_same (fun d t => (t =? 1) && (1 <? d)) r 1) as [FC _].
  { intros n; cbv beta; destruct (Nat.eqb_spec n 1) as [->|]; reflexivity. }
  cbn [fst snd] in FC. cbn [length seq combine filter fst snd Nat.eqb andb].
  replace (1 <? d) with true by (symmetry; apply Nat.ltb_lt; lia). rewrite FC. reflexivity.
Qed.

Lemma simple_granularity s t : Forall (fun n => 0 < n) s -> s = t \/ (exists d r, 1 < d /\ s = d :: r /\ t = 1 :: r) ->
  granularity_from_sizes s t = PerTensor \/ granularity_from_sizes s t = PerChannel [0%Z].
Proof.
  intros P [<-|(d & r & Hd & -> & ->)].
  - left. unfold granularity_from_sizes. replace (size_eqb s s) with true; [reflexivity|]. symmetry. now apply size_eqb_eq.
  - right. apply channel_granularity; [exact Hd|]. now inversion P.
Qed.

Lemma simple_accepted h0 e b ss oo s t name p : fresh h0 -> describes e b ss oo s t ->
  s = t \/ (exists d r, 1 < d /\ s = d :: r /\ t = 1 :: r) ->
  exists h x, add_encoding h0 name e p = Ok h /\ build_encodings h p = [(name, x)].
Proof.
  intros F D H. pose proof (simple_granularity s t (d_positive _ _ _ _ _ _ D) H) as G.
  assert (E : exists x, enc h0 e = Ok x).
  { pose proof (off_length _ _ _ _ _ _ D) as HL. inversion F as [E|l E|E]; subst h0; cbn [enc].
    - unfold legacy_build, quantization_range_t. rewrite (preprocess_eq _ _ _ _ _ _ D). cbn [rbind p_shape p_tile p_scale p_offset p_bits p_qnn_offset].
      rewrite !pbroadcast_same by (rewrite map_length; exact HL). destruct G as [-> | ->]; cbn [rbind piter rmap]; eauto.
    - unfold v1_build. rewrite (preprocess_eq _ _ _ _ _ _ D). cbn [rbind piter p_scale p_qnn_offset p_shape p_tile].
      destruct G as [-> | ->]; cbn [rmap]; eauto.
    - unfold v2_build. rewrite (preprocess_eq _ _ _ _ _ _ D). cbn [rbind piter p_scale p_qnn_offset p_shape p_tile p_symmetric].
      destruct G as [G|G]; rewrite G.
      + pose proof (d_scales _ _ _ _ _ _ D) as HS. apply (tensor_inv _ _ (d_positive _ _ _ _ _ _ D) (d_divides _ _ _ _ _ _ D)) in G. subst t.
        rewrite (ones_grid _ (d_positive _ _ _ _ _ _ D)) in HS. unfold pitem. cbn [pelems].
        destruct ss as [|sc [|]]; try discriminate. destruct (off_z oo [sc]) as [|z [|]]; try discriminate. cbn [map rbind].
        destruct (sym_of [z]); cbn [rmap]; eauto.
      + cbn [rbind]. destruct (sym_of _); cbn [rmap rbind]; eauto. }
  destruct E as (x & E). destruct (enc_add h0 name e p x F E) as (h & A & B). exists h, x. split; [exact A|]. apply B.
  apply cat_spec. destruct h0; reflexivity.
Qed.

Lemma block_accepted h0 e b ss oo l chans blks bs rest name p : h0 = HV1 None v1_init \/ h0 = HV2 v2_init ->
  1 < chans -> 1 < blks -> 1 < bs ->
  describes e b ss oo (lpbq_shape l chans blks bs rest) (lpbq_tile l bs rest) ->
  exists h x, add_encoding h0 name e p = Ok h /\ build_encodings h p = [(name, x)].
Proof.
  intros HH H1 H2 H3 D. pose proof (d_positive _ _ _ _ _ _ D) as P.
  assert (PR : Forall (fun n => 0 < n) rest) by (destruct l; inversion P as [|? ? _ P']; inversion P'; assumption).
  destruct (lpbq_granularity l chans blks bs rest H1 H2 H3 PR) as (st & G).
  assert (F : fresh h0) by (destruct HH as [-> | ->]; constructor).
  assert (E : exists x, enc h0 e = Ok x).
  { destruct HH as [-> | ->]; cbn [enc].
    - unfold v1_build. rewrite (preprocess_eq _ _ _ _ _ _ D). cbn [rbind piter p_scale p_qnn_offset p_shape p_tile].
      rewrite G. destruct l; cbn; eauto.
    - unfold v2_build. rewrite (preprocess_eq _ _ _ _ _ _ D). cbn [rbind piter p_scale p_qnn_offset p_offset p_shape p_tile p_symmetric].
      rewrite G. cbn [length Nat.ltb Nat.leb orb].
      destruct (v2_block_ok _ _ _ _ _ _ P (d_divides _ _ _ _ _ _ D) G) as [-> _]. cbn [rbind].
      pose proof (off_length _ _ _ _ _ _ D). pose proof (d_scales _ _ _ _ _ _ D).
      rewrite !np_reshape_ok by (cbn [pelems]; rewrite ?map_length; lia). cbn [rbind rmap]. eauto. }
  destruct E as (x & E). destruct (enc_add h0 name e p x F E) as (h & A & B). exists h, x. split; [exact A|]. apply B.
  apply cat_spec. destruct h0; reflexivity.
Qed.
