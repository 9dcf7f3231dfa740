(** End-to-end proofs for the built-in adapters and formats. *)
From Coq Require Import String Ascii.
From Verif Require Import Prelude TilingModel TilingSpec TilingProofs GranularityModel AffineModel AffineSpec
  AffineProofs AffineTensorProofs GgufModel GgufSpec GgufHalfProofs GgufPackProofs GgufRopeProofs GgufNameProofs
  GgufExportProofs.
From Coq Require Import QArith Qabs Qminmax Lqa.
Local Open Scope nat_scope.
Local Open Scope list_scope.

Definition reads (f : quant_format) (elem : list Z -> nat -> option Q) (cl : Z -> Z) : Prop :=
  f_block f = 32 /\
  forall rows n codes scales,
  0 < rows -> length codes = rows * (n * 32) -> length scales = rows * n ->
  exists rs, pack_tensor f rows codes scales = Ok rs /\ length rs = rows /\
    forall r c, r < rows -> c < n * 32 ->
      exists row s z, nth_error rs r = Some row /\ nth_error scales (r * n + c / 32) = Some s /\
        nth_error codes (r * (n * 32) + c) = Some z /\
        elem row c = option_map (fun d => inject_Z (cl z) * d)%Q (half_value (to_half s)).

Lemma reads_q4 : reads GGUF_Q4_0 q4_0_element (fun z => clamp (z + 8) 0 15 - 8)%Z.
Proof.
  split; [reflexivity|]. intros rows n codes scales A B C.
  destruct (pack_q4_0_reads rows n codes scales A B C) as (rs & E & L & _ & N). eauto.
Qed.
Lemma reads_q8 : reads GGUF_Q8_0 q8_0_element (fun z => clamp z (-127) 127).
Proof.
  split; [reflexivity|]. intros rows n codes scales A B C.
  destruct (pack_q8_0_reads rows n codes scales A B C) as (rs & E & L & _ & N). eauto.
Qed.

Lemma pack_tensor_scales f pb rows k codes scales rs : f_pack f = pack_blocks pb -> 0 < f_block f ->
  length codes = rows * (k * f_block f) -> pack_tensor f rows codes scales = Ok rs -> length scales = rows * k.
Proof.
  intros Ef Hb Lc H. unfold pack_tensor in H. destruct (_ || _); [discriminate|].
  apply rbind_ok in H as (p & H & _). rewrite Ef in H. unfold pack_blocks in H. rewrite chunks_length in H.
  replace (length codes) with (rows * k * f_block f) in H by lia. rewrite Nat.div_mul in H by lia.
  destruct (Nat.eqb_spec (length scales) (rows * k)); [assumption|discriminate].
Qed.

(** From a row map to the values in the file. *)
Lemma file_values f elem cl rows k codes codes' scales scales' m rs :
  reads f elem cl -> 0 < rows -> row_map_ok rows k 32 codes codes' scales scales' m ->
  pack_tensor f rows codes' scales' = Ok rs ->
  length rs = rows /\
  forall r c, r < rows -> c < k * 32 ->
    exists row s z, nth_error rs r = Some row /\ m r < rows /\ nth_error scales (m r * k + c / 32) = Some s /\
      nth_error codes (m r * (k * 32) + c) = Some z /\
      elem row c = option_map (fun d => inject_Z (cl z) * d)%Q (half_value (to_half s)).
Proof.
  intros [Ef R] Hr (L1 & L2 & M) E. destruct (R rows k codes' scales' Hr L1 L2) as (rs' & E' & L & N).
  rewrite E in E'. injection E' as <-. split; [exact L|]. intros r c Hrr Hc.
  destruct (N r c Hrr Hc) as (row & s & z & A & B & C & D). destruct (M r Hrr) as (Hm & Mc & Ms).
  exists row, s, z. split; [exact A|]. split; [exact Hm|].
  rewrite <- Mc, <- Ms by (try exact Hc; apply Nat.div_lt_upper_bound; lia). auto.
Qed.

(** The rounding of one value. *)
Lemma value_error s z : (0 < s)%Q -> (s < 65520)%Q ->
  exists h, half_value (to_half s) = Some h /\
    (Qabs (inject_Z z * h - (inject_Z z + 0) * s) <= Qabs (inject_Z z) * Qmax (s * two_pow (-11)) (two_pow (-25)))%Q /\
    (is_half s -> inject_Z z * h == (inject_Z z + 0) * s)%Q.
Proof.
  intros H0 H1. assert (T : to_half s = half_magnitude s).
  { unfold to_half. destruct (qlt_bool s 0) eqn:Q; [|reflexivity]. apply qlt_bool_iff in Q. lra. }
  destruct (half_error s ltac:(lra) H1) as (h & E & B). rewrite <- T in E. exists h. split; [exact E|]. split.
  - assert (inject_Z z * h - (inject_Z z + 0) * s == inject_Z z * (h - s))%Q as -> by ring.
    rewrite Qabs_Qmult. rewrite !(Qmult_comm (Qabs (inject_Z z))). apply Qmult_le_compat_r; [exact B|apply Qabs_nonneg].
  - intros Hh. destruct (half_exact s Hh) as (h' & E' & V & _). rewrite E in E'. injection E' as <-. rewrite V. ring.
Qed.

Lemma values_of_map f elem cl q w rows k codes codes' scales' m rs (row_of : nat -> nat -> nat -> Prop) :
  reads f elem cl -> 0 < rows -> 0 < k -> shape w = [rows; k * 32] -> w_quantize q w = Ok codes ->
  shape codes = shape w -> length (data codes) = rows * (k * 32) -> length (w_scale q) = rows * k ->
  row_map_ok rows k 32 (data codes) codes' (w_scale q) scales' m ->
  pack_tensor f rows codes' scales' = Ok rs -> w_offset q = None ->
  (forall s, In s (w_scale q) -> 0 < s /\ s < 65520)%Q ->
  (forall z, In z (data codes) -> cl z = z) ->
  (forall r, r < rows -> row_of rows r (m r)) ->
  exported_values elem q w rs row_of.
Proof.
  intros R Hr Hk Sw Hq Sc Lc Ls M E Off Pos Cl Ro.
  destruct (dequantized_2d codes (w_scale q) rows k 32) as (deq & Ed & Sd & Nd); try assumption; try lia; [congruence|].
  destruct (file_values _ _ _ _ _ _ _ _ _ _ _ R Hr M E) as (L & N).
  exists rows, (k * 32), codes, deq. split; [exact Sw|]. split; [exact Hq|]. split; [rewrite Off; exact Ed|]. split; [exact L|].
  intros r c Hrr Hc. destruct (N r c Hrr Hc) as (row & s & z & A & B & C & D & F).
  destruct (Pos s) as [P1 P2]; [eapply nth_error_In; exact C|].
  destruct (value_error s z P1 P2) as (h & Eh & Err & Ex). rewrite Eh in F. cbn [option_map] in F.
  rewrite Cl in F by (eapply nth_error_In; exact D).
  exists row, (m r), z, s, ((inject_Z z + 0) * s)%Q, (inject_Z z * h)%Q.
  split; [exact A|]. split; [now apply Ro|]. split; [exact B|]. split.
  { unfold at_index. rewrite Sc, Sw. cbn [ravel]. rewrite !prod_cons. unfold prod. cbn [fold_right].
    rewrite <- D. f_equal. lia. }
  split; [eapply nth_error_In; exact C|]. split; [now apply Nd|]. split; [exact F|]. split; [exact Err|exact Ex].
Qed.

Section Export.
  Variables (f : quant_format) (pb : list Z -> result (list Z)) (elem : list Z -> nat -> option Q) (cl : Z -> Z).
  Hypothesis R : reads f elem cl.
  Hypothesis Ef : f_pack f = pack_blocks pb.

  Lemma block32 : f_block f = 32. Proof. apply R. Qed.

  (** Adapters without transforms *)
  Lemma export_plain ps qd fd a p w q g (T : a_transforms a = []) :
    export_gguf a f ps = Ok (qd, fd) -> NoDup (map p_name ps) ->
    (forall n m g, In n (map p_name ps) -> In m (map p_name ps) -> a_map a n = Some g -> a_map a m = Some g -> n = m) ->
    In p ps -> p_data p = Some w -> wf w -> p_quantizer p = Some q ->
    a_map a (p_name p) = Some g -> a_tied a (p_name p) = false ->
    w_offset q = None -> (forall s, In s (w_scale q) -> 0 < s /\ s < 65520)%Q ->
    (forall codes z, w_quantize q w = Ok codes -> In z (data codes) ->
       (- 2 ^ (Zpos (f_bits f) - 1) <= z <= 2 ^ (Zpos (f_bits f) - 1) - 1)%Z -> cl z = z) ->
    exists rs, assoc_str g qd = Some rs /\ exported_values elem q w rs (fun _ r r' => r' = r).
  Proof.
    intros E N Inj Hin Hd W Hq Hm Ht Off Pos Cl.
    destruct (export_lookup a f ps qd fd p w g E) as (x & x' & E1 & E2 & L); try assumption.
    { intros t y y' H. rewrite T in H. easy. }
    rewrite T in E2. cbn [apply_transforms] in E2. injection E2 as <-. rewrite Hq in E1.
    destruct (extract_one_quantized f (p_name p) w q x ltac:(rewrite block32; lia) W E1)
      as (rows & k & codes & Sw & Hr & Hk & Eq & Eq' & Sc & Lc & Cb & ->).
    cbn [x_body x_rows] in L. destruct L as (rs & Ep & Ea). exists rs. split; [exact Ea|].
    assert (Ls := pack_tensor_scales f pb rows k _ _ _ Ef ltac:(rewrite block32; lia) Lc Ep).
    rewrite block32 in *.
    eapply (values_of_map f elem cl q w rows k codes _ _ (fun r => r)); try eassumption.
    - now apply id_row_map.
    - intros z Hz. eapply Cl; [exact Eq|exact Hz|].
      pose proof (quantize_by_tile_codes _ _ _ _ _ _ _ Eq') as F. rewrite Forall_forall in F. exact (F z Hz).
    - reflexivity.
  Qed.

  (** The Llama adapter *)
  Lemma export_llama heads kv tie ps qd fd p w q g :
    export_gguf (LLAMA_ADAPTER heads kv tie) f ps = Ok (qd, fd) -> NoDup (map p_name ps) ->
    (forall n, In n (map p_name ps) -> no_newline n) ->
    In p ps -> p_data p = Some w -> wf w -> p_quantizer p = Some q ->
    llama_name_map (p_name p) = Some g -> default_is_tied tie (p_name p) = false ->
    w_offset q = None -> (forall s, In s (w_scale q) -> 0 < s /\ s < 65520)%Q ->
    (forall codes z, w_quantize q w = Ok codes -> In z (data codes) ->
       (- 2 ^ (Zpos (f_bits f) - 1) <= z <= 2 ^ (Zpos (f_bits f) - 1) - 1)%Z -> cl z = z) ->
    exists rs, assoc_str g qd = Some rs /\
      exported_values elem q w rs (llama_row heads (match kv with Some n => n | None => heads end) (p_name p)).
  Proof.
    intros E N NL Hin Hd W Hq Hm Ht Off Pos Cl.
    destruct (export_lookup (LLAMA_ADAPTER heads kv tie) f ps qd fd p w g E) as (x & x' & E1 & E2 & L); try assumption.
    { intros t y y' H. destruct H as [<-|[]]. apply rope_hf. }
    { intros n m g' Hn Hm'. apply name_map_injective; [exact llama_table|now apply NL|now apply NL]. }
    rewrite Hq in E1.
    destruct (extract_one_quantized f (p_name p) w q x ltac:(rewrite block32; lia) W E1)
      as (rows & k & codes & Sw & Hr & Hk & Eq & Eq' & Sc & Lc & Cb & ->).
    assert (Nn : no_newline (p_name p)) by (apply NL; now apply in_map).
    assert (Cl' : forall z, In z (data codes) -> cl z = z).
    { intros z Hz. eapply Cl; [exact Eq|exact Hz|].
      pose proof (quantize_by_tile_codes _ _ _ _ _ _ _ Eq') as F. rewrite Forall_forall in F. exact (F z Hz). }
    cbn [a_transforms LLAMA_ADAPTER apply_transforms] in E2. apply rbind_ok in E2 as (x1 & E2 & E3).
    injection E3 as ->. unfold llama_rope_permute in E2. cbn [x_body x_hf] in E2.
    set (qs := ".self_attn.q_proj.weight"%string) in *. set (ks := ".self_attn.k_proj.weight"%string) in *.
    pose proof (layer_match_is qs (p_name p) eq_refl ltac:(discriminate) Nn) as Mq.
    pose proof (layer_match_is ks (p_name p) eq_refl ltac:(discriminate) Nn) as Mk.
    assert (Hb : 0 < f_block f) by (rewrite block32; lia).
    destruct (layer_match qs (p_name p)) as [ds|] eqn:Dq.
    - destruct (rope_row_map heads f (mkX (p_name p) rows (XQ (k * f_block f) (data codes) (w_scale q)) "") x' rows k (data codes) (w_scale q) Hb eq_refl eq_refl Lc E2)
        as (codes' & scales' & -> & Ls & M).
      cbn [x_body x_rows] in L. destruct L as (rs & Ep & Ea). exists rs. split; [exact Ea|].
      rewrite block32 in *.
      eapply (values_of_map f elem cl q w rows k codes _ _ _); try eassumption.
      intros r Hrr. split; [reflexivity|]. split.
      + intros Hk'. exfalso. apply Mk in Hk' as (ds' & Dk).
        destruct (layer_match_unique common_patterns (p_name p) qs ".attn_q.weight" ds ks ".attn_k.weight" ds' llama_table)
          as [X _]; [cbn; tauto|cbn; tauto|exact Dq|exact Dk|]. discriminate X.
      + intros Nq _. exfalso. apply Nq. apply Mq. eauto.
    - assert (Nq : ~ is_layer_tensor qs (p_name p)) by (intros H; apply Mq in H as (? & H); discriminate).
      destruct (layer_match ks (p_name p)) as [ds|] eqn:Dk.
      + destruct (rope_row_map (match kv with Some n => n | None => heads end) f
          (mkX (p_name p) rows (XQ (k * f_block f) (data codes) (w_scale q)) "") x' rows k (data codes) (w_scale q)
          Hb eq_refl eq_refl Lc E2) as (codes' & scales' & -> & Ls & M).
        cbn [x_body x_rows] in L. destruct L as (rs & Ep & Ea). exists rs. split; [exact Ea|].
        rewrite block32 in *.
        eapply (values_of_map f elem cl q w rows k codes _ _ _); try eassumption.
        intros r Hrr. split; [intros H; contradiction|]. split; [reflexivity|].
        intros _ Nk. exfalso. apply Nk. apply Mk. eauto.
      + injection E2 as <-. cbn [x_body x_rows] in L. destruct L as (rs & Ep & Ea). exists rs. split; [exact Ea|].
        assert (Ls := pack_tensor_scales f pb rows k _ _ _ Ef Hb Lc Ep).
        rewrite block32 in *.
        eapply (values_of_map f elem cl q w rows k codes _ _ (fun r => r)); try eassumption.
        * now apply id_row_map.
        * intros r Hrr. split; [intros H; contradiction|]. split; [|reflexivity].
          intros H. apply Mk in H as (? & H). discriminate.
  Qed.
End Export.

(** Q4_0 *)
Lemma q4_lossless z : (- 2 ^ (4 - 1) <= z <= 2 ^ (4 - 1) - 1)%Z -> (clamp (z + 8) 0 15 - 8)%Z = z.
Proof. change (2 ^ (4 - 1))%Z with 8%Z. intros H. rewrite clamp_inside; lia. Qed.
Lemma q8_lossless z : (- 2 ^ (8 - 1) <= z <= 2 ^ (8 - 1) - 1)%Z -> z <> (-128)%Z -> clamp z (-127) 127 = z.
Proof. change (2 ^ (8 - 1))%Z with 128%Z. intros H N. apply clamp_inside; lia. Qed.

Lemma export_llama_q4 : forall heads kv tie ps qd fd p w q g,
    export_gguf (LLAMA_ADAPTER heads kv tie) GGUF_Q4_0 ps = Ok (qd, fd) -> NoDup (map p_name ps) ->
    (forall n, In n (map p_name ps) -> no_newline n) ->
    In p ps -> p_data p = Some w -> wf w -> p_quantizer p = Some q ->
    llama_name_map (p_name p) = Some g -> default_is_tied tie (p_name p) = false ->
    w_offset q = None -> (forall s, In s (w_scale q) -> 0 < s /\ s < 65520)%Q ->
    exists rs, assoc_str g qd = Some rs /\
      exported_values q4_0_element q w rs (llama_row heads (match kv with Some n => n | None => heads end) (p_name p)).
Proof.
  intros. eapply (export_llama GGUF_Q4_0 pack_q4_block q4_0_element _ reads_q4 eq_refl); try eassumption.
  intros codes z _ _ Hz. cbv beta. now apply q4_lossless.
Qed.

Lemma export_llama_q8 : forall heads kv tie ps qd fd p w q g,
    export_gguf (LLAMA_ADAPTER heads kv tie) GGUF_Q8_0 ps = Ok (qd, fd) -> NoDup (map p_name ps) ->
    (forall n, In n (map p_name ps) -> no_newline n) ->
    In p ps -> p_data p = Some w -> wf w -> p_quantizer p = Some q ->
    llama_name_map (p_name p) = Some g -> default_is_tied tie (p_name p) = false ->
    w_offset q = None -> (forall s, In s (w_scale q) -> 0 < s /\ s < 65520)%Q ->
    (forall codes, w_quantize q w = Ok codes -> ~ In (-128)%Z (data codes)) ->
    exists rs, assoc_str g qd = Some rs /\
      exported_values q8_0_element q w rs (llama_row heads (match kv with Some n => n | None => heads end) (p_name p)).
Proof.
  intros. eapply (export_llama GGUF_Q8_0 pack_q8_block q8_0_element _ reads_q8 eq_refl); try eassumption.
  intros codes z Hc Hin Hz. apply q8_lossless; [exact Hz|]. intros ->. eapply H10; eassumption.
Qed.

Lemma export_qwen_q4 : forall a tie ps qd fd p w q g,
    a = QWEN2_ADAPTER tie \/ a = QWEN3_ADAPTER tie ->
    export_gguf a GGUF_Q4_0 ps = Ok (qd, fd) -> NoDup (map p_name ps) ->
    (forall n, In n (map p_name ps) -> no_newline n) ->
    In p ps -> p_data p = Some w -> wf w -> p_quantizer p = Some q ->
    a_map a (p_name p) = Some g -> a_tied a (p_name p) = false ->
    w_offset q = None -> (forall s, In s (w_scale q) -> 0 < s /\ s < 65520)%Q ->
    exists rs, assoc_str g qd = Some rs /\ exported_values q4_0_element q w rs (fun _ r r' => r' = r).
Proof.
  intros a tie ps qd fd p w q g Ha. intros.
  eapply (export_plain GGUF_Q4_0 pack_q4_block q4_0_element _ reads_q4 eq_refl ps qd fd a); try eassumption.
  - now destruct Ha as [-> | ->].
  - intros n m g' Hn Hm. destruct Ha as [-> | ->]; apply name_map_injective; auto using qwen2_table, qwen3_table.
  - intros codes z _ _ Hz. cbv beta. now apply q4_lossless.
Qed.

Lemma export_qwen_q8 : forall a tie ps qd fd p w q g,
    a = QWEN2_ADAPTER tie \/ a = QWEN3_ADAPTER tie ->
    export_gguf a GGUF_Q8_0 ps = Ok (qd, fd) -> NoDup (map p_name ps) ->
    (forall n, In n (map p_name ps) -> no_newline n) ->
    In p ps -> p_data p = Some w -> wf w -> p_quantizer p = Some q ->
    a_map a (p_name p) = Some g -> a_tied a (p_name p) = false ->
    w_offset q = None -> (forall s, In s (w_scale q) -> 0 < s /\ s < 65520)%Q ->
    (forall codes, w_quantize q w = Ok codes -> ~ In (-128)%Z (data codes)) ->
    exists rs, assoc_str g qd = Some rs /\ exported_values q8_0_element q w rs (fun _ r r' => r' = r).
Proof.
  intros a tie ps qd fd p w q g Ha. intros.
  eapply (export_plain GGUF_Q8_0 pack_q8_block q8_0_element _ reads_q8 eq_refl ps qd fd a); try eassumption.
  - now destruct Ha as [-> | ->].
  - intros n m g' Hn Hm. destruct Ha as [-> | ->]; apply name_map_injective; auto using qwen2_table, qwen3_table.
  - intros codes z Hc Hin Hz. apply q8_lossless; [exact Hz|]. intros ->. eapply H10; eassumption.
Qed.

(** Which tensors are in the file. *)
Lemma transform_hf_list a f xs ts : keeps_names a f -> stage_transform a f xs = Ok ts -> map x_hf ts = map x_hf xs.
Proof.
  intros K. revert ts. induction xs as [|y xs IH]; intros ts Et; unfold stage_transform in Et; cbn [rmapM] in Et.
  - now injection Et as <-.
  - apply rbind_ok in Et as (y' & Ey & Et). apply rbind_ok in Et as (ys & Eys & Et). injection Et as <-.
    cbn [map]. rewrite (IH _ Eys). f_equal. eapply transforms_hf; [|exact Ey]. intros t z z' H. now apply K.
Qed.

Lemma extract_from a f ps xs n : extract a f ps = Ok xs -> In n (map x_hf xs) ->
  exists p, In p ps /\ p_name p = n /\ p_data p <> None /\ a_tied a n = false.
Proof.
  revert xs. induction ps as [|p ps IH]; intros xs E Hn; cbn [extract] in E.
  - injection E as <-. easy.
  - assert (Skip : extract a f ps = Ok xs -> exists p0, In p0 (p :: ps) /\ p_name p0 = n /\ p_data p0 <> None /\ a_tied a n = false).
    { intros E'. destruct (IH _ E' Hn) as (p0 & A & B). exists p0. split; [now right|exact B]. }
    destruct (a_map a (p_name p)); [|now apply Skip]. destruct (p_data p) eqn:Ed; [|now apply Skip].
    destruct (a_tied a (p_name p)) eqn:Et; [now apply Skip|].
    apply rbind_ok in E as (x & Ex & E). apply rbind_ok in E as (xs' & E' & E). injection E as <-.
    apply extract_one_name in Ex. cbn [map] in Hn. destruct Hn as [<-|Hn].
    + exists p. rewrite Ex. repeat split; try assumption; [now left|congruence].
    + destruct (IH _ E' Hn) as (p0 & A & B). exists p0. split; [now right|exact B].
Qed.

Lemma export_keys a f ps qd fd g : export_gguf a f ps = Ok (qd, fd) -> keeps_names a f ->
  assoc_str g qd <> None \/ assoc_str g fd <> None ->
  exists p, In p ps /\ a_map a (p_name p) = Some g /\ p_data p <> None /\ a_tied a (p_name p) = false.
Proof.
  intros E K H. unfold export_gguf in E.
  apply rbind_ok in E as (xs & Ex & E). apply rbind_ok in E as (ts & Et & E).
  destruct (stage_pack_keys _ _ _ _ _ _ E g H) as [[X|X]|Hin]; [now cbn in X|now cbn in X|].
  apply in_map_iff in Hin as (x & <- & Hx). apply names_in in Hx as (y & g' & Hy & Em & ->). cbn [x_gguf].
  assert (Hn : In (x_hf y) (map x_hf xs)).
  { rewrite <- (transform_hf_list a f xs ts K Et). now apply in_map. }
  destruct (extract_from _ _ _ _ _ Ex Hn) as (p & A & B & C & D). exists p. rewrite B. auto.
Qed.

Lemma builtin_keeps a f : builtin_adapter a -> keeps_names a f.
Proof.
  intros [(h & kv & tie & ->)|[(tie & ->)|(tie & ->)]] t y y' H; cbn in H.
  - destruct H as [<-|[]]. apply rope_hf.
  - easy.
  - easy.
Qed.

Lemma builtin_injective a n m g : builtin_adapter a -> no_newline n -> no_newline m ->
  a_map a n = Some g -> a_map a m = Some g -> n = m.
Proof.
  intros [(h & kv & tie & ->)|[(tie & ->)|(tie & ->)]] Hn Hm; cbn [a_map LLAMA_ADAPTER QWEN2_ADAPTER QWEN3_ADAPTER];
    apply name_map_injective; auto using llama_table, qwen2_table, qwen3_table.
Qed.

(** Float parameters are written unchanged. *)
Lemma export_float a f ps qd fd p w g : builtin_adapter a ->
  export_gguf a f ps = Ok (qd, fd) -> NoDup (map p_name ps) -> (forall n, In n (map p_name ps) -> no_newline n) ->
  In p ps -> p_data p = Some w -> p_quantizer p = None ->
  a_map a (p_name p) = Some g -> a_tied a (p_name p) = false ->
  assoc_str g fd = Some w.
Proof.
  intros B E N NL Hin Hd Hq Hm Ht.
  destruct (export_lookup a f ps qd fd p w g E (builtin_keeps a f B) N) as (x & x' & E1 & E2 & L); try assumption.
  { intros n m g' Hn Hm'. apply builtin_injective; auto. }
  rewrite Hq in E1. cbn [extract_one] in E1. destruct (shape w); [discriminate|]. injection E1 as <-.
  assert (x' = mkX (p_name p) n (XF w) "").
  { destruct B as [(h & kv & tie & ->)|[(tie & ->)|(tie & ->)]]; cbn in E2; now injection E2 as <-. }
  subst x'. exact L.
Qed.

(** Exactly the exportable parameters are in the file. *)
Lemma export_complete a f ps qd fd : builtin_adapter a ->
  export_gguf a f ps = Ok (qd, fd) -> NoDup (map p_name ps) -> (forall n, In n (map p_name ps) -> no_newline n) ->
  forall g, (assoc_str g qd <> None \/ assoc_str g fd <> None) <->
    exists p, In p ps /\ a_map a (p_name p) = Some g /\ p_data p <> None /\ a_tied a (p_name p) = false.
Proof.
  intros B E N NL g. split; [apply (export_keys a f ps); [exact E|now apply builtin_keeps]|].
  intros (p & Hin & Hm & Hd & Ht). destruct (p_data p) as [w|] eqn:Ew; [|congruence].
  destruct (export_lookup a f ps qd fd p w g E (builtin_keeps a f B) N) as (x & x' & E1 & E2 & L); try assumption.
  { intros n m g' Hn Hm'. apply builtin_injective; auto. }
  destruct (x_body x').
  - destruct L as (rs & _ & L). left. congruence.
  - right. congruence.
Qed.
