(** Proofs about block packing. *)
From Verif Require Import Prelude TilingModel AffineModel AffineSpec AffineProofs GgufModel GgufSpec GgufHalfProofs.
From Coq Require Import QArith Lqa.
Local Open Scope nat_scope.

Lemma nth_firstn {A} (l : list A) w j : j < w -> nth_error (firstn w l) j = nth_error l j.
Proof.
  revert w j. induction l as [|a l IH]; intros [|w] [|j] H; simpl; try reflexivity; try lia.
  apply IH. lia.
Qed.
Lemma nth_skipn {A} (l : list A) k j : nth_error (skipn k l) j = nth_error l (k + j).
Proof.
  revert l. induction k as [|k IH]; intros l; [reflexivity|]. destruct l; simpl.
  - now destruct j.
  - apply IH.
Qed.

Lemma nth_seq n o i : i < n -> nth_error (seq o n) i = Some (o + i).
Proof. intros H. rewrite (nth_error_nth' _ 0) by (now rewrite seq_length). now rewrite seq_nth. Qed.

Lemma chunks_length {A} n w (l : list A) : length (chunks n w l) = n.
Proof. unfold chunks. now rewrite map_length, seq_length. Qed.
Lemma chunks_nth {A} n w (l : list A) i : i < n -> nth_error (chunks n w l) i = Some (firstn w (skipn (i * w) l)).
Proof. intros H. unfold chunks. rewrite nth_error_map, nth_seq by exact H. reflexivity. Qed.
Lemma chunk_nth {A} w (l : list A) i j : j < w -> nth_error (firstn w (skipn (i * w) l)) j = nth_error l (i * w + j).
Proof. intros H. rewrite nth_firstn by exact H. apply nth_skipn. Qed.
Lemma chunk_length {A} n w (l : list A) i : length l = n * w -> i < n -> length (firstn w (skipn (i * w) l)) = w.
Proof. intros H Hi. rewrite firstn_length, skipn_length, H. nia. Qed.

Lemma concat_length_const {A} (ls : list (list A)) w : Forall (fun r => length r = w) ls ->
  length (concat ls) = length ls * w.
Proof. induction 1 as [|r ls H F IH]; [reflexivity|]. cbn [concat length]. rewrite app_length, IH, H. lia. Qed.
Lemma concat_nth {A} (ls : list (list A)) w i j r : Forall (fun r => length r = w) ls ->
  nth_error ls i = Some r -> j < w -> nth_error (concat ls) (i * w + j) = nth_error r j.
Proof.
  intros F. revert i. induction F as [|r0 ls H F IH]; intros i E Hj; [now destruct i|].
  cbn [concat]. destruct i as [|i]; cbn [nth_error] in E.
  - injection E as ->. apply nth_error_app1. cbn. lia.
  - rewrite nth_error_app2 by (cbn [Nat.mul]; lia).
    replace (S i * w + j - length r0) with (i * w + j) by (cbn [Nat.mul]; lia). now apply IH.
Qed.

Lemma chunks_of_concat_nth {A} (ls : list (list A)) w rows n r b o blk :
  Forall (fun r => length r = w) ls -> length ls = rows * n -> r < rows -> b < n -> o < w ->
  nth_error ls (r * n + b) = Some blk ->
  nth_error (firstn (n * w) (skipn (r * (n * w)) (concat ls))) (b * w + o) = nth_error blk o.
Proof.
  intros F L Hr Hb Ho E. rewrite chunk_nth by nia.
  replace (r * (n * w) + (b * w + o)) with ((r * n + b) * w + o) by nia.
  now apply concat_nth.
Qed.

(** One packed tensor, for any block packer with fixed output width. *)
Lemma pack_tensor_spec f pb wq rows n codes scales :
  f_pack f = pack_blocks pb -> 0 < f_block f -> 0 < rows ->
  length codes = rows * (n * f_block f) -> length scales = rows * n ->
  (forall blk, length blk = f_block f -> exists q, pb blk = Ok q /\ length q = wq) ->
  exists rs, pack_tensor f rows codes scales = Ok rs /\ length rs = rows /\
    (forall r row, nth_error rs r = Some row -> length row = n * (2 + wq)) /\
    forall r b, r < rows -> b < n ->
      exists row s q, nth_error rs r = Some row /\ nth_error scales (r * n + b) = Some s /\
        pb (firstn (f_block f) (skipn ((r * n + b) * f_block f) codes)) = Ok q /\ length q = wq /\
        forall o, o < 2 + wq -> nth_error row (b * (2 + wq) + o) = nth_error (half_bytes s ++ q) o.
Proof.
  intros Ef Hb Hr Lc Ls Hpb. unfold pack_tensor. set (bs := f_block f) in *.
  replace (bs =? 0) with false by (symmetry; apply Nat.eqb_neq; lia).
  assert (Lc' : length codes = (rows * n) * bs) by nia.
  rewrite Lc', Nat.mod_mul by lia. cbn [Nat.eqb orb negb]. rewrite Nat.div_mul by lia.
  rewrite Ef. unfold pack_blocks. rewrite chunks_length, Ls, Nat.eqb_refl. cbn [negb].
  set (f0 := fun '(b, s) => let? q := pb b in Ok (half_bytes s ++ q)).
  set (cs := combine (chunks (rows * n) bs codes) scales).
  assert (Hcs : forall i, i < rows * n -> exists s q, nth_error scales i = Some s /\
            pb (firstn bs (skipn (i * bs) codes)) = Ok q /\ length q = wq /\
            nth_error cs i = Some (firstn bs (skipn (i * bs) codes), s)).
  { intros i Hi. destruct (nth_error scales i) as [s|] eqn:Es.
    2:{ apply nth_error_None in Es. lia. }
    destruct (Hpb (firstn bs (skipn (i * bs) codes))) as (q & Eq & Lq).
    { apply (chunk_length (rows * n)); assumption. }
    exists s, q. repeat split; try assumption. unfold cs.
    apply nth_error_combine; [now apply chunks_nth|exact Es]. }
  assert (Lcs : length cs = rows * n).
  { unfold cs. rewrite combine_length, chunks_length, Ls. lia. }
  destruct (rmapM_total f0 cs) as (packed & Ep).
  { intros x Hx. apply In_nth_error in Hx as [i Hi].
    assert (Li : i < rows * n) by (rewrite <- Lcs; apply nth_error_Some; congruence).
    destruct (Hcs i Li) as (s & q & _ & Eq & _ & Ex). rewrite Ex in Hi. injection Hi as <-.
    unfold f0. rewrite Eq. cbn [rbind]. eauto. }
  rewrite Ep. cbn [rbind].
  pose proof (rmapM_length _ _ _ Ep) as Lp. rewrite Lcs in Lp.
  assert (Np : forall i, i < rows * n -> exists s q, nth_error scales i = Some s /\
            pb (firstn bs (skipn (i * bs) codes)) = Ok q /\ length q = wq /\
            nth_error packed i = Some (half_bytes s ++ q)).
  { intros i Hi. destruct (Hcs i Hi) as (s & q & Es & Eq & Lq & Ex). exists s, q. repeat split; try assumption.
    destruct (rmapM_nth _ _ _ _ _ Ep Ex) as (y & Ey & Fy). rewrite Ey. f_equal.
    unfold f0 in Fy. rewrite Eq in Fy. cbn [rbind] in Fy. congruence. }
  assert (Fp : Forall (fun r => length r = 2 + wq) packed).
  { apply Forall_forall. intros x Hx. apply In_nth_error in Hx as [i Hi].
    assert (Li : i < rows * n) by (rewrite <- Lp; apply nth_error_Some; congruence).
    destruct (Np i Li) as (s & q & _ & _ & Lq & Ex). rewrite Ex in Hi. injection Hi as <-.
    change (S (S (length q)) = 2 + wq). now rewrite Lq. }
  assert (Lb : length (concat packed) = (n * (2 + wq)) * rows).
  { rewrite (concat_length_const _ _ Fp), Lp. nia. }
  rewrite Lb. rewrite Nat.mod_mul by lia. replace (rows =? 0) with false by (symmetry; apply Nat.eqb_neq; lia).
  cbn [Nat.eqb orb negb]. rewrite Nat.div_mul by lia.
  eexists; split; [reflexivity|]. split; [apply chunks_length|]. split.
  - intros r row E. assert (Hr' : r < rows).
    { rewrite <- (chunks_length rows (n * (2 + wq)) (concat packed)). apply nth_error_Some. congruence. }
    rewrite chunks_nth in E by exact Hr'. injection E as <-. apply (chunk_length rows); [nia|exact Hr'].
  - intros r b Hr' Hb'. assert (Hi : r * n + b < rows * n) by nia.
    destruct (Np _ Hi) as (s & q & Es & Eq & Lq & Ex).
    exists (firstn (n * (2 + wq)) (skipn (r * (n * (2 + wq))) (concat packed))), s, q.
    split; [now apply chunks_nth|]. split; [exact Es|]. split; [exact Eq|]. split; [exact Lq|].
    intros o Ho. apply (chunks_of_concat_nth packed (2 + wq) rows n r b o); assumption.
Qed.

Lemma nibble_pack lo hi : (0 <= lo <= 15)%Z -> (0 <= hi <= 15)%Z ->
  (Z.lor lo (Z.shiftl hi 4) mod 16 = lo)%Z /\ (Z.lor lo (Z.shiftl hi 4) / 16 = hi)%Z.
Proof.
  intros Hl Hh.
  assert (K : forallb (fun a => forallb (fun b =>
      (Z.lor (Z.of_nat a) (Z.shiftl (Z.of_nat b) 4) mod 16 =? Z.of_nat a)%Z &&
      (Z.lor (Z.of_nat a) (Z.shiftl (Z.of_nat b) 4) / 16 =? Z.of_nat b)%Z) (seq 0 16)) (seq 0 16) = true)
    by (vm_compute; reflexivity).
  rewrite forallb_forall in K. specialize (K (Z.to_nat lo)). rewrite in_seq in K.
  specialize (K ltac:(lia)). rewrite forallb_forall in K. specialize (K (Z.to_nat hi)). rewrite in_seq in K.
  specialize (K ltac:(lia)). apply andb_prop in K as [K1 K2].
  rewrite !Z2Nat.id in K1, K2 by lia. now apply Z.eqb_eq in K1, K2.
Qed.

Lemma clamp_bounds z lo hi : (lo <= hi)%Z -> (lo <= clamp z lo hi <= hi)%Z.
Proof. unfold clamp. lia. Qed.

Lemma clamp_inside z lo hi : (lo <= z <= hi)%Z -> clamp z lo hi = z.
Proof. unfold clamp. lia. Qed.

(** One Q4_0 block: the byte of elements j and j+16. *)
Lemma pack_q4_block_spec codes : length codes = 32 ->
  exists q, pack_q4_block codes = Ok q /\ length q = 16 /\
    forall j, j < 32 -> exists c byte, nth_error codes j = Some c /\ nth_error q (j mod 16) = Some byte /\
      ((if (j <? 16)%nat then byte mod 16 else byte / 16) = clamp (c + 8) 0 15)%Z.
Proof.
  intros L. unfold pack_q4_block. rewrite L. change (32 / 2) with 16. cbn [Nat.mul Nat.add Nat.eqb].
  set (qs := map (fun c => clamp (c + 8) 0 15) codes).
  assert (Lq : length qs = 32) by (unfold qs; now rewrite map_length).
  eexists; split; [reflexivity|]. split.
  { rewrite map_length, combine_length, firstn_length, skipn_length, Lq. reflexivity. }
  assert (N : forall j, j < 32 -> exists c, nth_error codes j = Some c /\ nth_error qs j = Some (clamp (c + 8) 0 15)).
  { intros j Hj. destruct (nth_error codes j) as [c|] eqn:E; [|apply nth_error_None in E; lia].
    exists c. split; [reflexivity|]. unfold qs. now rewrite nth_error_map, E. }
  intros j Hj. destruct (Nat.ltb_spec j 16) as [H|H].
  - destruct (N j ltac:(lia)) as (c & Ec & Eq). destruct (N (16 + j) ltac:(lia)) as (c' & Ec' & Eq').
    exists c. eexists. split; [exact Ec|]. rewrite Nat.mod_small by exact H. split.
    + rewrite nth_error_map. rewrite (nth_error_combine _ _ j (clamp (c + 8) 0 15) (clamp (c' + 8) 0 15)).
      * reflexivity.
      * now rewrite nth_firstn.
      * now rewrite nth_skipn.
    + apply nibble_pack; apply clamp_bounds; lia.
  - destruct (N j ltac:(lia)) as (c & Ec & Eq). destruct (N (j - 16) ltac:(lia)) as (c' & Ec' & Eq').
    exists c. eexists. split; [exact Ec|].
    replace (j mod 16) with (j - 16).
    2:{ replace j with ((j - 16) + 1 * 16) at 2 by lia. rewrite Nat.mod_add by lia. symmetry. apply Nat.mod_small. lia. }
    split.
    + rewrite nth_error_map. rewrite (nth_error_combine _ _ (j - 16) (clamp (c' + 8) 0 15) (clamp (c + 8) 0 15)).
      * reflexivity.
      * rewrite nth_firstn by lia. exact Eq'.
      * rewrite nth_skipn. now replace (16 + (j - 16)) with j by lia.
    + apply nibble_pack; apply clamp_bounds; lia.
Qed.

Lemma pack_q8_block_spec codes : length codes = 32 ->
  exists q, pack_q8_block codes = Ok q /\ length q = 32 /\
    forall j, j < 32 -> exists c byte, nth_error codes j = Some c /\ nth_error q j = Some byte /\
      ((if byte <? 128 then byte else byte - 256) = clamp c (-127) 127)%Z.
Proof.
  intros L. unfold pack_q8_block. eexists; split; [reflexivity|]. split; [now rewrite map_length|].
  intros j Hj. destruct (nth_error codes j) as [c|] eqn:E; [|apply nth_error_None in E; lia].
  exists c, ((clamp c (-127) 127) mod 256)%Z. split; [reflexivity|]. split; [now rewrite nth_error_map, E|].
  pose proof (clamp_bounds c (-127) 127 ltac:(lia)) as B. set (v := clamp c (-127) 127) in *.
  destruct (Z_lt_ge_dec v 0).
  - replace (v mod 256)%Z with (v + 256)%Z.
    + destruct (Z.ltb_spec (v + 256) 128); lia.
    + symmetry. rewrite <- (Z.mod_small (v + 256) 256) by lia.
      rewrite <- (Z.mod_add v 1 256) by lia. f_equal.
  - rewrite Z.mod_small by lia. destruct (Z.ltb_spec v 128); lia.
Qed.


Lemma div_block b j w : j < w -> (b * w + j) / w = b.
Proof. intros H. rewrite Nat.div_add_l by lia. rewrite Nat.div_small by exact H. lia. Qed.
Lemma mod_block b j w : j < w -> (b * w + j) mod w = j.
Proof. intros H. rewrite Nat.add_comm, Nat.mod_add by lia. now apply Nat.mod_small. Qed.

(** What llama.cpp reads from a packed Q4_0 row. *)
Lemma pack_q4_0_reads rows n codes scales :
  0 < rows -> length codes = rows * (n * 32) -> length scales = rows * n ->
  exists rs, pack_tensor GGUF_Q4_0 rows codes scales = Ok rs /\ length rs = rows /\
    (forall r row, nth_error rs r = Some row -> length row = n * 18) /\
    forall r c, r < rows -> c < n * 32 ->
      exists row s z, nth_error rs r = Some row /\ nth_error scales (r * n + c / 32) = Some s /\
        nth_error codes (r * (n * 32) + c) = Some z /\
        q4_0_element row c =
          option_map (fun d => inject_Z (clamp (z + 8) 0 15 - 8) * d)%Q (half_value (to_half s)).
Proof.
  intros Hr Lc Ls.
  destruct (pack_tensor_spec GGUF_Q4_0 pack_q4_block 16 rows n codes scales) as (rs & E & L & W & N);
    [reflexivity|cbn; lia|exact Hr|exact Lc|exact Ls| |].
  { intros blk Hb. destruct (pack_q4_block_spec blk Hb) as (q & A & B & _). eauto. }
  exists rs. split; [exact E|]. split; [exact L|]. split; [exact W|]. intros r c Hrr Hc.
  assert (Hb : c / 32 < n) by (apply Nat.div_lt_upper_bound; lia).
  destruct (N r (c / 32) Hrr Hb) as (row & s & q & Er & Es & Eq & Lq & Row).
  assert (Hj : c mod 32 < 32) by (apply Nat.mod_upper_bound; lia).
  pose proof (Nat.div_mod c 32 ltac:(lia)) as DM.
  cbn [f_block GGUF_Q4_0] in Eq.
  destruct (pack_q4_block_spec (firstn 32 (skipn ((r * n + c / 32) * 32) codes))) as (q' & Eq' & _ & Nq).
  { apply (chunk_length (rows * n)); nia. }
  rewrite Eq in Eq'. injection Eq' as <-.
  destruct (Nq (c mod 32) Hj) as (z & byte & Ez & Eb & V).
  rewrite chunk_nth in Ez by exact Hj.
  exists row, s, z. split; [exact Er|]. split; [exact Es|]. split.
  { rewrite <- Ez. f_equal. lia. }
  assert (Hm : (c mod 32) mod 16 < 16) by (apply Nat.mod_upper_bound; lia).
  unfold q4_0_element, half_at. change (2 + 16) with 18 in Row.
  pose proof (Row 0 ltac:(lia)) as R0. pose proof (Row 1 ltac:(lia)) as R1.
  pose proof (Row (2 + (c mod 32) mod 16) ltac:(lia)) as R2.
  rewrite Nat.add_0_r in R0. rewrite R0, R1. rewrite Nat.add_assoc in R2. rewrite R2.
  pose proof (half_bytes_value s q) as HV. unfold half_at in HV. cbn [Nat.add] in HV. rewrite HV.
  assert (N2 : nth_error (half_bytes s ++ q) (2 + (c mod 32) mod 16) = Some byte).
  { rewrite nth_error_app2 by (cbn; lia). cbn [half_bytes length]. now replace (2 + (c mod 32) mod 16 - 2) with ((c mod 32) mod 16) by lia. }
  rewrite N2. rewrite V. destruct (half_value (to_half s)); reflexivity.
Qed.

Lemma pack_q8_0_reads rows n codes scales :
  0 < rows -> length codes = rows * (n * 32) -> length scales = rows * n ->
  exists rs, pack_tensor GGUF_Q8_0 rows codes scales = Ok rs /\ length rs = rows /\
    (forall r row, nth_error rs r = Some row -> length row = n * 34) /\
    forall r c, r < rows -> c < n * 32 ->
      exists row s z, nth_error rs r = Some row /\ nth_error scales (r * n + c / 32) = Some s /\
        nth_error codes (r * (n * 32) + c) = Some z /\
        q8_0_element row c =
          option_map (fun d => inject_Z (clamp z (-127) 127) * d)%Q (half_value (to_half s)).
Proof.
  intros Hr Lc Ls.
  destruct (pack_tensor_spec GGUF_Q8_0 pack_q8_block 32 rows n codes scales) as (rs & E & L & W & N);
    [reflexivity|cbn; lia|exact Hr|exact Lc|exact Ls| |].
  { intros blk Hb. destruct (pack_q8_block_spec blk Hb) as (q & A & B & _). eauto. }
  exists rs. split; [exact E|]. split; [exact L|]. split; [exact W|]. intros r c Hrr Hc.
  assert (Hb : c / 32 < n) by (apply Nat.div_lt_upper_bound; lia).
  destruct (N r (c / 32) Hrr Hb) as (row & s & q & Er & Es & Eq & Lq & Row).
  assert (Hj : c mod 32 < 32) by (apply Nat.mod_upper_bound; lia).
  pose proof (Nat.div_mod c 32 ltac:(lia)) as DM.
  cbn [f_block GGUF_Q8_0] in Eq.
  destruct (pack_q8_block_spec (firstn 32 (skipn ((r * n + c / 32) * 32) codes))) as (q' & Eq' & _ & Nq).
  { apply (chunk_length (rows * n)); nia. }
  rewrite Eq in Eq'. injection Eq' as <-.
  destruct (Nq (c mod 32) Hj) as (z & byte & Ez & Eb & V).
  rewrite chunk_nth in Ez by exact Hj.
  exists row, s, z. split; [exact Er|]. split; [exact Es|]. split.
  { rewrite <- Ez. f_equal. lia. }
  unfold q8_0_element, half_at. change (2 + 32) with 34 in Row.
  pose proof (Row 0 ltac:(lia)) as R0. pose proof (Row 1 ltac:(lia)) as R1.
  pose proof (Row (2 + c mod 32) ltac:(lia)) as R2.
  rewrite Nat.add_0_r in R0. rewrite R0, R1. rewrite Nat.add_assoc in R2. rewrite R2.
  pose proof (half_bytes_value s q) as HV. unfold half_at in HV. cbn [Nat.add] in HV. rewrite HV.
  assert (N2 : nth_error (half_bytes s ++ q) (2 + c mod 32) = Some byte).
  { rewrite nth_error_app2 by (cbn; lia). cbn [half_bytes length]. now replace (2 + c mod 32 - 2) with (c mod 32) by lia. }
  rewrite N2. rewrite V. destruct (half_value (to_half s)); reflexivity.
Qed.
