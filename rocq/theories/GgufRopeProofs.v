(** Proofs about the RoPE row permutation. *)
From Verif Require Import Prelude TilingModel TilingSpec TilingProofs AffineModel AffineProofs
  GgufModel GgufSpec GgufPackProofs.
From Coq Require Import Permutation.
Local Open Scope nat_scope.

Lemma rope_shape n h : 0 < h -> n mod (h * 2) = 0 -> exists m, n = h * (2 * m) /\ n / h = 2 * m /\ n / h / 2 = m.
Proof.
  intros Hh Hn. exists (n / (h * 2)). pose proof (Nat.div_mod n (h * 2) ltac:(lia)) as D.
  rewrite Hn, Nat.add_0_r in D.
  assert (E : n / h = 2 * (n / (h * 2))).
  { rewrite D at 1. replace (h * 2 * (n / (h * 2))) with (2 * (n / (h * 2)) * h) by lia. apply Nat.div_mul. lia. }
  split; [lia|]. split; [exact E|]. rewrite E, Nat.mul_comm. apply Nat.div_mul. lia.
Qed.

Lemma perm021 : is_perm 3 [0; 2; 1].
Proof.
  split; [reflexivity|]. split.
  - repeat constructor; simpl; intuition discriminate.
  - intros d. simpl. lia.
Qed.

Lemma rope_index_at n h : 0 < h -> n mod (h * 2) = 0 ->
  exists l, rope_permute_row_index n h = Ok l /\ length l = n /\
    forall a k j, a < h -> k < 2 -> j < n / h / 2 ->
      nth_error l (a * (n / h) + 2 * j + k) = Some (a * (n / h) + k * (n / h / 2) + j).
Proof.
  intros Hh Hn. destruct (rope_shape n h Hh Hn) as (m & En & E1 & E2).
  unfold rope_permute_row_index. rewrite Hn.
  replace (h * 2 =? 0) with false by (symmetry; apply Nat.eqb_neq; lia). cbn [Nat.eqb negb].
  rewrite E2, E1.
  assert (P : prod [h; 2; m] = n) by (rewrite !prod_cons; unfold prod; cbn [fold_right]; lia).
  rewrite (reshape_ok _ [h; 2; m]) by (cbn [data]; now rewrite seq_length). cbn [rbind data].
  destruct (permute_spec (mkT [h; 2; m] (seq 0 n)) [0; 2; 1]) as (t & Et & St & Wt & At).
  { unfold wf. cbn [data shape]. now rewrite seq_length. }
  { exact perm021. }
  rewrite Et. cbn [rbind].
  cbn [shape pick map nth] in St.
  assert (Lt : length (data t) = n).
  { rewrite Wt, St, !prod_cons. unfold prod. cbn [fold_right]. lia. }
  rewrite (reshape_ok t [n]) by (rewrite prod_cons; unfold prod; cbn [fold_right]; lia).
  cbn [rbind data]. exists (data t). split; [reflexivity|]. split; [exact Lt|].
  intros a k j Ha Hk Hj.
  specialize (At [a; k; j]). cbn [shape] in At.
  assert (V : valid [h; 2; m] [a; k; j]) by (constructor; [exact Ha|constructor; [exact Hk|constructor; [exact Hj|constructor]]]).
  specialize (At V). unfold at_index in At. rewrite St in At. cbn [pick map nth ravel shape data] in At.
  rewrite !prod_cons in At. unfold prod in At. cbn [fold_right] in At.
  rewrite nth_seq in At.
  - cbn [Nat.add] in At.
    replace (a * (2 * m) + 2 * j + k) with (a * (m * (2 * 1)) + (j * (2 * 1) + (k * 1 + 0))) by lia.
    rewrite At. f_equal. lia.
  - assert (k * (m * 1) + (j * 1 + 0) < 2 * m) by nia. nia.
Qed.

Lemma rope_decompose n h r : 0 < h -> n mod (h * 2) = 0 -> r < n ->
  exists a k j, a < h /\ k < 2 /\ j < n / h / 2 /\ r = a * (n / h) + 2 * j + k /\
    rope_source (n / h) r = a * (n / h) + k * (n / h / 2) + j.
Proof.
  intros Hh Hn Hr. destruct (rope_shape n h Hh Hn) as (m & En & E1 & E2). rewrite E2, E1.
  assert (Hm : 0 < m) by (destruct m; lia).
  assert (Hq : r mod (2 * m) < 2 * m) by (apply Nat.mod_upper_bound; lia).
  pose proof (Nat.div_mod r (2 * m) ltac:(lia)) as D.
  pose proof (Nat.div_mod (r mod (2 * m)) 2 ltac:(lia)) as D2.
  assert (Hk : (r mod (2 * m)) mod 2 < 2) by (apply Nat.mod_upper_bound; lia).
  exists (r / (2 * m)), ((r mod (2 * m)) mod 2), ((r mod (2 * m)) / 2).
  split; [apply Nat.div_lt_upper_bound; lia|]. split; [exact Hk|].
  split; [apply Nat.div_lt_upper_bound; lia|]. split; [lia|].
  unfold rope_source. replace (2 * m / 2) with m; [reflexivity|].
  rewrite Nat.mul_comm. symmetry. apply Nat.div_mul. lia.
Qed.

Lemma rope_index_spec n h : 0 < h -> n mod (h * 2) = 0 ->
  exists l, rope_permute_row_index n h = Ok l /\ length l = n /\
    (forall r, r < n -> nth_error l r = Some (rope_source (n / h) r)) /\
    Permutation l (seq 0 n).
Proof.
  intros Hh Hn. destruct (rope_index_at n h Hh Hn) as (l & El & Ll & Nl).
  exists l. split; [exact El|]. split; [exact Ll|].
  assert (N : forall r, r < n -> nth_error l r = Some (rope_source (n / h) r)).
  { intros r Hr. destruct (rope_decompose n h r Hh Hn Hr) as (a & k & j & Ha & Hk & Hj & -> & ->). now apply Nl. }
  split; [exact N|]. symmetry. apply NoDup_Permutation_bis.
  - apply seq_NoDup.
  - rewrite seq_length, Ll. lia.
  - intros x Hx. apply in_seq in Hx.
    destruct (rope_shape n h Hh Hn) as (m & En & E1 & E2).
    assert (Hm : 0 < m) by (destruct m; lia).
    assert (Hq : x mod (2 * m) < 2 * m) by (apply Nat.mod_upper_bound; lia).
    pose proof (Nat.div_mod x (2 * m) ltac:(lia)) as D.
    pose proof (Nat.div_mod (x mod (2 * m)) m ltac:(lia)) as D2.
    assert (Hj : (x mod (2 * m)) mod m < m) by (apply Nat.mod_upper_bound; lia).
    assert (Ha : x / (2 * m) < h) by (apply Nat.div_lt_upper_bound; lia).
    assert (Hk : (x mod (2 * m)) / m < 2) by (apply Nat.div_lt_upper_bound; lia).
    specialize (Nl _ _ _ Ha Hk ltac:(rewrite E2; exact Hj)). apply nth_error_In in Nl.
    rewrite E2, E1 in Nl. replace x with (x / (2 * m) * (2 * m) + (x mod (2 * m)) / m * m + (x mod (2 * m)) mod m) by lia.
    exact Nl.
Qed.

Lemma rope_index_error n h : 0 < h -> n mod (h * 2) <> 0 -> rope_permute_row_index n h = Err ExportError.
Proof.
  intros Hh Hn. unfold rope_permute_row_index.
  replace (h * 2 =? 0) with false by (symmetry; apply Nat.eqb_neq; lia).
  now replace (n mod (h * 2) =? 0) with false by (symmetry; now apply Nat.eqb_neq).
Qed.

(** Reordering rows of flat data. *)
Lemma take_rows_spec {A} n w (l : list A) idx :
  length l = n * w -> Forall (fun i => i < n) idx ->
  exists rs, take_rows (chunks n w l) idx = Ok rs /\ Forall (fun r => length r = w) rs /\ length rs = length idx /\
    forall r i j, nth_error idx r = Some i -> j < w -> nth_error (concat rs) (r * w + j) = nth_error l (i * w + j).
Proof.
  intros L F. unfold take_rows.
  set (g := fun i => match nth_error (chunks n w l) i with Some r => Ok r | None => Err IndexError end).
  destruct (rmapM_total g idx) as (rs & E).
  { intros i Hi. rewrite Forall_forall in F. specialize (F i Hi). unfold g. rewrite chunks_nth by exact F. eauto. }
  exists rs. split; [exact E|].
  assert (N : forall r i, nth_error idx r = Some i -> nth_error rs r = Some (firstn w (skipn (i * w) l)) /\ i < n).
  { intros r i Hi. destruct (rmapM_nth _ _ _ _ _ E Hi) as (y & Ey & Gy).
    assert (Hin : i < n) by (rewrite Forall_forall in F; apply F; eapply nth_error_In; exact Hi).
    unfold g in Gy. rewrite chunks_nth in Gy by exact Hin. injection Gy as <-. now split. }
  pose proof (rmapM_length _ _ _ E) as Lr.
  assert (W : Forall (fun r => length r = w) rs).
  { apply Forall_forall. intros x Hx. apply In_nth_error in Hx as [r Hr].
    destruct (nth_error idx r) as [i|] eqn:Ei.
    - destruct (N r i Ei) as [E' Hi]. rewrite E' in Hr. injection Hr as <-. now apply (chunk_length n).
    - apply nth_error_None in Ei. assert (r < length rs) by (apply nth_error_Some; congruence). lia. }
  split; [exact W|]. split; [exact Lr|].
  intros r i j Hi Hj. destruct (N r i Hi) as [E' _].
  rewrite (concat_nth rs w r j _ W E' Hj). now apply chunk_nth.
Qed.

(** Moving codes and scales together. *)
Lemma apply_row_permute_spec x cols codes scales idx bs n :
  x_body x = XQ cols codes scales -> 0 < bs -> cols = n * bs ->
  length codes = x_rows x * cols -> length scales = x_rows x * n ->
  Forall (fun i => i < x_rows x) idx -> length idx = x_rows x ->
  exists codes' scales', apply_row_permute x idx bs =
      Ok (mkX (x_hf x) (x_rows x) (XQ cols codes' scales') (x_gguf x)) /\
    length codes' = length codes /\ length scales' = length scales /\
    (forall r i c, nth_error idx r = Some i -> c < cols ->
       nth_error codes' (r * cols + c) = nth_error codes (i * cols + c)) /\
    (forall r i b, nth_error idx r = Some i -> b < n ->
       nth_error scales' (r * n + b) = nth_error scales (i * n + b)).
Proof.
  intros Eb Hbs Ec Lc Ls F Li. unfold apply_row_permute. rewrite Eb.
  replace (bs =? 0) with false by (symmetry; apply Nat.eqb_neq; lia).
  assert (Em : cols mod bs = 0) by (rewrite Ec; apply Nat.mod_mul; lia).
  assert (Ed : cols / bs = n) by (rewrite Ec; apply Nat.div_mul; lia).
  rewrite Em, Ed, <- Ec. cbn [Nat.eqb negb]. unfold reshape_rows.
  rewrite Lc, Ls, !Nat.eqb_refl. cbn [rbind].
  destruct (take_rows_spec (x_rows x) cols codes idx Lc F) as (pc & E1 & W1 & L1 & N1).
  destruct (take_rows_spec (x_rows x) n scales idx Ls F) as (ps & E2 & W2 & L2 & N2).
  rewrite E1. cbn [rbind]. rewrite E2. cbn [rbind].
  exists (concat pc), (concat ps). split; [reflexivity|].
  split; [rewrite (concat_length_const _ _ W1), L1, Li; reflexivity|].
  split; [rewrite (concat_length_const _ _ W2), L2, Li; reflexivity|].
  split; [exact N1|exact N2].
Qed.
