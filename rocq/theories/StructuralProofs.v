From Verif Require Import Prelude TilingModel TilingSpec TilingProofs GranularityModel GranularityProofs
  AffineModel AffineSpec AffineProofs AffineTensorProofs StructuralModel StructuralSpec.
From Coq Require Import QArith Lqa.
Local Open Scope nat_scope.

(** ** Relocating operations *)
Lemma nth_error_tmap {A B} (g : A -> B) t p : nth_error (data (tmap g t)) p = option_map g (nth_error (data t) p).
Proof. apply nth_error_map. Qed.

Lemma omapM_option_map {A B C} (f : A -> option B) (g : B -> C) l :
  omapM (fun a => option_map g (f a)) l = option_map (map g) (omapM f l).
Proof.
  induction l as [|x l IH]; simpl; [reflexivity|]. destruct (f x); simpl; [|reflexivity].
  rewrite IH. destruct (omapM f l); reflexivity.
Qed.

Lemma gather_natural {A B} (g : A -> B) t s' src : gather (tmap g t) s' src = rmap (tmap g) (gather t s' src).
Proof.
  unfold gather. rewrite (omapM_ext _ (fun p => option_map g (match src (unravel s' p) with
    | Some i => nth_error (data t) (ravel (shape t) i) | None => None end))).
  - rewrite omapM_option_map. destruct (omapM _ _); reflexivity.
  - intros p _. destruct (src (unravel s' p)); [|reflexivity]. apply nth_error_tmap.
Qed.
Lemma gather_wf {A} (t t' : tensor A) s' src : gather t s' src = Ok t' -> wf t'.
Proof.
  unfold gather. destruct (omapM _ _) eqn:E; [|discriminate]. intros H; injection H as <-.
  unfold wf; simpl. rewrite (omapM_length _ _ _ E). apply seq_length.
Qed.
Lemma gather_shape {A} (t t' : tensor A) s' src : gather t s' src = Ok t' -> shape t' = s'.
Proof. unfold gather. destruct (omapM _ _) eqn:E; [|discriminate]. intros H; now injection H as <-. Qed.
Lemma gather_at {A} (t t' : tensor A) s' src j i : gather t s' src = Ok t' -> valid s' j -> src j = Some i ->
  at_index t' j = at_index t i.
Proof.
  unfold gather. destruct (omapM _ _) eqn:E; [|discriminate]. intros H Hj Hs; injection H as <-.
  unfold at_index. simpl. pose proof (ravel_lt _ _ Hj) as Hlt.
  rewrite (omapM_nth _ _ _ (ravel s' j) (ravel s' j) E).
  - rewrite unravel_ravel by assumption. now rewrite Hs.
  - rewrite (nth_error_nth' _ 0) by (rewrite seq_length; lia). now rewrite seq_nth by lia.
Qed.
Lemma gather_total {A} (t : tensor A) s' src : wf t ->
  (forall j, valid s' j -> exists i, src j = Some i /\ valid (shape t) i) -> exists t', gather t s' src = Ok t'.
Proof.
  intros Hwf H. unfold gather.
  destruct (omapM_total (fun p => match src (unravel s' p) with
                        | Some i => nth_error (data t) (ravel (shape t) i) | None => None end) (seq 0 (prod s'))) as [d Hd].
  - intros p Hp. apply in_seq in Hp. destruct (H (unravel s' p)) as (i & -> & Hi); [apply unravel_valid; lia|].
    apply nth_error_lt_some. rewrite Hwf. now apply ravel_lt.
  - rewrite Hd. eauto.
Qed.

Lemma reshape_relocates s : relocates (@t_reshape s).
Proof.
  split.
  - intros A B g t. unfold t_reshape. simpl. rewrite map_length. destruct (infer_shape (length (data t)) s) as [s'|]; [|reflexivity].
    simpl. unfold reshape. simpl. rewrite map_length. destruct (_ =? _); reflexivity.
  - intros A t t' Hw. unfold t_reshape. destruct (infer_shape (length (data t)) s) as [s'|]; simpl; [|discriminate].
    unfold reshape. destruct (prod s' =? length (data t)) eqn:E; [|discriminate]. intros H; injection H as <-.
    unfold wf; simpl. apply Nat.eqb_eq in E. now symmetry.
Qed.

Lemma permute_natural {A B} (g : A -> B) t perm : permute (tmap g t) perm = rmap (tmap g) (permute t perm).
Proof.
  unfold permute. simpl. destruct (negb _); [reflexivity|]. destruct (omapM (nth_error (shape t)) perm) as [s'|]; [|reflexivity].
  match goal with |- context [omapM ?f (seq 0 (prod s'))] =>
    match goal with |- context [rmap _ (match omapM ?h _ with _ => _ end)] =>
      rewrite (omapM_ext f (fun p => option_map g (h p))) end end.
  - rewrite omapM_option_map. destruct (omapM _ (seq 0 (prod s'))); reflexivity.
  - intros p _. destruct (omapM _ _); [|reflexivity]. apply nth_error_map.
Qed.
Lemma permute_wf {A} (t t' : tensor A) perm : permute t perm = Ok t' -> wf t'.
Proof.
  unfold permute. destruct (negb _); [discriminate|]. destruct (omapM (nth_error (shape t)) perm) as [s'|]; [|discriminate].
  destruct (omapM _ (seq 0 (prod s'))) eqn:E; [|discriminate]. intros H; injection H as <-.
  unfold wf; simpl. rewrite (omapM_length _ _ _ E). apply seq_length.
Qed.
Lemma transpose_relocates a b : relocates (@t_transpose a b).
Proof.
  split.
  - intros A B g t. unfold t_transpose. simpl. destruct (py_index _ a); [|reflexivity]. simpl.
    destruct (py_index _ b); [|reflexivity]. simpl. apply permute_natural.
  - intros A t t' _. unfold t_transpose. destruct (py_index _ a); [|discriminate]. simpl.
    destruct (py_index _ b); [|discriminate]. simpl. apply permute_wf.
Qed.
Lemma getitem_relocates sl : relocates (@t_getitem sl).
Proof.
  split.
  - intros A B g t. unfold t_getitem. simpl. destruct (resolve false (shape t) sl); [|reflexivity]. apply gather_natural.
  - intros A t t' _. unfold t_getitem. destruct (resolve false (shape t) sl); [|discriminate]. apply gather_wf.
Qed.
Lemma expand_relocates s : relocates (@t_expand s).
Proof.
  split.
  - intros A B g t. unfold t_expand. simpl. destruct (_ <? _); [reflexivity|]. destruct (omapM _ _); [|reflexivity].
    destruct (expand_dims _ _); [|reflexivity]. apply gather_natural.
  - intros A t t' _. unfold t_expand. destruct (_ <? _); [discriminate|]. destruct (omapM _ _); [|discriminate].
    destruct (expand_dims _ _); [|discriminate]. apply gather_wf.
Qed.
Lemma take_along_relocates i d : relocates (@t_take_along i d).
Proof.
  split.
  - intros A B g t. unfold t_take_along. simpl. destruct (negb _); [reflexivity|]. destruct (_ <=? _); [reflexivity|].
    apply gather_natural.
  - intros A t t' _. unfold t_take_along. destruct (negb _); [discriminate|]. destruct (_ <=? _); [discriminate|]. apply gather_wf.
Qed.
Lemma insert_nth_prod k s : prod (insert_nth k 1 s) = prod s.
Proof.
  revert s; induction k as [|k IH]; intros [|n s]; simpl; rewrite ?prod_cons; rewrite ?IH; try lia; reflexivity.
Qed.
Lemma unsqueeze_relocates d : relocates (@t_unsqueeze d).
Proof.
  split.
  - intros A B g t. unfold t_unsqueeze. simpl. destruct (py_index _ d); reflexivity.
  - intros A t t' Hw. unfold t_unsqueeze. destruct (py_index _ d); [|discriminate]. simpl. intros H; injection H as <-.
    unfold wf in *; simpl. now rewrite insert_nth_prod.
Qed.
Lemma id_relocates : relocates (fun A t => Ok t).
Proof. split; [reflexivity|]. intros A t t' Hw H. now injection H as <-. Qed.

(** ** Dequantization of empty and per-tensor data *)
Lemma prod_pos_Forall s : prod s <> 0 -> Forall (fun n => 0 < n) s.
Proof.
  induction s as [|n s IH]; intros H; constructor; rewrite prod_cons in H; [lia|]. apply IH. lia.
Qed.

Lemma dequantize_empty (t : tensor Z) scale ta off : wf t -> numel t = 0 ->
  (forall l, off = Some l -> length l = length scale) ->
  dequantize_by_tile t scale ta off = Ok (mkT (shape t) []).
Proof.
  intros Hw Hn Ho. unfold dequantize_by_tile, tiles_to_rows. rewrite Hn. simpl. unfold numel in Hn.
  destruct t as [s [|x d]]; [|discriminate]. unfold reshape at 1. simpl.
  assert (E : forall n m : nat, list_prod (seq n m) (@nil nat) = []).
  { intros n m. revert n. induction m as [|m IH]; intros n; simpl; auto. }
  assert (R : forall (B P : Type) (f : P -> Z -> result B) ps, rowwise f (mkT [1; 0] []) ps = Ok (mkT [length ps; 0] [])).
  { intros. unfold rowwise. simpl. rewrite orb_true_r. rewrite E. reflexivity. }
  rewrite R. cbn [rbind]. rewrite length_infer_offsets by exact Ho.
  unfold rowwise. cbn [shape data].
  rewrite Nat.eqb_refl. cbn [orb].
  assert (E2 : forall k, list_prod (seq 0 (if k =? 1 then length scale else k)) (seq 0 0) = []) by (intros; apply E).
  rewrite E2. cbn [rmapM rbind]. unfold rows_to_tiles. simpl. unfold reshape. simpl.
  unfold wf in Hw. simpl in Hw. rewrite <- Hw. reflexivity.
Qed.

Definition one_offset (off : option (list Q)) : option Q := nth_offset off 0.

Lemma dequantize_per_tensor (t : tensor Z) s off : wf t -> (forall l, off = Some l -> length l = 1) ->
  dequantize_by_tile t [s] DataShape off = Ok (tmap (dequantize_elem s (one_offset off)) t).
Proof.
  intros Hw Ho. destruct (Nat.eq_dec (numel t) 0) as [H0|H0].
  - rewrite dequantize_empty by auto. destruct t as [sh [|x d]]; [reflexivity|discriminate].
  - assert (HF : Forall (fun n => 0 < n) (shape t)).
    { apply prod_pos_Forall. unfold wf in Hw. rewrite <- Hw. exact H0. }
    assert (Hd : tile_divides (shape t) (resolve_tile (shape t) DataShape)) by (apply self_divides; exact HF).
    assert (Hg : prod (grid (shape t) (shape t)) = 1).
    { clear -HF. induction HF as [|n s Hn HF IH]; [reflexivity|]. unfold grid, zipmap in *. simpl. rewrite prod_cons, IH.
      rewrite Nat.div_same by lia. reflexivity. }
    destruct (dequantize_by_tile_elementwise t [s] DataShape off Hw H0 Hd) as (res & E & S1 & W1 & F1).
    { simpl. symmetry. exact Hg. }
    { exact Ho. }
    rewrite E. f_equal. apply tensor_ext; auto.
    { now apply tmap_wf. }
    intros i Hi. rewrite S1 in Hi. rewrite tmap_at.
    destruct (nth_error_lt_some (data t) (ravel (shape t) i)) as [z Hz].
    { rewrite Hw. now apply ravel_lt. }
    change (at_index t i = Some z) in Hz. destruct (F1 i z Hi Hz) as (s' & Hs' & Hat). rewrite Hat, Hz. cbn [option_map].
    assert (Hrow : tile_row (shape t) (resolve_tile (shape t) DataShape) i = 0).
    { pose proof (tile_row_lt _ _ _ Hd Hi) as L. simpl in L |- *. rewrite Hg in L. lia. }
    rewrite Hrow in *. injection Hs' as <-. reflexivity.
Qed.

Lemma per_tensor_dequantize q : per_tensor q -> exists s, qscale q = [s] /\
  dequantize q = Ok (tmap (dequantize_elem s (one_offset (qoffset q))) (raw q)).
Proof.
  intros (Hw & Hg & Hs & Ho). destruct (qscale q) as [|s [|]] eqn:E; try discriminate.
  exists s. split; [reflexivity|]. unfold dequantize. rewrite Hg. simpl. rewrite E. now apply dequantize_per_tensor.
Qed.

(** C14, per tensor: any relocating operation *)
Lemma per_tensor_op_commutes (f : forall A, tensor A -> result (tensor A)) q : relocates f -> per_tensor q ->
  rbind (apply_and_reattach (f Z) q) dequantize = rbind (dequantize q) (f Q).
Proof.
  intros [Hn Hw] Hq. destruct (per_tensor_dequantize q Hq) as (s & Es & Ed). rewrite Ed. simpl. rewrite Hn.
  unfold apply_and_reattach. destruct (f Z (raw q)) as [d|] eqn:E; [|reflexivity]. simpl.
  assert (Hq' : per_tensor (mkQT d (qscale q) (qoffset q) (qgran q))).
  { destruct Hq as (W & G & S1 & O1). repeat split; auto. simpl. eauto. }
  destruct (per_tensor_dequantize _ Hq') as (s' & Es' & Ed'). simpl in Es'. rewrite Es in Es'. injection Es' as <-.
  exact Ed'.
Qed.

(** ** per channel *)
Inductive irel : list nat -> list nat -> list ditem -> list ditem -> Prop :=
| ir_nil : irel [] [] [] []
| ir_new s p a b : irel s p a b -> irel s p (DNew :: a) (DNew :: b)
| ir_chan_take n s p a b k : k < n -> irel s p a b -> irel (n :: s) (n :: p) (DTake k :: a) (DTake k :: b)
| ir_chan_range n s p a b l : Forall (fun i => i < n) l -> irel s p a b -> irel (n :: s) (n :: p) (DRange l :: a) (DRange l :: b)
| ir_take n s p a b k : k < n -> irel s p a b -> irel (n :: s) (1 :: p) (DTake k :: a) (DTake 0 :: b)
| ir_range n s p a b l : Forall (fun i => i < n) l -> irel s p a b -> irel (n :: s) (1 :: p) (DRange l :: a) (DRange [0] :: b).

(** The parameter coordinate of an index: itself on channel dimensions (size kept), 0 on
    the others. *)
Fixpoint pcoord (p : list nat) (i : list nat) : list nat :=
  match p, i with
  | n :: p', k :: i' => (if n =? 1 then 0 else k) :: pcoord p' i'
  | _, _ => []
  end.

Lemma irel_shape s p a b : irel s p a b -> Forall2 (fun o o' => o' = o \/ o' = 1) (out_shape a) (out_shape b).
Proof. induction 1; simpl; auto; constructor; auto. Qed.

Lemma irel_src s p a b : irel s p a b -> forall j, valid (out_shape a) j ->
  exists i, src_index a j = Some i /\ valid s i /\
    src_index b (pcoord (out_shape b) j) = Some (pcoord p i).
Proof.
  induction 1 as [|s p a b H IH|n s p a b k Hk H IH|n s p a b l Hl H IH|n s p a b k Hk H IH|n s p a b l Hl H IH];
    intros j Hj; simpl in *.
  - inversion Hj; subst. exists []. repeat split; constructor.
  - inversion Hj as [|x y j' s' Hx Hj']; subst. destruct (IH _ Hj') as (i & E1 & V & E2).
    exists i. simpl. auto.
  - destruct (IH _ Hj) as (i & E1 & V & E2). exists (k :: i). rewrite E1, E2. simpl.
    split; [reflexivity|]. split; [constructor; auto|]. f_equal. f_equal. destruct (n =? 1) eqn:En; [|reflexivity].
    apply Nat.eqb_eq in En. lia.
  - inversion Hj as [|x y j' s' Hx Hj']; subst. destruct (IH _ Hj') as (i & E1 & V & E2).
    destruct (nth_error_lt_some l x Hx) as [v Hv]. exists (v :: i). rewrite Hv, E1. simpl.
    assert (Hvn : v < n) by (rewrite Forall_forall in Hl; apply Hl; eapply nth_error_In; eauto).
    split; [reflexivity|]. split; [constructor; auto|].
    assert (Hx' : nth_error l (if length l =? 1 then 0 else x) = Some v).
    { destruct (length l =? 1) eqn:El; [|assumption]. apply Nat.eqb_eq in El. assert (x = 0) by lia. now subst. }
    rewrite Hx', E2. simpl. f_equal. f_equal. destruct (n =? 1) eqn:En; [|reflexivity]. apply Nat.eqb_eq in En. lia.
  - destruct (IH _ Hj) as (i & E1 & V & E2). exists (k :: i). rewrite E1, E2. simpl.
    split; [reflexivity|]. split; [constructor; auto|]. reflexivity.
  - inversion Hj as [|x y j' s' Hx Hj']; subst. destruct (IH _ Hj') as (i & E1 & V & E2).
    destruct (nth_error_lt_some l x Hx) as [v Hv]. exists (v :: i). rewrite Hv, E1. simpl.
    assert (Hvn : v < n) by (rewrite Forall_forall in Hl; apply Hl; eapply nth_error_In; eauto).
    split; [reflexivity|]. split; [constructor; auto|]. rewrite E2. reflexivity.
Qed.

(** pointwise description of param_shape at an offset *)
Definition pshape_at (channels : list nat) (o : nat) (s : list nat) : list nat :=
  map (fun '(i, d) => if existsb (Nat.eqb i) channels then d else 1) (combine (seq o (length s)) s).
Lemma pshape_cons channels o n s :
  pshape_at channels o (n :: s) = (if existsb (Nat.eqb o) channels then n else 1) :: pshape_at channels (S o) s.
Proof. reflexivity. Qed.
Lemma pshape_length channels o s : length (pshape_at channels o s) = length s.
Proof. unfold pshape_at. rewrite map_length, combine_length, seq_length. lia. Qed.

Lemma slice_indices_lt n a b c l : slice_indices n a b c = Ok l -> Forall (fun i => i < n) l.
Proof.
  unfold slice_indices. destruct (_ <=? 0)%Z; [discriminate|]. intros H; injection H as <-.
  apply Forall_forall. intros i Hi. apply filter_In in Hi. destruct Hi as [Hi _]. apply in_seq in Hi. lia.
Qed.
Lemma slice_full n : slice_indices n None None None = Ok (seq 0 n).
Proof.
  unfold slice_indices. simpl. f_equal. rewrite <- (filter_ext_in (fun _ => true)).
  - induction (seq 0 n) as [|x l IH]; simpl; [reflexivity|now rewrite IH].
  - intros i Hi. apply in_seq in Hi. symmetry. rewrite !andb_true_iff. repeat split; try lia.
Qed.

Lemma irel_full channels : forall s o, irel s (pshape_at channels o s) (map full s) (map full (pshape_at channels o s)).
Proof.
  induction s as [|n s IH]; intros o; [constructor|]. rewrite pshape_cons. simpl.
  assert (Forall (fun i => i < n) (seq 0 n)) by (apply Forall_forall; intros i Hi; apply in_seq in Hi; lia).
  destruct (existsb (Nat.eqb o) channels); constructor; auto.
Qed.
Lemma irel_app s p a b s' p' a' b' : irel s p a b -> irel s' p' a' b' -> irel (s ++ s') (p ++ p') (a ++ a') (b ++ b').
Proof. intros H H'. induction H; simpl; try constructor; auto. Qed.

Lemma n_consume_effective ndim channels sl : forall o, n_consume (effective ndim channels o sl) = n_consume sl.
Proof.
  unfold n_consume. induction sl as [|x sl IH]; intros o; simpl; [reflexivity|].
  destruct x; simpl; try (destruct (existsb (Nat.eqb o) channels); simpl); rewrite ?IH; reflexivity.
Qed.

Lemma py_index_1_0 : py_index 1 0 = Ok 0.
Proof. reflexivity. Qed.

Lemma pshape_app channels o s1 s2 : pshape_at channels o (s1 ++ s2) = pshape_at channels o s1 ++ pshape_at channels (o + length s1) s2.
Proof.
  revert o; induction s1 as [|n s1 IH]; intros o; [simpl; now rewrite Nat.add_0_r|].
  simpl app. rewrite !pshape_cons, IH. simpl. now rewrite Nat.add_succ_r.
Qed.

Lemma resolve_effective ndim channels sl : forall seen s o items, o + length s = ndim ->
  resolve seen s sl = Ok items ->
  exists items', resolve seen (pshape_at channels o s) (effective ndim channels o sl) = Ok items' /\
    irel s (pshape_at channels o s) items items'.
Proof.
  induction sl as [|x sl IH]; intros seen s o items Hnd H; simpl in H.
  - injection H as <-. simpl. eexists. split; [reflexivity|]. apply irel_full.
  - destruct x as [i|a b c| |]; simpl.
    + destruct s as [|n s]; [discriminate|]. destruct (py_index n i) as [k|] eqn:Ek; [|discriminate]. simpl in H.
      destruct (resolve seen s sl) as [r|] eqn:Er; [|discriminate]. injection H as <-.
      destruct (IH seen s (S o) r) as (r' & Er' & Hr'); [simpl in Hnd; lia|assumption|].
      rewrite pshape_cons. pose proof (py_index_bound _ _ _ Ek) as Hk.
      destruct (existsb (Nat.eqb o) channels); simpl.
      * rewrite Ek. simpl. rewrite Er'. simpl. eexists. split; [reflexivity|]. now constructor.
      * rewrite Er'. simpl. eexists. split; [reflexivity|]. now constructor.
    + destruct s as [|n s]; [discriminate|]. destruct (slice_indices n a b c) as [l|] eqn:El; [|discriminate]. simpl in H.
      destruct (resolve seen s sl) as [r|] eqn:Er; [|discriminate]. injection H as <-.
      destruct (IH seen s (S o) r) as (r' & Er' & Hr'); [simpl in Hnd; lia|assumption|].
      rewrite pshape_cons. pose proof (slice_indices_lt _ _ _ _ _ El) as Hl.
      destruct (existsb (Nat.eqb o) channels); simpl.
      * rewrite El. simpl. rewrite Er'. simpl. eexists. split; [reflexivity|]. now constructor.
      * rewrite Er'. simpl. eexists. split; [reflexivity|]. now constructor.
    + destruct seen; [discriminate|]. rewrite pshape_length, n_consume_effective.
      destruct (length s <? n_consume sl) eqn:El; [discriminate|]. apply Nat.ltb_ge in El.
      set (k := length s - n_consume sl) in *.
      destruct (resolve true (skipn k s) sl) as [r|] eqn:Er; [|discriminate]. injection H as <-.
      assert (Es : s = firstn k s ++ skipn k s) by (symmetry; apply firstn_skipn).
      assert (Hk : length (firstn k s) = k) by (rewrite firstn_length; lia).
      destruct (IH true (skipn k s) (ndim - n_consume sl) r) as (r' & Er' & Hr'); [rewrite skipn_length; lia|assumption|].
      assert (Eo : ndim - n_consume sl = o + k) by lia.
      assert (Ep : pshape_at channels o s = pshape_at channels o (firstn k s) ++ pshape_at channels (o + k) (skipn k s)).
      { rewrite Es at 1. rewrite pshape_app, Hk. reflexivity. }
      rewrite Ep. rewrite firstn_app, skipn_app, pshape_length, Hk, Nat.sub_diag.
      assert (Ey : firstn k (pshape_at channels o (firstn k s)) = pshape_at channels o (firstn k s)) by (apply firstn_all2; rewrite pshape_length; lia).
      assert (Ez : skipn k (pshape_at channels o (firstn k s)) = []) by (apply skipn_all2; rewrite pshape_length; lia).
      rewrite Ez, Ey. simpl. rewrite app_nil_r. rewrite Eo in *. rewrite Er'. simpl.
      eexists. split; [reflexivity|]. rewrite Es at 1. apply irel_app; [apply irel_full|assumption].
    + destruct (resolve seen s sl) as [r|] eqn:Er; [|discriminate]. injection H as <-.
      destruct (IH seen s o r Hnd Er) as (r' & Er' & Hr'). rewrite Er'. simpl. eexists. split; [reflexivity|]. now constructor.
Qed.

(** The tile of a per-channel granularity, and grid = param_shape. *)
Lemma set_dims_1_mem dims : forall s tile, set_dims_1 dims s = Ok tile ->
  length tile = length s /\
  (forall d, In d dims -> exists k, py_index (length s) d = Ok k) /\
  forall j, j < length s -> nth j tile 0 = if existsb (fun d => match py_index (length s) d with Ok k => j =? k | Err _ => false end) dims
                            then 1 else nth j s 0.
Proof.
  induction dims as [|d dims IH]; intros s tile H; simpl in H.
  - injection H as <-. repeat split; auto. intros d [].
  - unfold py_set in H. destruct (py_index (length s) d) as [k|] eqn:Ek; [|discriminate]. simpl in H.
    destruct (IH _ _ H) as (L & I & N). rewrite set_nth_length in *. split; [assumption|]. split.
    + intros d' [<-|Hd']; eauto.
    + intros j Hj. rewrite N by assumption. simpl. rewrite Ek. rewrite set_nth_nth by (eapply py_index_bound; eassumption).
      destruct (existsb _ dims); [now rewrite orb_true_r|]. rewrite orb_false_r. reflexivity.
Qed.

Lemma nth_pshape channels : forall s o j, j < length s ->
  nth j (pshape_at channels o s) 0 = if existsb (Nat.eqb (o + j)) channels then nth j s 0 else 1.
Proof.
  induction s as [|n s IH]; intros o j Hj; simpl in Hj; [lia|]. rewrite pshape_cons. destruct j; simpl.
  - now rewrite Nat.add_0_r.
  - rewrite IH by lia. rewrite Nat.add_succ_r. reflexivity.
Qed.

Lemma nth_zipmap f a b j : length a = length b -> j < length a -> nth j (zipmap f a b) 0 = f (nth j a 0) (nth j b 0).
Proof.
  revert b j; induction a as [|x a IH]; intros [|y b] j HL Hj; simpl in *; try lia.
  destruct j; [reflexivity|]. unfold zipmap in *. simpl. apply IH; lia.
Qed.

(** canonical channel list *)
Definition chans (ndim : nat) (dims : list Z) : list nat :=
  map Z.to_nat (map (fun c => if (c <? 0)%Z then (Z.of_nat ndim + c)%Z else c) dims).

Lemma py_index_chan n d k : py_index n d = Ok k -> Z.to_nat (if (d <? 0)%Z then (Z.of_nat n + d)%Z else d) = k /\ (0 <= if (d <? 0)%Z then (Z.of_nat n + d)%Z else d)%Z.
Proof.
  unfold py_index. destruct ((0 <=? d)%Z && (d <? Z.of_nat n)%Z) eqn:E1.
  - intros H; injection H as <-. destruct (d <? 0)%Z eqn:E; lia.
  - destruct ((- Z.of_nat n <=? d)%Z && (d <? 0)%Z) eqn:E2; [|discriminate]. intros H; injection H as <-.
    destruct (d <? 0)%Z eqn:E; lia.
Qed.

Lemma channel_tile dims s tile : set_dims_1 dims s = Ok tile -> tile_divides s tile ->
  length tile = length s /\
  (forall j, j < length s -> nth j tile 0 = if existsb (Nat.eqb j) (chans (length s) dims) then 1 else nth j s 0) /\
  grid s tile = pshape_at (chans (length s) dims) 0 s /\
  forallb (fun c => (0 <=? c)%Z) (map (fun c => if (c <? 0)%Z then (Z.of_nat (length s) + c)%Z else c) dims) = true.
Proof.
  intros H HF. destruct (set_dims_1_mem _ _ _ H) as (L & I & N).
  assert (E : forall j, existsb (fun d => match py_index (length s) d with Ok k => j =? k | Err _ => false end) dims =
              existsb (Nat.eqb j) (chans (length s) dims)).
  { intros j. clear N H. induction dims as [|d dims IH]; simpl; [reflexivity|].
    destruct (I d (or_introl eq_refl)) as [k Ek]. rewrite Ek. destruct (py_index_chan _ _ _ Ek) as [Ec _]. rewrite Ec.
    f_equal. apply IH. intros; apply I; now right. }
  assert (N' : forall j, j < length s -> nth j tile 0 = if existsb (Nat.eqb j) (chans (length s) dims) then 1 else nth j s 0).
  { intros j Hj. rewrite N by assumption. now rewrite E. }
  split; [assumption|]. split; [assumption|]. split.
  - apply list_nth_ext.
    + unfold grid. rewrite zipmap_length by lia. now rewrite pshape_length.
    + intros j Hj. unfold grid in *. rewrite zipmap_length in Hj by lia. rewrite nth_zipmap by lia.
      rewrite nth_pshape by lia. rewrite N' by lia. simpl.
      pose proof (N' j ltac:(lia)) as Nj. destruct (tile_divides_nth _ _ j HF ltac:(lia)) as [Hp _].
      destruct (existsb _ _); [apply Nat.div_1_r|apply Nat.div_same; lia].
  - apply forallb_forall. intros c Hc. apply in_map_iff in Hc. destruct Hc as (d & <- & Hd).
    destruct (I d Hd) as [k Ek]. destruct (py_index_chan _ _ _ Ek). lia.
Qed.

Lemma pcoord_tile s tile p i : length tile = length s -> length p = length s -> valid s i ->
  (forall j, j < length s -> (nth j tile 0 = 1 /\ nth j p 0 = nth j s 0) \/ (nth j tile 0 = nth j s 0 /\ nth j p 0 = 1)) ->
  tile_coord i tile = pcoord p i.
Proof.
  revert tile p i; induction s as [|n s IH]; intros [|t tile] [|q p] i Lt Lp V H; simpl in *; try lia.
  - inversion V; subst. reflexivity.
  - inversion V as [|x y i' s' Hx V']; subst. unfold tile_coord, zipmap in *. simpl. f_equal.
    + destruct (H 0 ltac:(lia)) as [[H1 H2]|[H1 H2]]; simpl in H1, H2; subst.
      * rewrite Nat.div_1_r. destruct (n =? 1) eqn:E; [apply Nat.eqb_eq in E; lia|reflexivity].
      * simpl. now apply Nat.div_small.
    + apply IH; auto; try lia. intros j Hj. apply (H (S j)). lia.
Qed.

Lemma at_index_params {A} (l : list A) p i : wf (mkT p l) -> at_index (mkT p l) i = nth_error l (ravel p i).
Proof. reflexivity. Qed.

Lemma filter_dims_mem p : forall o j, j < length p ->
  existsb (Nat.eqb (o + j)) (map fst (filter (fun x => 1 <? snd x) (combine (seq o (length p)) p))) = (1 <? nth j p 0).
Proof.
  induction p as [|n p IH]; intros o j Hj; simpl in *; [lia|].
  assert (Hno : forall o', o < o' -> existsb (Nat.eqb o) (map fst (filter (fun x => 1 <? snd x) (combine (seq o' (length p)) p))) = false).
  { intros o' Ho'. destruct (existsb _ _) eqn:E; [|reflexivity]. apply existsb_exists in E. destruct E as (x & Hx & E).
    apply Nat.eqb_eq in E. subst x. apply in_map_iff in Hx. destruct Hx as ([a b] & Ea & Hx). simpl in Ea. subst a.
    apply filter_In in Hx. destruct Hx as [Hx _]. apply in_combine_l in Hx. apply in_seq in Hx. lia. }
  destruct j.
  - rewrite Nat.add_0_r. destruct (1 <? n) eqn:En; simpl; [now rewrite Nat.eqb_refl|]. apply Hno. lia.
  - replace (o + S j) with (S o + j) by lia. rewrite <- (IH (S o) j) by lia.
    destruct (1 <? n); cbn [map existsb fst]; [|reflexivity].
    assert (S o + j =? o = false) as -> by (apply Nat.eqb_neq; lia). reflexivity.
Qed.

Lemma chans_nat n l : chans n (map Z.of_nat l) = l.
Proof.
  unfold chans. rewrite !map_map. induction l as [|x l IH]; simpl; [reflexivity|].
  rewrite IH. f_equal. destruct (Z.of_nat x <? 0)%Z eqn:E; lia.
Qed.

Lemma set_dims_1_total dims : forall s, (forall d, In d dims -> d < length s) -> exists t, set_dims_1 (map Z.of_nat dims) s = Ok t.
Proof.
  induction dims as [|d dims IH]; intros s H; simpl; [eauto|].
  unfold py_set. rewrite py_index_nat by (apply H; now left). simpl. apply IH. intros d' Hd'. rewrite set_nth_length. apply H. now right.
Qed.

Lemma Forall2_nth_or (a b : list nat) j : Forall2 (fun o o' => o' = o \/ o' = 1) a b -> j < length a ->
  nth j b 0 = nth j a 0 \/ nth j b 0 = 1.
Proof. intros H; revert j; induction H; intros j Hj; simpl in *; [lia|]. destruct j; [assumption|]. apply IHForall2. lia. Qed.

Lemma valid_pcoord p p' : Forall2 (fun o o' => o' = o \/ o' = 1) p p' -> Forall (fun n => 0 < n) p' -> forall j, valid p j -> valid p' (pcoord p' j).
Proof.
  induction 1 as [|o o' p p' Ho H IH]; intros HF j V; inversion V as [|x y j' s' Hx V']; subst; simpl; [constructor|].
  inversion HF; subst. constructor; [|now apply IH].
  destruct (o' =? 1) eqn:E; [lia|]. destruct Ho as [->| ->]; [assumption|]. discriminate.
Qed.

Lemma tile_divides_channel dims s tile : set_dims_1 dims s = Ok tile -> Forall (fun n => 0 < n) s -> tile_divides s tile.
Proof. intros H HF. eapply set_dims_1_divides; [|eassumption]. now apply self_divides. Qed.

(** indexing the reshaped parameter vector *)
Lemma index_params_spec {A} (l : list A) p (items items' : list ditem) s eff :
  length l = prod p -> resolve false p eff = Ok items' -> irel s p items items' ->
  Forall (fun n => 0 < n) (out_shape items) ->
  exists t, (let? v := reshape (mkT [length l] l) p in t_getitem eff v) = Ok t /\ shape t = out_shape items' /\ wf t /\
    forall j i, valid (out_shape items) j -> src_index items j = Some i ->
      nth_error (data t) (ravel (out_shape items') (pcoord (out_shape items') j)) = nth_error l (ravel p (pcoord p i)).
Proof.
  intros HL Hr Hi HF. rewrite reshape_ok by (simpl; congruence). cbn [rbind data]. unfold t_getitem. cbn [shape]. rewrite Hr. cbn [rbind].
  pose proof (irel_shape _ _ _ _ Hi) as HS.
  assert (HF' : Forall (fun n => 0 < n) (out_shape items')).
  { clear -HS HF. induction HS as [|o o' a b Ho H IH]; [constructor|]. inversion HF; subst. constructor; [destruct Ho; subst; auto|auto]. }
  assert (Hall : forall j, valid (out_shape items') j -> exists j0, valid (out_shape items) j0 /\ pcoord (out_shape items') j0 = j).
  { clear -HS HF. induction HS as [|o o' a b Ho H IH]; intros j V; inversion V as [|x y j' s' Hx V']; subst.
    - exists []. split; constructor.
    - inversion HF; subst. destruct (IH H3 _ V') as (j0 & V0 & E0). destruct Ho as [->| ->].
      + exists (x :: j0). split; [constructor; auto|]. simpl. rewrite E0. f_equal. destruct (o =? 1) eqn:E; [apply Nat.eqb_eq in E; lia|reflexivity].
      + exists (0 :: j0). split; [constructor; auto|]. simpl. rewrite E0. f_equal. lia. }
  assert (Hp : forall i, valid s i -> valid p (pcoord p i)).
  { clear -Hi. intros i V. revert i V. induction Hi; intros i V; try (inversion V as [|x y i' s' Hx V']; subst); simpl; try constructor; auto;
      try (now apply IHHi).
    - destruct (n =? 1) eqn:E; lia.
    - destruct (n =? 1) eqn:E; [apply Nat.eqb_eq in E; lia|assumption]. }
  destruct (gather_total (mkT p l) (out_shape items') (src_index items')) as [t Ht].
  { unfold wf; simpl. exact HL. }
  { intros j Hj. destruct (Hall j Hj) as (j0 & V0 & E0). destruct (irel_src _ _ _ _ Hi j0 V0) as (i & E1 & V & E2).
    exists (pcoord p i). rewrite <- E0. split; [assumption|]. simpl. auto. }
  exists t. split; [assumption|]. split; [eapply gather_shape; eassumption|]. split; [eapply gather_wf; eassumption|].
  intros j i Vj Ei. destruct (irel_src _ _ _ _ Hi j Vj) as (i' & E1 & V & E2). rewrite Ei in E1. injection E1 as <-.
  pose proof (gather_at _ _ _ _ (pcoord (out_shape items') j) _ Ht (valid_pcoord _ _ HS HF' _ Vj) E2) as G.
  unfold at_index in G. rewrite (gather_shape _ _ _ _ Ht) in G. exact G.
Qed.

Lemma irel_len s p a b : irel s p a b -> length p = length s.
Proof. induction 1; simpl; congruence. Qed.

Lemma index_params_ok {A} (l : list A) p (items items' : list ditem) s eff :
  length l = prod p -> resolve false p eff = Ok items' -> irel s p items items' ->
  exists t, (let? v := reshape (mkT [length l] l) p in t_getitem eff v) = Ok t /\ shape t = out_shape items' /\ wf t.
Proof.
  intros HL Hr Hi. rewrite reshape_ok by (simpl; congruence). cbn [rbind data]. unfold t_getitem. cbn [shape]. rewrite Hr. cbn [rbind].
  destruct (gather_total (mkT p l) (out_shape items') (src_index items')) as [t Ht].
  { unfold wf; simpl. exact HL. }
  { clear HL Hr. simpl. induction Hi as [|s p a b H IH|n s p a b k Hk H IH|n s p a b l0 Hl H IH|n s p a b k Hk H IH|n s p a b l0 Hl H IH];
      intros j Hj; simpl in *.
    - inversion Hj; subst. exists []. split; constructor.
    - inversion Hj as [|x y j' s' Hx Hj']; subst. now apply IH.
    - destruct (IH _ Hj) as (i & -> & V). eexists. split; [reflexivity|]. constructor; auto.
    - inversion Hj as [|x y j' s' Hx Hj']; subst. destruct (IH _ Hj') as (i & -> & V).
      destruct (nth_error_lt_some l0 x Hx) as [v Hv]. rewrite Hv. eexists. split; [reflexivity|]. constructor; auto.
      rewrite Forall_forall in Hl. apply Hl. eapply nth_error_In; eauto.
    - destruct (IH _ Hj) as (i & -> & V). eexists. split; [reflexivity|]. constructor; auto.
    - inversion Hj as [|x y j' s' Hx Hj']; subst. destruct (IH _ Hj') as (i & -> & V).
      assert (x = 0) by lia. subst. simpl. eexists. split; [reflexivity|]. constructor; auto. }
  exists t. split; [assumption|]. split; [eapply gather_shape; eassumption|eapply gather_wf; eassumption].
Qed.

Lemma dequantize_by_tile_total (t : tensor Z) scale ta off : wf t -> tile_divides (shape t) (resolve_tile (shape t) ta) ->
  length scale = prod (grid (shape t) (resolve_tile (shape t) ta)) -> (forall l, off = Some l -> length l = length scale) ->
  exists r, dequantize_by_tile t scale ta off = Ok r /\ shape r = shape t /\ wf r.
Proof.
  intros Hw Hd Hl Ho. destruct (Nat.eq_dec (numel t) 0) as [H0|H0].
  - rewrite dequantize_empty by auto. eexists. split; [reflexivity|]. split; [reflexivity|]. unfold wf; simpl.
    unfold wf in Hw. unfold numel in H0. congruence.
  - destruct (dequantize_by_tile_elementwise t scale ta off Hw H0 Hd Hl Ho) as (res & E & S1 & W1 & _). eauto.
Qed.

Lemma gather_zero {A} (t : tensor A) s' src : prod s' = 0 -> gather t s' src = Ok (mkT s' []).
Proof. intros H. unfold gather. now rewrite H. Qed.

Lemma getitem_per_channel_commutes sl q ta dims d :
  well_quantized q ta -> qgran q = PerChannel dims -> t_getitem sl (raw q) = Ok d ->
  exists q', k_getitem_per_channel sl q = Ok q' /\ raw q' = d /\ dequantize q' = rbind (dequantize q) (t_getitem sl).
Proof.
  intros (Hw & Hta & Hdiv & Hlen & Hoff) Hg Hd.
  rewrite Hg in Hta. simpl in Hta. destruct (set_dims_1 dims (shape (raw q))) as [tile|] eqn:Et; [|discriminate].
  injection Hta as <-. simpl in Hdiv, Hlen.
  destruct (channel_tile _ _ _ Et Hdiv) as (Lt & Nt & Gt & Fb).
  unfold t_getitem in Hd. destruct (resolve false (shape (raw q)) sl) as [items|] eqn:Er; [|discriminate]. cbn [rbind] in Hd.
  set (ch := chans (length (shape (raw q))) dims) in *. set (p := pshape_at ch 0 (shape (raw q))) in *.
  destruct (resolve_effective (length (shape (raw q))) ch sl false (shape (raw q)) 0 items) as (items' & Er' & Hi); [reflexivity|assumption|].
  fold p in Er', Hi.
  set (eff := effective (length (shape (raw q))) ch 0 sl) in *.
  assert (Hfb : existsb (fun c => (c <? 0)%Z) (map (fun c => if (c <? 0)%Z then (Z.of_nat (length (shape (raw q))) + c)%Z else c) dims) = false).
  { destruct (existsb _ _) eqn:E; [|reflexivity]. apply existsb_exists in E. destruct E as (x & Hx & E).
    rewrite forallb_forall in Fb. specialize (Fb x Hx). lia. }
  assert (Hls : length (qscale q) = prod p) by (rewrite Hlen, Gt; reflexivity).
  destruct (index_params_ok (qscale q) p items items' _ eff Hls Er' Hi) as (ts & Ets & Sts & Wts).
  set (nd := map fst (filter (fun x => 1 <? snd x) (combine (seq 0 (length (shape ts))) (shape ts)))).
  assert (Hoffok : exists off', (match qoffset q with None => Ok None
     | Some o => let? o' := (let? v := reshape (mkT [length o] o) p in t_getitem eff v) in Ok (Some (data o')) end) = Ok off' /\
     (forall l, off' = Some l -> length l = length (data ts)) /\
     (Forall (fun n => 0 < n) (out_shape items) -> forall j i, valid (out_shape items) j -> src_index items j = Some i ->
        nth_offset off' (ravel (out_shape items') (pcoord (out_shape items') j)) = nth_offset (qoffset q) (ravel p (pcoord p i)))).
  { destruct (qoffset q) as [o|] eqn:Eo.
    - assert (Hlo : length o = prod p) by (rewrite (Hoff o eq_refl); exact Hls).
      destruct (index_params_ok o p items items' _ eff Hlo Er' Hi) as (to & Eto & Sto & Wto).
      rewrite Eto. cbn [rbind]. eexists. split; [reflexivity|]. split.
      + intros l E; injection E as <-. unfold wf in *. congruence.
      + intros HF j i Vj Ej. destruct (index_params_spec o p items items' _ eff Hlo Er' Hi HF) as (to' & Eto' & _ & _ & Hat).
        rewrite Eto in Eto'. injection Eto' as <-. specialize (Hat j i Vj Ej). unfold nth_offset. exact Hat.
    - eexists. split; [reflexivity|]. split; [discriminate|]. reflexivity. }
  destruct Hoffok as (off' & Eoff & Loff & Hoff').
  exists (mkQT d (data ts) off' (PerChannel (map Z.of_nat nd))).
  assert (Hk : k_getitem_per_channel sl q = Ok (mkQT d (data ts) off' (PerChannel (map Z.of_nat nd)))).
  { unfold k_getitem_per_channel. rewrite Hg, Hfb. cbv zeta.
    change (map Z.to_nat (map (fun c => if (c <? 0)%Z then (Z.of_nat (length (shape (raw q))) + c)%Z else c) dims)) with ch.
    change (param_shape ch (shape (raw q))) with p. fold eff.
    rewrite Ets. cbn [rbind]. rewrite Eoff. cbn [rbind]. unfold t_getitem at 1. rewrite Er. cbn [rbind]. rewrite Hd. cbn [rbind].
    f_equal. f_equal. f_equal. unfold nd. now rewrite map_map. }
  split; [assumption|]. split; [reflexivity|].
  pose proof (gather_shape _ _ _ _ Hd) as Sd. pose proof (gather_wf _ _ _ _ Hd) as Wd.
  assert (Hnd : forall k, In k nd -> k < length (shape d)).
  { intros k Hk'. unfold nd in Hk'. apply in_map_iff in Hk'. destruct Hk' as ([a b] & Ea & Hk'). simpl in Ea; subst a.
    apply filter_In in Hk'. destruct Hk' as [Hk' _]. apply in_combine_l, in_seq in Hk'. rewrite Sd.
    rewrite (Forall2_length _ _ _ (irel_shape _ _ _ _ Hi)), <- Sts. lia. }
  destruct (set_dims_1_total nd (shape d) Hnd) as [tile' Et'].
  unfold dequantize at 1. cbn [qgran raw tile_size qscale qoffset]. rewrite Et'. cbn [rmap rbind].
  destruct (dequantize_by_tile_total (raw q) (qscale q) (Tile tile) (qoffset q) Hw Hdiv Hlen Hoff) as (r & Eqr & Sr & Wr).
  assert (Edq : dequantize q = Ok r) by (unfold dequantize; rewrite Hg; simpl; rewrite Et; exact Eqr).
  rewrite Edq. cbn [rbind]. unfold t_getitem. rewrite Sr, Er. cbn [rbind].
  destruct (Nat.eq_dec (prod (out_shape items)) 0) as [H0|H0].
  - rewrite gather_zero in Hd by assumption. injection Hd as <-. rewrite gather_zero by assumption.
    rewrite dequantize_empty; [reflexivity|assumption|reflexivity|assumption].
  - pose proof (prod_pos_Forall _ H0) as HF.
    assert (Hdiv' : tile_divides (shape d) tile').
    { eapply tile_divides_channel; [eassumption|]. now rewrite Sd. }
    destruct (channel_tile _ _ _ Et' Hdiv') as (Lt' & Nt' & Gt' & _). rewrite chans_nat in Nt', Gt'.
    pose proof (irel_shape _ _ _ _ Hi) as HS.
    assert (HL2 : length (out_shape items) = length (out_shape items')) by (eapply Forall2_length; eassumption).
    assert (Hmem : forall j, j < length (out_shape items) -> existsb (Nat.eqb j) nd = (1 <? nth j (out_shape items') 0)).
    { intros j Hj. unfold nd. rewrite Sts. apply (filter_dims_mem (out_shape items') 0). lia. }
    assert (HF' : Forall (fun n => 0 < n) (out_shape items')).
    { clear -HS HF. induction HS as [|o o' a b Ho H IH]; [constructor|]. inversion HF; subst. constructor; [destruct Ho; subst; auto|auto]. }
    assert (Hgrid : grid (shape d) tile' = out_shape items').
    { rewrite Gt'. apply list_nth_ext; [rewrite pshape_length, Sd; exact HL2|]. intros j Hj. rewrite pshape_length, Sd in Hj.
      rewrite nth_pshape by (rewrite Sd; exact Hj). simpl. rewrite Hmem by exact Hj. rewrite Sd.
      assert (0 < nth j (out_shape items') 0) by (rewrite Forall_forall in HF'; apply HF'; apply nth_In; lia).
      destruct (Forall2_nth_or _ _ j HS Hj) as [E|E]; destruct (1 <? nth j (out_shape items') 0) eqn:E1; lia. }
    assert (Hnr : numel (raw q) <> 0).
    { destruct (irel_src _ _ _ _ Hi (unravel (out_shape items) 0)) as (i & _ & V & _); [apply unravel_valid; lia|].
      pose proof (ravel_lt _ _ V). unfold numel. unfold wf in Hw. lia. }
    assert (Hnd0 : numel d <> 0) by (unfold numel; rewrite Wd, Sd; exact H0).
    destruct (dequantize_by_tile_elementwise (raw q) (qscale q) (Tile tile) (qoffset q) Hw Hnr Hdiv Hlen Hoff) as (r0 & Er0 & _ & _ & F0).
    rewrite Eqr in Er0. injection Er0 as <-.
    assert (Lts : length (data ts) = prod (grid (shape d) tile')) by (rewrite Hgrid, <- Sts; exact Wts).
    destruct (dequantize_by_tile_elementwise d (data ts) (Tile tile') off' Wd Hnd0 Hdiv' Lts Loff) as (r1 & Er1 & S1 & W1 & F1).
    rewrite Er1.
    destruct (gather_total r (out_shape items) (src_index items)) as [g Hgth].
    { exact Wr. }
    { intros j Vj. destruct (irel_src _ _ _ _ Hi j Vj) as (i & E1 & V & _). exists i. rewrite Sr. auto. }
    rewrite Hgth. f_equal. apply tensor_ext; auto.
    { eapply gather_wf; eassumption. }
    { rewrite S1, Sd. symmetry. eapply gather_shape; eassumption. }
    intros j Vj. rewrite S1 in Vj. pose proof Vj as Vj2. rewrite Sd in Vj2.
    destruct (irel_src _ _ _ _ Hi j Vj2) as (i & Ei & Vi & _).
    rewrite (gather_at _ _ _ _ j i Hgth Vj2 Ei).
    destruct (nth_error_lt_some (data (raw q)) (ravel (shape (raw q)) i)) as [z Hz].
    { rewrite Hw. now apply ravel_lt. }
    change (at_index (raw q) i = Some z) in Hz.
    assert (Hdz : at_index d j = Some z) by (rewrite (gather_at _ _ _ _ j i Hd Vj2 Ei); exact Hz).
    destruct (F0 i z Vi Hz) as (s0 & Hs0 & At0). destruct (F1 j z Vj Hdz) as (s1 & Hs1 & At1).
    rewrite At0, At1. simpl resolve_tile in *.
    assert (R0 : tile_row (shape (raw q)) tile i = ravel p (pcoord p i)).
    { unfold tile_row. rewrite Gt. fold p. f_equal. apply (pcoord_tile (shape (raw q))); [assumption|apply pshape_length|assumption|].
      intros k Hk'. rewrite Nt by assumption. unfold p. rewrite nth_pshape by assumption. simpl.
      destruct (existsb (Nat.eqb k) ch); [left|right]; split; reflexivity. }
    assert (R1 : tile_row (shape d) tile' j = ravel (out_shape items') (pcoord (out_shape items') j)).
    { unfold tile_row. rewrite Hgrid. f_equal. rewrite <- Hgrid. apply (pcoord_tile (shape d)); [assumption|rewrite Hgrid, Sd; now symmetry|assumption|].
      intros k Hk'. rewrite Nt' by assumption. rewrite Gt'. rewrite nth_pshape by assumption. simpl.
      destruct (existsb (Nat.eqb k) nd); [left|right]; split; reflexivity. }
    rewrite R0 in Hs0. rewrite R1 in Hs1. rewrite R0, R1.
    destruct (index_params_spec (qscale q) p items items' _ eff Hls Er' Hi HF) as (ts' & Ets' & _ & _ & Hat).
    rewrite Ets in Ets'. injection Ets' as <-. rewrite (Hat j i Vj2 Ei), Hs0 in Hs1. injection Hs1 as <-.
    rewrite (Hoff' HF j i Vj2 Ei). reflexivity.
Qed.

(** ** unsqueeze with tiles *)
Lemma insert_nth_length {A} k (x : A) l : length (insert_nth k x l) = S (length l).
Proof. revert l; induction k; intros [|y l]; simpl; auto. Qed.
Lemma insert_divides k : forall s tile, tile_divides s tile -> tile_divides (insert_nth k 1 s) (insert_nth k 1 tile).
Proof.
  induction k as [|k IH]; intros s tile H; destruct H as [|n t s tile Hn H]; simpl.
  - constructor; [split; [lia|apply Nat.divide_refl]|constructor].
  - constructor; [split; [lia|apply Nat.divide_refl]|constructor; assumption].
  - constructor; [split; [lia|apply Nat.divide_refl]|constructor].
  - constructor; [assumption|]. now apply IH.
Qed.
Lemma insert_grid k : forall s tile, length s = length tile -> grid (insert_nth k 1 s) (insert_nth k 1 tile) = insert_nth k 1 (grid s tile).
Proof.
  unfold grid, zipmap. induction k as [|k IH]; intros [|n s] [|t tile] H; simpl in *; try discriminate; try reflexivity.
  f_equal. apply IH. lia.
Qed.
Lemma insert_coord k : forall i tile, length i = length tile -> tile_coord (insert_nth k 0 i) (insert_nth k 1 tile) = insert_nth k 0 (tile_coord i tile).
Proof.
  unfold tile_coord, zipmap. induction k as [|k IH]; intros [|n s] [|t tile] H; simpl in *; try discriminate; try reflexivity.
  f_equal. apply IH. lia.
Qed.
Lemma insert_ravel k : forall s i, length i = length s -> ravel (insert_nth k 1 s) (insert_nth k 0 i) = ravel s i.
Proof.
  induction k as [|k IH]; intros [|n s] [|x i] H; simpl in *; try discriminate; try reflexivity.
  rewrite IH by lia. now rewrite insert_nth_prod.
Qed.
Lemma insert_valid_inv k : forall s j, valid (insert_nth k 1 s) j -> exists i, j = insert_nth k 0 i /\ valid s i.
Proof.
  induction k as [|k IH]; intros [|n s] j V; simpl in V; inversion V as [|x y j' s' Hx V']; subst.
  - inversion V'; subst. exists []. split; [simpl; f_equal; lia|constructor].
  - exists j'. split; [simpl; f_equal; lia|assumption].
  - inversion V'; subst. exists []. split; [simpl; f_equal; lia|constructor].
  - destruct (IH _ _ V') as (i & -> & V2). exists (x :: i). split; [reflexivity|]. now constructor.
Qed.

Lemma py_index_mod n d k : py_index (S n) d = Ok k -> Z.to_nat (d mod Z.of_nat (S n)) = k.
Proof.
  unfold py_index. destruct ((0 <=? d)%Z && (d <? Z.of_nat (S n))%Z) eqn:E1.
  - intros H; injection H as <-. rewrite Z.mod_small by lia. reflexivity.
  - destruct ((- Z.of_nat (S n) <=? d)%Z && (d <? 0)%Z) eqn:E2; [|discriminate]. intros H; injection H as <-.
    f_equal. symmetry. apply Z.mod_unique with (-1)%Z; lia.
Qed.

Lemma unsqueeze_per_tile_commutes dim q tile :
  well_quantized q (Tile tile) -> qgran q = PerTile tile ->
  rbind (k_unsqueeze dim q) dequantize = rbind (dequantize q) (t_unsqueeze dim).
Proof.
  intros (Hw & Hta & Hdiv & Hlen & Hoff) Hg. simpl in Hdiv, Hlen.
  destruct (dequantize_by_tile_total (raw q) (qscale q) (Tile tile) (qoffset q) Hw Hdiv Hlen Hoff) as (r & Eqr & Sr & Wr).
  assert (Edq : dequantize q = Ok r) by (unfold dequantize; rewrite Hta; exact Eqr). rewrite Edq. cbn [rbind].
  pose proof (divides_length _ _ Hdiv) as HL.
  unfold k_unsqueeze, t_unsqueeze. rewrite Sr. destruct (py_index (S (length (shape (raw q)))) dim) as [k|] eqn:Ek; [|reflexivity].
  cbn [rbind]. rewrite Hg. rewrite <- HL. rewrite (py_index_mod _ _ _ Ek). cbn [rbind].
  set (q' := mkQT (mkT (insert_nth k 1 (shape (raw q))) (data (raw q))) (qscale q) (qoffset q) (PerTile (insert_nth k 1 tile))).
  assert (Wd : wf (raw q')) by (unfold wf in *; simpl; now rewrite insert_nth_prod).
  assert (Hdiv' : tile_divides (shape (raw q')) (insert_nth k 1 tile)) by (now apply insert_divides).
  unfold dequantize. simpl tile_size. fold q'.
  rewrite check_ok by exact Hdiv'. cbn [rbind]. change (qscale q) with (qscale q'). change (qoffset q) with (qoffset q').
  assert (Hlen' : length (qscale q') = prod (grid (shape (raw q')) (insert_nth k 1 tile))).
  { simpl. rewrite insert_grid by exact HL. now rewrite insert_nth_prod. }
  change (mkT (insert_nth k 1 (shape (raw q))) (data (raw q))) with (raw q').
  assert (Wr' : wf (mkT (insert_nth k 1 (shape (raw q))) (data r))).
  { unfold wf in *. simpl. rewrite insert_nth_prod, Wr, Sr. reflexivity. }
  destruct (Nat.eq_dec (numel (raw q)) 0) as [H0|H0].
  - rewrite dequantize_empty; [|assumption|exact H0|exact Hoff]. cbn [shape]. f_equal. simpl. f_equal.
    unfold wf in *. unfold numel in H0. destruct (data r); [reflexivity|]. simpl in Wr. rewrite Sr in Wr. lia.
  - destruct (dequantize_by_tile_elementwise (raw q) (qscale q) (Tile tile) (qoffset q) Hw H0 Hdiv Hlen Hoff) as (r0 & Er0 & _ & _ & F0).
    rewrite Eqr in Er0. injection Er0 as <-.
    destruct (dequantize_by_tile_elementwise (raw q') (qscale q') (Tile (insert_nth k 1 tile)) (qoffset q') Wd H0 Hdiv' Hlen' Hoff) as (r1 & Er1 & S1 & W1 & F1).
    rewrite Er1. f_equal. apply tensor_ext; [assumption|exact Wr'|exact S1|].
    intros j Vj. rewrite S1 in Vj. pose proof Vj as Vj2. simpl in Vj2. destruct (insert_valid_inv _ _ _ Vj2) as (i & -> & Vi).
    pose proof (valid_length _ _ Vi) as Li.
    destruct (nth_error_lt_some (data (raw q)) (ravel (shape (raw q)) i)) as [z Hz].
    { rewrite Hw. now apply ravel_lt. }
    assert (Hz' : at_index (raw q') (insert_nth k 0 i) = Some z).
    { unfold at_index. simpl. now rewrite insert_ravel. }
    destruct (F0 i z Vi Hz) as (s0 & Hs0 & At0). destruct (F1 _ z Vj Hz') as (s1 & Hs1 & At1).
    assert (Hat : at_index (mkT (insert_nth k 1 (shape (raw q))) (data r)) (insert_nth k 0 i) = at_index r i).
    { unfold at_index. simpl. rewrite insert_ravel, Sr by assumption. reflexivity. }
    rewrite Hat, At0, At1. simpl resolve_tile in *.
    assert (R : tile_row (shape (raw q')) (insert_nth k 1 tile) (insert_nth k 0 i) = tile_row (shape (raw q)) tile i).
    { unfold tile_row. simpl shape. rewrite insert_grid by exact HL. rewrite insert_coord by lia.
      apply insert_ravel. unfold tile_coord, grid. rewrite !zipmap_length; lia. }
    rewrite R in *. simpl qscale in Hs1. rewrite Hs0 in Hs1. injection Hs1 as <-. reflexivity.
Qed.

Lemma unsqueeze_per_tensor_commutes dim q : per_tensor q ->
  rbind (k_unsqueeze dim q) dequantize = rbind (dequantize q) (t_unsqueeze dim).
Proof.
  intros Hq. rewrite <- (per_tensor_op_commutes (@t_unsqueeze dim) q (unsqueeze_relocates dim) Hq).
  unfold k_unsqueeze, apply_and_reattach. destruct Hq as (_ & -> & _). reflexivity.
Qed.

(** ** scalar multiply *)
Lemma at_Forall2 (a b : tensor Q) : wf a -> wf b -> shape a = shape b ->
  (forall i x, valid (shape a) i -> at_index a i = Some x -> exists y, at_index b i = Some y /\ x == y) -> tensor_Qeq a b.
Proof.
  intros Wa Wb S H. split; [assumption|].
  assert (HL : length (data a) = length (data b)) by (unfold wf in *; congruence).
  assert (Hn : forall n x, nth_error (data a) n = Some x -> exists y, nth_error (data b) n = Some y /\ x == y).
  { intros n x Hx. assert (Hlt : n < length (data a)) by (apply nth_error_Some; congruence). unfold wf in *. rewrite Wa in Hlt.
    destruct (H (unravel (shape a) n) x) as (y & Hy & E).
    - now apply unravel_valid.
    - unfold at_index. now rewrite ravel_unravel.
    - unfold at_index in Hy. rewrite <- S, ravel_unravel in Hy by assumption. eauto. }
  clear -HL Hn. revert HL Hn. generalize (data b). induction (data a) as [|x l IH]; intros [|y l'] HL Hn; simpl in HL; try discriminate; constructor.
  - destruct (Hn 0 x eq_refl) as (y' & E & E'). injection E as <-. exact E'.
  - apply IH; [lia|]. intros n z Hz. apply (Hn (Datatypes.S n) z Hz).
Qed.

Lemma nth_error_map_some {A B} (f : A -> B) l n x : nth_error l n = Some x -> nth_error (map f l) n = Some (f x).
Proof. intros H. now rewrite nth_error_map, H. Qed.

Lemma dequantize_elem_scale c s o z : dequantize_elem (s * c) o z == c * dequantize_elem s o z.
Proof. unfold dequantize_elem. destruct o; ring. Qed.

Lemma scalar_multiply_commutes c q ta : well_quantized q ta ->
  exists r r', dequantize q = Ok r /\ dequantize (k_scalar_multiply c q) = Ok r' /\ tensor_Qeq r' (tmap (Qmult c) r).
Proof.
  intros (Hw & Hta & Hdiv & Hlen & Hoff).
  assert (Hlen' : length (map (fun s => s * c)%Q (qscale q)) = prod (grid (shape (raw q)) (resolve_tile (shape (raw q)) ta))) by (now rewrite map_length).
  assert (Hoff' : forall l, qoffset q = Some l -> length l = length (map (fun s => s * c)%Q (qscale q))) by (intros; rewrite map_length; auto).
  destruct (dequantize_by_tile_total _ _ ta (qoffset q) Hw Hdiv Hlen Hoff) as (r & Eqr & Sr & Wr).
  destruct (dequantize_by_tile_total _ _ ta (qoffset q) Hw Hdiv Hlen' Hoff') as (r' & Eqr' & Sr' & Wr').
  exists r, r'. unfold dequantize, k_scalar_multiply. cbn [qgran raw qscale qoffset]. rewrite Hta. cbn [rbind].
  split; [assumption|]. split; [assumption|].
  apply at_Forall2; [assumption|now apply tmap_wf|simpl; congruence|].
  intros i x Vi Hx. rewrite Sr' in Vi.
  assert (H0 : numel (raw q) <> 0).
  { pose proof (ravel_lt _ _ Vi). unfold numel. unfold wf in Hw. lia. }
  destruct (dequantize_by_tile_elementwise _ _ ta (qoffset q) Hw H0 Hdiv Hlen Hoff) as (r0 & Er0 & _ & _ & F0).
  destruct (dequantize_by_tile_elementwise _ _ ta (qoffset q) Hw H0 Hdiv Hlen' Hoff') as (r1 & Er1 & _ & _ & F1).
  rewrite Eqr in Er0. injection Er0 as <-. rewrite Eqr' in Er1. injection Er1 as <-.
  destruct (nth_error_lt_some (data (raw q)) (ravel (shape (raw q)) i)) as [z Hz].
  { rewrite Hw. now apply ravel_lt. }
  destruct (F0 i z Vi Hz) as (s0 & Hs0 & At0). destruct (F1 i z Vi Hz) as (s1 & Hs1 & At1).
  rewrite tmap_at, At0. simpl. eexists. split; [reflexivity|]. rewrite At1 in Hx. injection Hx as <-.
  rewrite (nth_error_map_some _ _ _ _ Hs0) in Hs1. injection Hs1 as <-. apply dequantize_elem_scale.
Qed.

(** ** topk *)
Lemma insert_desc_map {A B} (la : A -> A -> bool) (lb : B -> B -> bool) (f : A -> B) (H : forall x y, la x y = lb (f x) (f y)) x l :
  insert_desc lb (fst x, f (snd x)) (map (fun p => (fst p, f (snd p))) l) = map (fun p => (fst p, f (snd p))) (insert_desc la x l).
Proof.
  induction l as [|y l IH]; simpl; [reflexivity|]. rewrite <- H. destruct (la (snd y) (snd x)); simpl; [reflexivity|]. now rewrite IH.
Qed.
Lemma sort_desc_map {A B} (la : A -> A -> bool) (lb : B -> B -> bool) (f : A -> B) (H : forall x y, la x y = lb (f x) (f y)) l :
  sort_desc lb (map f l) = map (fun p => (fst p, f (snd p))) (sort_desc la l).
Proof.
  unfold sort_desc. rewrite map_length. generalize 0 at 1 2. induction l as [|x l IH]; intros n; simpl; [reflexivity|].
  rewrite IH. apply (insert_desc_map la lb f H (n, x)).
Qed.
Lemma dequantize_elem_leb s o a b (Hs : (0 < s)%Q) : Z.leb a b = Qle_bool (dequantize_elem s o a) (dequantize_elem s o b).
Proof.
  destruct (Z.leb a b) eqn:E; symmetry.
  - apply Qle_bool_iff. apply Z.leb_le in E. assert (QofZ a <= QofZ b)%Q by (now apply (proj1 (QofZ_le _ _))).
    unfold dequantize_elem. nra.
  - destruct (Qle_bool _ _) eqn:E2; [|reflexivity]. exfalso. apply Qle_bool_iff in E2. apply Z.leb_gt in E.
    assert (QofZ b < QofZ a)%Q by (now apply (proj1 (QofZ_lt _ _))). unfold dequantize_elem in E2. nra.
Qed.
Lemma topk_commutes s o largest k l  (Hs : (0 < s)%Q) :
  k_topk_fibre s o largest k l = topk_fibre Qle_bool largest k (map (dequantize_elem s o) l).
Proof.
  unfold k_topk_fibre, topk_fibre. rewrite map_length. destruct (length l <? k); [reflexivity|]. simpl.
  rewrite (sort_desc_map (if largest then Z.leb else fun a b => Z.leb b a)).
  - now rewrite firstn_map.
  - intros x y. destruct largest; now apply dequantize_elem_leb.
Qed.

(** ** cat *)
Definition cat_ok {A} dim (t0 : tensor A) (ts : list (tensor A)) : bool :=
  forallb (fun t => size_eqb (firstn dim (shape t)) (firstn dim (shape t0)) &&
                           size_eqb (skipn (S dim) (shape t)) (skipn (S dim) (shape t0)) &&
                           (length (shape t) =? length (shape t0))) ts.
Lemma skipn_nth_cons (s : list nat) d : d < length s -> skipn d s = nth d s 0 :: skipn (S d) s.
Proof. revert d; induction s as [|n s IH]; intros [|d] H; simpl in *; try lia; [reflexivity|]. apply IH. lia. Qed.
Lemma prod_split (s : list nat) d : d < length s -> prod s = prod (firstn d s) * nth d s 0 * prod (skipn (S d) s).
Proof.
  intros H. rewrite <- (firstn_skipn d s) at 1. rewrite prod_app, (skipn_nth_cons s d H), prod_cons. lia.
Qed.
Lemma flat_map_length_const {A B} (f : A -> list B) l n : (forall x, In x l -> length (f x) = n) -> length (flat_map f l) = length l * n.
Proof.
  induction l as [|x l IH]; intros H; simpl; [reflexivity|]. rewrite app_length, H, IH by (auto using in_eq; intros; apply H; now right). lia.
Qed.
Lemma t_cat_wf {A} dim (ts : list (tensor A)) t : Forall wf ts -> t_cat dim ts = Ok t -> wf t.
Proof.
  intros HW. unfold t_cat. destruct ts as [|t0 ts']; [discriminate|]. set (ts := t0 :: ts') in *.
  destruct (length (shape t0) <=? dim) eqn:Ed; [discriminate|]. apply Nat.leb_gt in Ed.
  destruct (forallb _ ts) eqn:EF; [|discriminate]. intros H; injection H as <-. unfold wf. cbn [data shape].
  assert (Hb : forall o, o < outer dim (shape t0) -> length (flat_map (inner_block dim o) ts) =
             fold_right Nat.add 0 (map (fun t => nth dim (shape t) 0) ts) * prod (skipn (S dim) (shape t0))).
  { intros o Ho. clearbody ts. induction ts as [|u ts IH]; [reflexivity|]. simpl flat_map. rewrite app_length.
    cbn [forallb] in EF. apply andb_true_iff in EF. destruct EF as [Eu EF]. inversion HW as [|? ? Wu HW']; subst.
    rewrite (IH HW' EF). cbn [map fold_right]. apply andb_true_iff in Eu. destruct Eu as [Eu E3]. apply andb_true_iff in Eu. destruct Eu as [E1 E2].
    apply size_eqb_eq in E1, E2. apply Nat.eqb_eq in E3.
    assert (Hi : length (inner_block dim o u) = nth dim (shape u) 0 * prod (skipn (S dim) (shape t0))).
    { unfold inner_block. rewrite firstn_length, skipn_length, Wu.
      rewrite (prod_split (shape u) dim), E1 by lia. rewrite (skipn_nth_cons (shape u) dim), prod_cons, E2 by lia.
      fold (outer dim (shape t0)). set (O := outer dim (shape t0)) in *.
      set (b := nth dim (shape u) 0 * prod (skipn (S dim) (shape t0))).
      replace (O * nth dim (shape u) 0 * prod (skipn (S dim) (shape t0))) with (O * b) by (unfold b; lia).
      nia. }
    rewrite Hi. lia. }
  rewrite (flat_map_length_const _ _ (fold_right Nat.add 0 (map (fun t => nth dim (shape t) 0) ts) * prod (skipn (S dim) (shape t0)))).
  - rewrite seq_length, !prod_app. unfold outer. rewrite prod_cons. reflexivity.
  - intros o Ho. apply in_seq in Ho. apply Hb. lia.
Qed.

Lemma inner_block_map {A B} (f : A -> B) dim o t : inner_block dim o (tmap f t) = map f (inner_block dim o t).
Proof. unfold inner_block. simpl. now rewrite skipn_map, firstn_map. Qed.

Lemma forallb_map' {A B} (f : A -> B) p l : forallb p (map f l) = forallb (fun x => p (f x)) l.
Proof. induction l; simpl; [reflexivity|]. now rewrite IHl. Qed.

(** Concatenating tensors whose entries are images under pointwise equal functions. *)
Lemma t_cat_Qeq dim (f0 : Z -> Q) (qs : list (tensor Z * (Z -> Q))) d :
  (forall q, In q qs -> forall z, snd q z == f0 z) ->
  t_cat dim (map fst qs) = Ok d ->
  exists r, t_cat dim (map (fun q => tmap (snd q) (fst q)) qs) = Ok r /\ tensor_Qeq (tmap f0 d) r.
Proof.
  intros Hf H. destruct qs as [|[t0 g0] qs']; [discriminate|]. cbn [map fst snd] in *. unfold t_cat in *.
  set (qs := (t0, g0) :: qs') in *.
  change (t0 :: map fst qs') with (map fst qs) in H.
  change (tmap g0 t0 :: map (fun q => tmap (snd q) (fst q)) qs') with (map (fun q : tensor Z * (Z -> Q) => tmap (snd q) (fst q)) qs).
  cbn [shape tmap].
  destruct (length (shape t0) <=? dim); [discriminate|].
  rewrite forallb_map' in H. rewrite forallb_map'. cbn [shape tmap].
  match type of H with (if ?c then _ else _) = _ => destruct c; [|discriminate] end.
  match type of H with Ok ?x = _ => assert (Ed : d = x) by congruence end. subst d. clear H. eexists. split; [reflexivity|].
  split; cbn [shape tmap data].
  - f_equal. f_equal. f_equal. rewrite !map_map. reflexivity.
  - clearbody qs. induction (seq 0 (outer dim (shape t0))) as [|o l IH]; cbn [flat_map map]; [constructor|].
    rewrite map_app. apply Forall2_app; [|exact IH]. clear IH.
    induction qs as [|q qs IH]; simpl; [constructor|]. rewrite map_app. apply Forall2_app.
    + rewrite inner_block_map. specialize (Hf q (or_introl eq_refl)). induction (inner_block dim o (fst q)); simpl; constructor; auto.
      symmetry. apply Hf.
    + apply IH. intros q' Hq'. apply Hf. now right.
Qed.

Lemma q1_eqb_one a b s : b = [s] -> q1_eqb a b = true -> exists s', a = [s'] /\ s' == s.
Proof.
  intros -> H. unfold q1_eqb, list_eqb in H. destruct a as [|x [|]]; try discriminate.
  - rewrite andb_true_r in H. exists x. split; [reflexivity|]. now apply Qeq_bool_eq.
  - apply andb_true_iff in H. destruct H. discriminate.
Qed.

Definition same_presence (o1 o2 : option (list Q)) : Prop := o1 = None <-> o2 = None.

Lemma infer_offset_proper a b : a == b -> QofZ (infer_offset (Some a)) == QofZ (infer_offset (Some b)).
Proof. intros H. unfold infer_offset. now rewrite (round_proper _ _ H). Qed.

Lemma cat_pred_all s0 o0 : forall ts s o, length s0 = 1 ->
  cat_predicate (Some s) o ts = true -> Forall per_tensor ts -> Forall (fun q => same_presence (qoffset q) o0) ts ->
  same_presence o o0 ->
  Forall2 Qeq s s0 -> (match o, o0 with Some l, Some l0 => Forall2 Qeq l l0 | _, _ => True end) ->
  Forall (fun q => Forall2 Qeq (qscale q) s0 /\ match qoffset q, o0 with Some l, Some l0 => Forall2 Qeq l l0 | _, _ => True end) ts.
Proof.
  induction ts as [|q ts IH]; intros s o Hs0 H HP HO Hpo Es Eo; constructor.
  all: simpl in H; destruct (qgran q) eqn:Eg; try discriminate; apply andb_true_iff in H; destruct H as [H H3]; apply andb_true_iff in H; destruct H as [H1 H2];
    inversion HP as [|? ? Hq HP']; subst; inversion HO as [|? ? Hoq HO']; subst.
  all: assert (A1 : Forall2 Qeq (qscale q) s0) by (
    destruct s0 as [|x [|]]; try discriminate; inversion Es as [|y ? ? ? Hy Hn]; subst; inversion Hn; subst;
    destruct (q1_eqb_one _ _ y eq_refl H1) as (s' & -> & E); constructor; [now rewrite E|constructor]).
  all: assert (A2 : match qoffset q, o0 with Some l, Some l0 => Forall2 Qeq l l0 | _, _ => True end) by (
    destruct (qoffset q) as [l|] eqn:El; [|exact I]; destruct o0 as [l0|]; [|exact I];
    destruct o as [lo|]; [|exfalso; destruct Hpo as [Hp _]; specialize (Hp eq_refl); discriminate];
    destruct Hq as (_ & _ & _ & Hql); specialize (Hql l El);
    destruct l as [|y [|]]; try discriminate; unfold q1_eqb, list_eqb in H2;
    destruct lo as [|z lo]; [discriminate|]; destruct lo; [|rewrite andb_false_r in H2; discriminate];
    rewrite andb_true_r in H2; apply Qeq_bool_eq in H2;
    inversion Eo as [|? w ? ? Hzw Hn]; subst; inversion Hn; subst; constructor; [now rewrite H2|constructor]).
  - split; assumption.
  - apply (IH (qscale q) (qoffset q)); auto.
Qed.

Lemma one_offset_Qeq s s0 o o0 : s == s0 -> same_presence o o0 ->
  (match o, o0 with Some l, Some l0 => Forall2 Qeq l l0 | _, _ => True end) ->
  (forall l, o = Some l -> length l = 1) -> (forall l, o0 = Some l -> length l = 1) ->
  forall z, dequantize_elem s (one_offset o) z == dequantize_elem s0 (one_offset o0) z.
Proof.
  intros Es Hp Ho L L0 z. unfold dequantize_elem. rewrite Es.
  assert (E : QofZ (infer_offset (one_offset o)) == QofZ (infer_offset (one_offset o0))).
  { destruct o as [l|], o0 as [l0|]; try reflexivity.
    - specialize (L l eq_refl). specialize (L0 l0 eq_refl). destruct l as [|a [|]]; try discriminate. destruct l0 as [|b [|]]; try discriminate.
      inversion Ho; subst. unfold one_offset, nth_offset. simpl nth_error. now apply infer_offset_proper.
    - destruct Hp as [_ Hp]. specialize (Hp eq_refl). discriminate.
    - destruct Hp as [Hp _]. specialize (Hp eq_refl). discriminate. }
  rewrite E. reflexivity.
Qed.

Definition elem_fn (q : qtensor) : Z -> Q :=
  dequantize_elem (nth 0 (qscale q) 0%Q) (one_offset (qoffset q)).
Lemma per_tensor_elem q : per_tensor q -> dequantize q = Ok (tmap (elem_fn q) (raw q)).
Proof. intros H. destruct (per_tensor_dequantize q H) as (s & Es & ->). unfold elem_fn. now rewrite Es. Qed.

Lemma cat_commutes dim ts d :
  Forall per_tensor ts -> cat_predicate None None ts = true ->
  (Forall (fun q => qoffset q = None) ts \/ Forall (fun q => qoffset q <> None) ts) ->
  t_cat dim (map raw ts) = Ok d ->
  exists q' ds r r', k_cat dim ts = Ok q' /\ dequantize q' = Ok r /\
    rmapM dequantize ts = Ok ds /\ t_cat dim ds = Ok r' /\ tensor_Qeq r r'.
Proof.
  intros HP Hpred HO Hd. unfold k_cat. rewrite Hpred. simpl negb. cbv iota. destruct ts as [|q0 ts]; [discriminate|].
  rewrite Hd. cbn [rbind]. set (q' := mkQT d (qscale q0) (qoffset q0) (qgran q0)).
  assert (Hq0 : per_tensor q0) by (now inversion HP).
  assert (Hq' : per_tensor q').
  { destruct Hq0 as (W & G & S1 & O1). split; [|split; [|split]]; auto. simpl. eapply t_cat_wf; [|eassumption].
    apply Forall_map. eapply Forall_impl; [|exact HP]. intros q Hq. apply Hq. }
  assert (Hall : Forall (fun q => forall z, elem_fn q z == elem_fn q0 z) (q0 :: ts)).
  { constructor; [reflexivity|]. simpl in Hpred. destruct (qgran q0) eqn:Eg; try discriminate.
    simpl in Hpred. inversion HP as [|? ? _ HP']; subst.
    assert (Hpres : Forall (fun q => same_presence (qoffset q) (qoffset q0)) ts).
    { destruct HO as [HO|HO]; inversion HO as [|? ? H0 HO']; subst; (eapply Forall_impl; [|exact HO']); intros q Hq; cbv beta in *; unfold same_presence; split; intros; congruence. }
    pose proof Hq0 as (_ & _ & S0 & L0).
    pose proof (cat_pred_all (qscale q0) (qoffset q0) ts (qscale q0) (qoffset q0) S0 Hpred HP' Hpres) as HA.
    assert (R : forall l, Forall2 Qeq l l) by (induction l; constructor; auto; reflexivity).
    specialize (HA ltac:(unfold same_presence; tauto) (R _)).
    assert (HA' : Forall (fun q => Forall2 Qeq (qscale q) (qscale q0) /\ match qoffset q, qoffset q0 with Some l, Some l0 => Forall2 Qeq l l0 | _, _ => True end) ts).
    { apply HA. destruct (qoffset q0); auto. }
    clear HA. rewrite Forall_forall in *. intros q Hq z. destruct (HA' q Hq) as [E1 E2]. pose proof (HP' q Hq) as (_ & _ & _ & Lq).
    unfold elem_fn. apply one_offset_Qeq; auto.
    destruct (qscale q0) as [|a [|]]; try discriminate. inversion E1 as [|x ? ? ? Hx Hn]; subst. exact Hx. }
  assert (Hdq : rmapM dequantize (q0 :: ts) = Ok (map (fun q => tmap (elem_fn q) (raw q)) (q0 :: ts))).
  { clear -HP. induction HP as [|q l Hq HP IH]; [reflexivity|]. cbn [rmapM]. rewrite (per_tensor_elem q Hq). cbn [rbind]. rewrite IH. reflexivity. }
  destruct (t_cat_Qeq dim (elem_fn q0) (map (fun q => (raw q, elem_fn q)) (q0 :: ts)) d) as (r & Er & HR).
  { intros p Hp z. apply in_map_iff in Hp. destruct Hp as (q & <- & Hq). simpl. rewrite Forall_forall in Hall. now apply Hall. }
  { rewrite map_map. exact Hd. }
  rewrite map_map in Er.
  exists q'. eexists. exists (tmap (elem_fn q0) d). exists r. split; [reflexivity|]. split.
  { rewrite (per_tensor_elem q' Hq'). reflexivity. }
  split; [exact Hdq|]. split; [exact Er|exact HR].
Qed.

(** ** Counterexamples *)
Definition unsq_q : qtensor := mkQT (mkT [2; 2] [1; 2; 3; 4]%Z) [1; 2]%Q None (PerChannel [1%Z]).
Lemma unsqueeze_per_channel_wrong :
  well_quantized unsq_q (Tile [2; 1]) /\
  exists q' r r', k_unsqueeze 0 unsq_q = Ok q' /\ rbind (dequantize unsq_q) (t_unsqueeze 0) = Ok r /\
    dequantize q' = Ok r' /\ ~ tensor_Qeq r' r.
Proof.
  split.
  - split; [reflexivity|]. split; [reflexivity|]. split.
    + constructor; [split; [simpl; lia|exists 1; reflexivity]|constructor; [split; [simpl; lia|exists 2; reflexivity]|constructor]].
    + split; [reflexivity|discriminate].
  - do 3 eexists. split; [reflexivity|]. split; [vm_compute; reflexivity|]. split; [vm_compute; reflexivity|].
    intros [_ H].
    repeat match goal with H : Forall2 _ _ _ |- _ => inversion H; clear H; subst end; discriminate.
Qed.
Definition cat_a : qtensor := mkQT (mkT [1] [1%Z]) [1]%Q None PerTensor.
Definition cat_b : qtensor := mkQT (mkT [1] [1%Z]) [1]%Q (Some [5]%Q) PerTensor.
Lemma cat_loses_offset :
  Forall per_tensor [cat_a; cat_b] /\ cat_predicate None None [cat_a; cat_b] = true /\
  exists q' r ds r', k_cat 0 [cat_a; cat_b] = Ok q' /\ dequantize q' = Ok r /\
    rmapM dequantize [cat_a; cat_b] = Ok ds /\ t_cat 0 ds = Ok r' /\ ~ tensor_Qeq r r'.
Proof.
  split; [|split].
  - repeat constructor; simpl; try discriminate. intros o H; injection H as <-; reflexivity.
  - reflexivity.
  - do 4 eexists. split; [reflexivity|]. split; [vm_compute; reflexivity|]. split; [vm_compute; reflexivity|]. split; [vm_compute; reflexivity|].
    intros [_ H]. repeat match goal with H : Forall2 _ _ _ |- _ => inversion H; clear H; subst end; discriminate.
Qed.
