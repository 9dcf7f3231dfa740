From Verif Require Import Prelude TilingModel TilingSpec TilingProofs GranularityModel GranularityProofs
  AffineModel AffineSpec AffineProofs AffineTensorProofs OverrideModel OverrideProofs RangeModel RangeSpec.
From Coq Require Import QArith Qminmax Qabs Lqa.
Local Open Scope nat_scope.

(** ** Rows and tiles *)
Lemma row_nth {A} (r : tensor A) n m i j : shape r = [n; m] -> wf r -> i < n -> j < m ->
  nth_error (row r i) j = at_index r [i; j].
Proof.
  intros S W Hi Hj. unfold row, at_index. rewrite S. simpl ravel.
  assert (HL : length (data r) = n * m) by (unfold wf in W; rewrite W, S; unfold prod; simpl; lia).
  replace (i * prod [m] + (j * prod [] + 0)) with (i * m + j) by (unfold prod; simpl; lia).
  assert (G : forall (l : list A) a b, nth_error (skipn a l) b = nth_error l (a + b)).
  { induction l as [|x l IH]; intros [|a] b; simpl; auto; now destruct b. }
  assert (F : forall (l : list A) a b, b < a -> nth_error (firstn a l) b = nth_error l b).
  { induction l as [|x l IH]; intros [|a] [|b] H; simpl; auto; try lia. apply IH; lia. }
  rewrite F by assumption. apply G.
Qed.
Lemma row_length {A} (r : tensor A) n m i : shape r = [n; m] -> wf r -> i < n -> length (row r i) = m.
Proof.
  intros S W Hi. unfold row. rewrite S. rewrite firstn_length, skipn_length.
  assert (HL : length (data r) = n * m) by (unfold wf in W; rewrite W, S; unfold prod; simpl; lia). nia.
Qed.

Lemma fold_min_in l : forall a, In (fold_left Qmin l a) (a :: l).
Proof.
  induction l as [|x l IH]; intros a; simpl; [now left|].
  assert (E : Qmin a x = a \/ Qmin a x = x) by (unfold Qmin, GenericMinMax.gmin; destruct (Qcompare a x); auto).
  destruct (IH (Qmin a x)) as [H|H]; [|now right; right]. rewrite <- H. destruct E as [-> | ->]; auto.
Qed.
Lemma fold_max_in l : forall a, In (fold_left Qmax l a) (a :: l).
Proof.
  induction l as [|x l IH]; intros a; simpl; [now left|].
  assert (E : Qmax a x = a \/ Qmax a x = x) by (unfold Qmax, GenericMinMax.gmax; destruct (Qcompare a x); auto).
  destruct (IH (Qmax a x)) as [H|H]; [|now right; right]. rewrite <- H. destruct E as [-> | ->]; auto.
Qed.
Lemma list_min_is l x : list_min l = Ok x -> is_min (fun y => In y l) x.
Proof.
  intros H. split; [|intros y Hy; eapply list_min_le; eauto]. destruct l as [|a l]; [discriminate|].
  simpl in H. injection H as <-. apply fold_min_in.
Qed.
Lemma list_max_is l x : list_max l = Ok x -> is_max (fun y => In y l) x.
Proof.
  intros H. split; [|intros y Hy; eapply list_max_ge; eauto]. destruct l as [|a l]; [discriminate|].
  simpl in H. injection H as <-. apply fold_max_in.
Qed.

Lemma is_min_ext (P P' : Q -> Prop) x : (forall y, P y <-> P' y) -> is_min P x -> is_min P' x.
Proof. intros H [H1 H2]. split; [now apply H|]. intros y Hy. apply H2. now apply H. Qed.
Lemma is_max_ext (P P' : Q -> Prop) x : (forall y, P y <-> P' y) -> is_max P x -> is_max P' x.
Proof. intros H [H1 H2]. split; [now apply H|]. intros y Hy. apply H2. now apply H. Qed.

Lemma param_dim g n b : batch_ok g n b -> parameter_dimensionality g (shape b) = Ok n.
Proof.
  intros (W & N & ta & T & D & P). unfold parameter_dimensionality. rewrite T. cbn [rbind].
  assert (HP : prod (shape b) <> 0) by (unfold wf, numel in *; congruence).
  destruct ta as [|t]; simpl in *.
  - f_equal. rewrite <- P. pose proof (divides_grid _ _ D) as E. nia.
  - pose proof (divides_prod_pos _ _ D) as Hp. destruct (prod t =? 0) eqn:E; [apply Nat.eqb_eq in E; lia|].
    f_equal. rewrite (divides_grid _ _ D), P. apply Nat.div_mul. lia.
Qed.

Lemma batch_extremes_spec g n b : batch_ok g n b ->
  exists mn mx, batch_extremes g b = Ok (mn, mx) /\ length mn = n /\ length mx = n /\
    forall k x, (nth_error mn k = Some x -> is_min (tile_value g b k) x) /\
                (nth_error mx k = Some x -> is_max (tile_value g b k) x).
Proof.
  intros (W & N & ta & T & D & P). unfold batch_extremes. rewrite T. cbn [rbind].
  destruct (tiling_round_trip b ta W D) as (r & Er & _). rewrite Er. cbn [rbind].
  destruct (rows_are_tiles b ta r W N D Er) as (Wr & Sr & F). set (tile := resolve_tile (shape b) ta) in *.
  rewrite P in Sr. set (m := prod tile) in *.
  assert (Hm : 0 < m) by (apply (divides_prod_pos _ _ D)).
  assert (Hrow : forall k x, k < n -> (In x (row r k) <-> tile_value g b k x)).
  { intros k x Hk. split.
    - intros Hin. apply In_nth_error in Hin. destruct Hin as [j Hj].
      assert (Hjm : j < m) by (rewrite <- (row_length r n m k Sr Wr Hk); apply nth_error_Some; congruence).
      rewrite (row_nth r n m k j Sr Wr Hk Hjm) in Hj.
      destruct (tile_position_surjective (shape b) tile k j D) as (idx & V & E1 & E2); [lia|assumption|].
      exists ta, idx. split; [assumption|]. split; [assumption|]. split; [exact E1|].
      destruct (F idx V) as [_ E]. rewrite E1, E2 in E. congruence.
    - intros (ta' & idx & T' & V & E1 & E). rewrite T in T'. injection T' as <-.
      destruct (F idx V) as [V2 E2]. fold tile in E1. unfold tile_row in E1. rewrite E1 in V2, E2.
      rewrite Sr in V2. inversion V2 as [|? ? ? ? _ V3]; subst. inversion V3 as [|? ? ? ? Hj _]; subst.
      eapply nth_error_In. rewrite (row_nth r _ m _ _ Sr Wr Hk Hj). rewrite E2. exact E. }
  unfold row_mins, row_maxs. rewrite Sr.
  assert (Hne : forall i, In i (seq 0 n) -> row r i <> []).
  { intros i Hi. apply in_seq in Hi. intros E. pose proof (row_length r n m i Sr Wr ltac:(lia)) as L. rewrite E in L. simpl in L. lia. }
  destruct (rmapM_total (fun i => list_min (row r i)) (seq 0 n)) as [mn Emn].
  { intros i Hi. specialize (Hne i Hi). destruct (row r i); [easy|]. simpl. eauto. }
  destruct (rmapM_total (fun i => list_max (row r i)) (seq 0 n)) as [mx Emx].
  { intros i Hi. specialize (Hne i Hi). destruct (row r i); [easy|]. simpl. eauto. }
  rewrite Emn, Emx. cbn [rbind]. exists mn, mx. split; [reflexivity|].
  pose proof (rmapM_length _ _ _ Emn) as L1. pose proof (rmapM_length _ _ _ Emx) as L2. rewrite seq_length in *.
  split; [assumption|]. split; [assumption|]. intros k x. split; intros Hx.
  - assert (Hk : k < n) by (rewrite <- L1; apply nth_error_Some; congruence).
    assert (Hs : nth_error (seq 0 n) k = Some k).
    { rewrite (nth_error_nth' _ 0) by (rewrite seq_length; lia). now rewrite seq_nth by lia. }
    destruct (rmapM_nth _ _ _ _ _ Emn Hs) as (c & Hc & E). rewrite Hx in Hc. injection Hc as <-.
    apply (is_min_ext (fun y => In y (row r k))); [intros y; now apply Hrow|now apply list_min_is].
  - assert (Hk : k < n) by (rewrite <- L2; apply nth_error_Some; congruence).
    assert (Hs : nth_error (seq 0 n) k = Some k).
    { rewrite (nth_error_nth' _ 0) by (rewrite seq_length; lia). now rewrite seq_nth by lia. }
    destruct (rmapM_nth _ _ _ _ _ Emx Hs) as (c & Hc & E). rewrite Hx in Hc. injection Hc as <-.
    apply (is_max_ext (fun y => In y (row r k))); [intros y; now apply Hrow|now apply list_max_is].
Qed.

Lemma run_snoc {S B} (step : S -> B -> result S) st bs b :
  run_batches step st (bs ++ [b]) = rbind (run_batches step st bs) (fun s => step s b).
Proof. unfold run_batches. now rewrite fold_left_app. Qed.

Lemma bcast_same {A B C} (f : A -> B -> C) a b : length a = length b ->
  bcast f a b = Ok (map (fun '(x, y) => f x y) (combine a b)).
Proof. intros H. unfold bcast. now rewrite H, Nat.eqb_refl. Qed.
Lemma combine_repeat {A B} (x : A) (l : list B) : combine (repeat x (length l)) l = map (fun y => (x, y)) l.
Proof. induction l; simpl; [reflexivity|]. now rewrite IHl. Qed.
Lemma bcast_repeat {A B C} (f : A -> B -> C) x b n : length b = n -> bcast f (repeat x n) b = Ok (map (f x) b).
Proof.
  intros <-. rewrite bcast_same by apply repeat_length. rewrite combine_repeat, map_map. reflexivity.
Qed.
Lemma bcast_Fin (f : ext -> Q -> ext) (g : Q -> Q -> Q) (H : forall a x, f (Fin a) x = Fin (g a x)) a b :
  length a = length b -> bcast f (map Fin a) b = Ok (map Fin (map (fun '(x, y) => g x y) (combine a b))).
Proof.
  intros L. rewrite bcast_same by (now rewrite map_length). f_equal. rewrite map_map. revert b L.
  induction a as [|x a IH]; intros [|y b] L; simpl in *; try discriminate; [reflexivity|]. rewrite H. f_equal. apply IH. lia.
Qed.
Lemma nth_combine_map {A B C} (f : A -> B -> C) a b k z :
  nth_error (map (fun '(x, y) => f x y) (combine a b)) k = Some z ->
  exists x y, nth_error a k = Some x /\ nth_error b k = Some y /\ z = f x y.
Proof.
  revert b k; induction a as [|x a IH]; intros [|y b] [|k] H; simpl in *; try discriminate.
  - injection H as <-. eauto.
  - eauto.
Qed.

Lemma is_min_union P P' x y : is_min P x -> is_min P' y -> is_min (fun z => P z \/ P' z) (Qmin x y).
Proof.
  intros [H1 H2] [H3 H4]. assert (E : Qmin x y = x \/ Qmin x y = y) by (unfold Qmin, GenericMinMax.gmin; destruct (Qcompare x y); auto).
  pose proof (Q.le_min_l x y). pose proof (Q.le_min_r x y). split.
  - destruct E as [-> | ->]; auto.
  - intros z [Hz|Hz]; [specialize (H2 z Hz)|specialize (H4 z Hz)]; lra.
Qed.
Lemma is_max_union P P' x y : is_max P x -> is_max P' y -> is_max (fun z => P z \/ P' z) (Qmax x y).
Proof.
  intros [H1 H2] [H3 H4]. assert (E : Qmax x y = x \/ Qmax x y = y) by (unfold Qmax, GenericMinMax.gmax; destruct (Qcompare x y); auto).
  pose proof (Q.le_max_l x y). pose proof (Q.le_max_r x y). split.
  - destruct E as [-> | ->]; auto.
  - intros z [Hz|Hz]; [specialize (H2 z Hz)|specialize (H4 z Hz)]; lra.
Qed.

Lemma seen_snoc g bs b k x : seen g (bs ++ [b]) k x <-> seen g bs k x \/ tile_value g b k x.
Proof.
  split.
  - intros (b' & Hin & H). apply in_app_or in Hin. destruct Hin as [Hin|[<-|[]]]; [left; exists b'; auto|now right].
  - intros [(b' & Hin & H)|H]; [exists b'|exists b]; (split; [apply in_or_app|assumption]); simpl; auto.
Qed.
Lemma seen_nil g k x : ~ seen g [] k x.
Proof. intros (b & [] & _). Qed.

(** The running estimator from an arbitrary finite range, and from none. *)
Lemma running_from_range g n lo hi bs : length lo = n -> length hi = n -> Forall (batch_ok g n) bs ->
  exists mn mx, run_batches (running_step g) (Some (map Fin lo), Some (map Fin hi)) bs = Ok (Some (map Fin mn), Some (map Fin mx)) /\
    length mn = n /\ length mx = n /\
    forall k x, (nth_error mn k = Some x -> is_min (fun y => nth_error lo k = Some y \/ seen g bs k y) x) /\
                (nth_error mx k = Some x -> is_max (fun y => nth_error hi k = Some y \/ seen g bs k y) x).
Proof.
  intros Ll Lh. induction bs as [|b bs IH] using rev_ind; intros HB.
  - exists lo, hi. split; [reflexivity|]. split; [assumption|]. split; [assumption|]. intros k x; split; intros H; split; auto.
    + intros y [Hy|Hy]; [rewrite H in Hy; injection Hy as <-; apply Qle_refl|now apply seen_nil in Hy].
    + intros y [Hy|Hy]; [rewrite H in Hy; injection Hy as <-; apply Qle_refl|now apply seen_nil in Hy].
  - apply Forall_app in HB. destruct HB as [HB Hb]. apply Forall_inv in Hb. destruct (IH HB) as (mn & mx & E & L1 & L2 & H).
    rewrite run_snoc, E. cbn [rbind]. unfold running_step, init_buffers. rewrite (param_dim _ _ _ Hb). cbn [rbind fst snd].
    destruct (batch_extremes_spec g n b Hb) as (dn & dx & Ed & M1 & M2 & Hd). rewrite Ed. cbn [rbind].
    rewrite (bcast_Fin _ Qmin) by (reflexivity || congruence). cbn [rbind].
    rewrite (bcast_Fin _ Qmax) by (reflexivity || congruence). cbn [rbind].
    eexists. eexists. split; [reflexivity|]. rewrite !map_length, !combine_length. split; [lia|]. split; [lia|].
    intros k x. split; intros Hx; apply nth_combine_map in Hx; destruct Hx as (u & v & Hu & Hv & ->).
    + eapply is_min_ext; [|apply is_min_union; [apply (proj1 (H k u) Hu)|apply (proj1 (Hd k v) Hv)]].
      intros y. cbv beta. rewrite seen_snoc. tauto.
    + eapply is_max_ext; [|apply is_max_union; [apply (proj2 (H k u) Hu)|apply (proj2 (Hd k v) Hv)]].
      intros y. cbv beta. rewrite seen_snoc. tauto.
Qed.

Lemma run_cons {S B} (step : S -> B -> result S) st b bs s :
  step st b = Ok s -> run_batches step st (b :: bs) = run_batches step s bs.
Proof. intros H. unfold run_batches. simpl. now rewrite H. Qed.

Lemma running_fresh g n bs : bs <> [] -> Forall (batch_ok g n) bs ->
  exists mn mx, run_batches (running_step g) (None, None) bs = Ok (Some (map Fin mn), Some (map Fin mx)) /\
    length mn = n /\ length mx = n /\
    forall k x, (nth_error mn k = Some x -> is_min (seen g bs k) x) /\
                (nth_error mx k = Some x -> is_max (seen g bs k) x).
Proof.
  intros Hne HB. destruct bs as [|b bs]; [easy|]. inversion HB as [|? ? Hb HB']; subst.
  destruct (batch_extremes_spec g n b Hb) as (dn & dx & Ed & M1 & M2 & Hd).
  assert (E1 : running_step g (None, None) b = Ok (Some (map Fin dn), Some (map Fin dx))).
  { unfold running_step, init_buffers. rewrite (param_dim _ _ _ Hb). cbn [rbind fst snd]. rewrite Ed. cbn [rbind].
    rewrite !bcast_repeat by assumption. reflexivity. }
  rewrite (run_cons _ _ _ _ _ E1).
  destruct (running_from_range g n dn dx bs M1 M2 HB') as (mn & mx & E & L1 & L2 & H).
  exists mn, mx. split; [assumption|]. split; [assumption|]. split; [assumption|].
  intros k x. split; intros Hx.
  - destruct (proj1 (H k x) Hx) as [Hin Hle]. split.
    + destruct Hin as [Hin|(b' & Hb' & Hv)]; [exists b; split; [now left|apply (proj1 (Hd k x) Hin)]|exists b'; split; [now right|assumption]].
    + intros y (b' & [<-|Hb'] & Hv).
      * assert (Hk : k < length dn) by (rewrite M1, <- L1; apply nth_error_Some; congruence).
        destruct (nth_error_lt_some dn k Hk) as [u Hu]. specialize (Hle u (or_introl Hu)).
        pose proof (proj2 (proj1 (Hd k u) Hu) y Hv). lra.
      * apply Hle. right. exists b'; auto.
  - destruct (proj2 (H k x) Hx) as [Hin Hle]. split.
    + destruct Hin as [Hin|(b' & Hb' & Hv)]; [exists b; split; [now left|apply (proj2 (Hd k x) Hin)]|exists b'; split; [now right|assumption]].
    + intros y (b' & [<-|Hb'] & Hv).
      * assert (Hk : k < length dx) by (rewrite M2, <- L2; apply nth_error_Some; congruence).
        destruct (nth_error_lt_some dx k Hk) as [u Hu]. specialize (Hle u (or_introl Hu)).
        pose proof (proj2 (proj2 (Hd k u) Hu) y Hv). lra.
      * apply Hle. right. exists b'; auto.
Qed.

Lemma is_min_unique P x y : is_min P x -> is_min P y -> x == y.
Proof. intros [H1 H2] [H3 H4]. specialize (H2 y H3). specialize (H4 x H1). lra. Qed.
Lemma is_max_unique P x y : is_max P x -> is_max P y -> x == y.
Proof. intros [H1 H2] [H3 H4]. specialize (H2 y H3). specialize (H4 x H1). lra. Qed.

Lemma Forall2_nth_intro {A B} (R : A -> B -> Prop) a b : length a = length b ->
  (forall k x y, nth_error a k = Some x -> nth_error b k = Some y -> R x y) -> Forall2 R a b.
Proof.
  revert b; induction a as [|x a IH]; intros [|y b] L H; simpl in *; try discriminate; constructor.
  - apply (H 0 x y); reflexivity.
  - apply IH; [lia|]. intros k u v. apply (H (S k)).
Qed.

Lemma running_split_independent g n bs bs' : bs <> [] -> bs' <> [] -> Forall (batch_ok g n) bs -> Forall (batch_ok g n) bs' ->
  (forall k x, seen g bs k x <-> seen g bs' k x) ->
  exists mn mx mn' mx', run_batches (running_step g) (None, None) bs = Ok (Some (map Fin mn), Some (map Fin mx)) /\
    run_batches (running_step g) (None, None) bs' = Ok (Some (map Fin mn'), Some (map Fin mx')) /\
    Forall2 Qeq mn mn' /\ Forall2 Qeq mx mx'.
Proof.
  intros N N' HB HB' Hs. destruct (running_fresh g n bs N HB) as (mn & mx & E & L1 & L2 & H).
  destruct (running_fresh g n bs' N' HB') as (mn' & mx' & E' & L1' & L2' & H').
  exists mn, mx, mn', mx'. split; [assumption|]. split; [assumption|]. split; apply Forall2_nth_intro; try congruence; intros k x y Hx Hy.
  - eapply is_min_unique; [apply (proj1 (H k x) Hx)|]. eapply is_min_ext; [|apply (proj1 (H' k y) Hy)]. intros; symmetry; apply Hs.
  - eapply is_max_unique; [apply (proj2 (H k x) Hx)|]. eapply is_max_ext; [|apply (proj2 (H' k y) Hy)]. intros; symmetry; apply Hs.
Qed.

(** Estimated ranges do not clip seen data. *)
Lemma running_no_clipping g n bs k x b sym allow ss oo mn mx :
  bs <> [] -> Forall (batch_ok g n) bs ->
  run_batches (running_step g) (None, None) bs = Ok (Some (map Fin mn), Some (map Fin mx)) ->
  parameters_for_range (combine mn mx) b sym allow = Ok (ss, oo) ->
  seen g bs k x -> (exists y, seen g bs k y /\ ~ y == x) ->
  exists s, nth_error ss k = Some s /\
    (fst (quantization_range s (nth_offset oo k) b) <= x <= snd (quantization_range s (nth_offset oo k) b))%Q.
Proof.
  intros N HB E EP Hx (y & Hy & Hne). destruct (running_fresh g n bs N HB) as (mn' & mx' & E' & L1 & L2 & H).
  rewrite E in E'. injection E' as E1 E2.
  assert (Inj : forall a b, map Fin a = map Fin b -> a = b).
  { induction a as [|u a IH]; intros [|v c] Heq; simpl in *; try discriminate; [reflexivity|]. injection Heq as <- Heq. f_equal; auto. }
  apply Inj in E1, E2. subst mn' mx'.
  assert (Hk : k < n).
  { destruct Hx as (bb & Hin & ta & idx & T & V & R & _). rewrite Forall_forall in HB. destruct (HB bb Hin) as (_ & _ & ta' & T' & D & P).
    rewrite T in T'. injection T' as <-. rewrite <- P, <- R. now apply tile_row_lt. }
  destruct (nth_error_lt_some mn k) as [u Hu]; [lia|]. destruct (nth_error_lt_some mx k) as [v Hv]; [lia|].
  destruct (proj1 (H k u) Hu) as [_ Hmin]. destruct (proj2 (H k v) Hv) as [_ Hmax].
  pose proof (Hmin x Hx). pose proof (Hmax x Hx). pose proof (Hmin y Hy). pose proof (Hmax y Hy).
  assert (u < v)%Q.
  { destruct (Qlt_le_dec u v) as [|Hle]; [assumption|]. exfalso. apply Hne. lra. }
  destruct (parameters_for_range_covers _ _ _ _ _ _ k u v EP) as (s & Hs & _ & _ & H5 & H6 & _); auto.
  { now apply nth_error_combine. }
  exists s. split; [assumption|]. split; lra.
Qed.

