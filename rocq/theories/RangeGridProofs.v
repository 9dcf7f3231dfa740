From Verif Require Import Prelude TilingModel TilingSpec TilingProofs GranularityModel
  AffineModel AffineSpec AffineProofs OverrideModel OverrideProofs RangeModel RangeSpec RangeProofs RangeSmoothProofs.
From Coq Require Import QArith Qminmax Qabs Lqa.
Local Open Scope nat_scope.

(** ** Grid search *)
Lemma set_row_length i r : forall l, length (set_row i r l) = length l.
Proof. induction i as [|i IH]; intros [|x l]; simpl; auto. Qed.
Lemma set_row_nth r l : forall i j, i < length l ->
  nth_error (set_row i r l) j = if j =? i then Some r else nth_error l j.
Proof.
  induction l as [|x l IH]; intros [|i] [|j] H; simpl in *; try lia; try reflexivity. apply IH. lia.
Qed.

Section GridSearch.
  Context {B : Type} (err : list Q -> list Q -> B -> result (list Q)) (argmin : list Q -> nat).
  Variables (n P : nat) (policy : nat -> bool) (gm gx : list (list Q)) (e : nat -> B -> nat -> Q).
  Hypothesis Hargmin : argmin_ok argmin.
  Hypothesis Hn : 0 < n.
  Hypothesis Lm : length gm = n.
  Hypothesis Lx : length gx = n.
  Hypothesis Fm : Forall (fun r => length r = P) gm.
  Hypothesis Fx : Forall (fun r => length r = P) gx.

  Definition rows_are (errs : list (list Q)) (f : nat -> nat -> Q) : Prop :=
    length errs = n /\ forall i, i < n -> exists r, nth_error errs i = Some r /\ length r = P /\
      forall k, k < P -> (nth k r 0 == f i k)%Q.

  Lemma nth_map_seq {A} (f : nat -> A) d k : k < P -> nth k (map f (seq 0 P)) d = f k.
  Proof.
    intros H. rewrite (nth_indep _ d (f 0)) by (rewrite map_length, seq_length; lia).
    rewrite map_nth, seq_nth by lia. reflexivity.
  Qed.

  Lemma accumulate_spec st b is : g_min st = gm -> g_max st = gx -> NoDup is -> (forall i, In i is -> i < n) ->
    (forall i, i < n -> err (nth i gm []) (nth i gx []) b = Ok (map (e i b) (seq 0 P))) ->
    forall errs f, rows_are errs f ->
    exists errs', accumulate err st b is errs = Ok errs' /\
      rows_are errs' (fun i k => if existsb (Nat.eqb i) is then f i k + e i b k else f i k)%Q.
  Proof.
    intros Em Ex ND. revert ND. induction is as [|i is IH]; intros ND HI HE errs f [L R].
    - exists errs. split; [reflexivity|]. split; assumption.
    - apply NoDup_cons_iff in ND. destruct ND as [Hni ND']. assert (Hi : i < n) by (apply HI; now left).
      cbn [accumulate]. rewrite Em, Ex.
      rewrite (nth_error_nth' gm []) by lia. rewrite (nth_error_nth' gx []) by lia.
      destruct (R i Hi) as (r & Er & Lr & Hr). rewrite Er, (HE i Hi). cbn [rbind].
      rewrite bcast_same by (rewrite map_length, seq_length; lia). cbn [rbind].
      rewrite map_length, combine_length, map_length, seq_length, Lr, Nat.min_id, Nat.eqb_refl.
      set (r' := map (fun '(x, y) => (x + y)%Q) (combine r (map (e i b) (seq 0 P)))).
      destruct (IH ND' (fun j Hj => HI j (or_intror Hj)) HE (set_row i r' errs)
                  (fun j k => if j =? i then f j k + e j b k else f j k)%Q) as (errs' & E & R').
      { split; [now rewrite set_row_length|]. intros j Hj. rewrite set_row_nth by lia. destruct (j =? i) eqn:Eji.
        - apply Nat.eqb_eq in Eji. subst j. exists r'. split; [reflexivity|]. unfold r'.
          rewrite map_length, combine_length, map_length, seq_length, Lr, Nat.min_id. split; [reflexivity|].
          intros k Hk. set (g := fun '(x, y) => (x + y)%Q). rewrite (nth_indep _ 0%Q (g (0, 0)%Q)) by (rewrite map_length, combine_length, map_length, seq_length; lia).
          rewrite (map_nth g), combine_nth by (rewrite map_length, seq_length; lia). unfold g. rewrite nth_map_seq by assumption.
          now rewrite (Hr k Hk).
        - apply R. assumption. }
      exists errs'. split; [exact E|]. destruct R' as [L' R']. split; [assumption|]. intros j Hj.
      destruct (R' j Hj) as (q & Eq & Lq & Hq). exists q. split; [assumption|]. split; [assumption|].
      intros k Hk. rewrite (Hq k Hk). cbn [existsb]. destruct (j =? i) eqn:Eji; cbn [orb]; [|reflexivity].
      apply Nat.eqb_eq in Eji. subst j. destruct (existsb (Nat.eqb i) is) eqn:Ee; [|reflexivity].
      apply existsb_exists in Ee. destruct Ee as (z & Hz & Ez). apply Nat.eqb_eq in Ez. subst z. contradiction.
  Qed.

  Definition best_for (bs : list B) (rg : list Q * list Q) : Prop :=
    length (fst rg) = P /\ length (snd rg) = P /\ forall k, k < P -> exists i, i < n /\
      nth k (fst rg) 0%Q = nth k (nth i gm []) 0%Q /\ nth k (snd rg) 0%Q = nth k (nth i gx []) 0%Q /\
      forall j, j < n -> (qtotal (map (fun b => e i b k) bs) <= qtotal (map (fun b => e j b k) bs))%Q.

  Definition total_is (bs : list B) : nat -> nat -> Q := fun i k => qtotal (map (fun b => e i b k) bs).

  Lemma best_range_spec st bs : g_min st = gm -> g_max st = gx -> rows_are (g_err st) (total_is bs) ->
    best_for bs (best_range argmin st).
  Proof.
    intros Em Ex [L R]. unfold best_range. rewrite Em, Ex.
    assert (HP : length (hd [] gm) = P).
    { destruct gm as [|r l]; [simpl in Lm; lia|]. now inversion Fm. }
    rewrite HP. split; [|split]; cbn [fst snd].
    - rewrite map_length, combine_length, map_length, seq_length. lia.
    - rewrite map_length, combine_length, map_length, seq_length. lia.
    - intros k Hk.
      assert (Hc : length (column k (g_err st)) = n) by (unfold column; now rewrite map_length).
      destruct (Hargmin (column k (g_err st))) as [Hlt Hmin]; [intros E; rewrite E in Hc; simpl in Hc; lia|].
      rewrite Hc in Hlt, Hmin. set (i := argmin (column k (g_err st))) in *. exists i. split; [assumption|].
      assert (G : forall g : list (list Q),
        nth k (map (fun '(i, k) => nth k (nth i g []) 0%Q) (combine (map (fun k => argmin (column k (g_err st))) (seq 0 P)) (seq 0 P))) 0%Q
        = nth k (nth i g []) 0%Q).
      { intros g. set (h := fun '(i, k) => nth k (nth i g []) 0%Q).
        rewrite (nth_indep _ 0%Q (h (0, 0))) by (rewrite map_length, combine_length, map_length, seq_length; lia).
        rewrite (map_nth h), combine_nth by (now rewrite map_length). rewrite nth_map_seq by assumption.
        rewrite seq_nth by assumption. reflexivity. }
      split; [apply G|]. split; [apply G|]. intros j Hj.
      assert (N : forall j, j < n -> (nth j (column k (g_err st)) 0 == total_is bs j k)%Q).
      { intros j' Hj'. unfold column. set (h := fun r : list Q => nth k r 0%Q). rewrite (nth_indep _ 0%Q (h [])) by (rewrite map_length; lia).
        rewrite map_nth. destruct (R j' Hj') as (r & Er & Lr & Hr). rewrite (nth_error_nth _ _ [] Er). now apply Hr. }
      pose proof (Hmin j Hj) as H. rewrite (N i Hlt), (N j Hj) in H. exact H.
  Qed.

  Definition GInv (bs : list B) (st : grid_state) : Prop :=
    g_min st = gm /\ g_max st = gx /\ g_steps st = length bs /\ rows_are (g_err st) (total_is bs).

  Lemma rows_are_ext errs f f' : (forall i k, i < n -> k < P -> (f i k == f' i k)%Q) -> rows_are errs f -> rows_are errs f'.
  Proof.
    intros H [L R]. split; [assumption|]. intros i Hi. destruct (R i Hi) as (r & E & Lr & Hr). exists r.
    split; [assumption|]. split; [assumption|]. intros k Hk. rewrite (Hr k Hk). now apply H.
  Qed.

  Lemma grid_step_spec bs st b : GInv bs st ->
    (forall i, i < n -> err (nth i gm []) (nth i gx []) b = Ok (map (e i b) (seq 0 P))) ->
    exists st', grid_step err argmin n policy st b = Ok st' /\ GInv (bs ++ [b]) st' /\
      (policy (S (length bs)) = false -> g_range st' = g_range st) /\
      (policy (S (length bs)) = true -> exists rg, g_range st' = Some rg /\ best_for (bs ++ [b]) rg).
  Proof.
    intros (Em & Ex & Es & R) HE. unfold grid_step.
    destruct (accumulate_spec st b (seq 0 n) Em Ex (seq_NoDup _ _)) with (errs := g_err st) (f := total_is bs) as (errs' & E & R'); auto.
    { intros i Hi. apply in_seq in Hi. lia. }
    rewrite E. cbn [rbind g_steps]. rewrite Es.
    assert (R2 : rows_are errs' (total_is (bs ++ [b]))).
    { eapply rows_are_ext; [|exact R']. intros i k Hi Hk. cbv beta.
      assert (Ei : existsb (Nat.eqb i) (seq 0 n) = true).
      { apply existsb_exists. exists i. split; [apply in_seq; lia|apply Nat.eqb_refl]. }
      rewrite Ei. unfold total_is. rewrite map_app, qtotal_app. unfold qtotal at 3. simpl. lra. }
    assert (HL : length (bs ++ [b]) = S (length bs)) by (rewrite app_length; simpl; lia).
    destruct (policy (S (length bs))) eqn:Ep.
    - eexists. split; [reflexivity|]. split; [repeat split; simpl; auto; apply R2|]. split; [discriminate|]. intros _.
      eexists. split; [reflexivity|]. apply best_range_spec; auto.
    - eexists. split; [reflexivity|]. split; [repeat split; simpl; auto; apply R2|]. split; [reflexivity|discriminate].
  Qed.

  Lemma grid_setup_inv : GInv [] (grid_setup (gm, gx)).
  Proof.
    split; [reflexivity|]. split; [reflexivity|]. split; [reflexivity|]. split; cbn [grid_setup g_err fst].
    - now rewrite map_length.
    - intros i Hi. exists (map (fun _ => 0%Q) (nth i gm [])). split.
      + apply map_nth_error. apply nth_error_nth'. lia.
      + rewrite map_length. rewrite Forall_forall in Fm. assert (HP : length (nth i gm []) = P) by (apply Fm; apply nth_In; lia).
        split; [assumption|]. intros k Hk. unfold total_is, qtotal. simpl.
        destruct (nth_in_or_default k (map (fun _ : Q => 0%Q) (nth i gm [])) 0%Q) as [H|H]; [|now rewrite H].
        apply in_map_iff in H. destruct H as (? & <- & _). reflexivity.
  Qed.

  Lemma grid_run bs1 : (forall i b, i < n -> In b bs1 -> err (nth i gm []) (nth i gx []) b = Ok (map (e i b) (seq 0 P))) ->
    exists st, run_batches (grid_step err argmin n policy) (grid_setup (gm, gx)) bs1 = Ok st /\ GInv bs1 st /\
      (bs1 <> [] -> policy (length bs1) = true -> exists rg, g_range st = Some rg /\ best_for bs1 rg).
  Proof.
    induction bs1 as [|b bs IH] using rev_ind; intros HE.
    - eexists. split; [reflexivity|]. split; [apply grid_setup_inv|easy].
    - destruct IH as (st & E & I & _). { intros; apply HE; [assumption|apply in_or_app; now left]. }
      rewrite run_snoc, E. cbn [rbind]. destruct (grid_step_spec bs st b I) as (st' & E' & I' & _ & H).
      { intros; apply HE; [assumption|apply in_or_app; right; now left]. }
      exists st'. split; [assumption|]. split; [assumption|]. intros _. rewrite app_length. simpl. rewrite Nat.add_1_r. exact H.
  Qed.

  Lemma grid_search_best bs1 bs2 :
    (forall i b, i < n -> In b (bs1 ++ bs2) -> err (nth i gm []) (nth i gx []) b = Ok (map (e i b) (seq 0 P))) ->
    bs1 <> [] -> policy (length bs1) = true ->
    (forall s, length bs1 < s <= length (bs1 ++ bs2) -> policy s = false) ->
    exists st rg, run_batches (grid_step err argmin n policy) (grid_setup (gm, gx)) (bs1 ++ bs2) = Ok st /\
      g_range st = Some rg /\ best_for bs1 rg.
  Proof.
    intros HE Hne Hp. induction bs2 as [|b bs IH] using rev_ind; intros Hlater.
    - rewrite app_nil_r in *. destruct (grid_run bs1 HE) as (st & E & _ & H). destruct (H Hne Hp) as (rg & E1 & E2).
      exists st, rg. auto.
    - rewrite app_assoc in *. destruct IH as (st & rg & E & E1 & E2).
      { intros; apply HE; [assumption|apply in_or_app; now left]. }
      { intros s Hs. apply Hlater. rewrite (app_length (bs1 ++ bs)). lia. }
      destruct (grid_run (bs1 ++ bs)) as (st' & E' & I & _).
      { intros; apply HE; [assumption|apply in_or_app; now left]. }
      rewrite E in E'. injection E' as <-.
      destruct (grid_step_spec (bs1 ++ bs) st b I) as (st' & E3 & _ & H & _).
      { intros; apply HE; [assumption|apply in_or_app; right; now left]. }
      exists st', rg. rewrite run_snoc, E. cbn [rbind]. split; [assumption|]. split; [|assumption].
      rewrite H; [assumption|]. apply Hlater. rewrite (app_length (bs1 ++ bs)). simpl. rewrite (app_length bs1). lia.
  Qed.
End GridSearch.

(** ** Row counts of the uniform grid *)
Lemma linspace_length a b n : length (linspace a b n) = n.
Proof. destruct n as [|[|n]]; simpl; auto. now rewrite map_length, seq_length. Qed.
Lemma repeat_rows_length {A} k (l : list A) : length (repeat_rows k l) = k * length l.
Proof.
  unfold repeat_rows. assert (H : forall s, length (flat_map (fun _ : nat => l) (seq s k)) = k * length l); [|apply H].
  induction k as [|k IH]; intros s; simpl; [reflexivity|]. rewrite app_length, IH. lia.
Qed.
Lemma repeat_interleave_length {A} k (l : list A) : length (repeat_interleave k l) = length l * k.
Proof.
  unfold repeat_interleave. induction l as [|x l IH]; simpl; [reflexivity|]. rewrite app_length, repeat_length, IH. lia.
Qed.
Definition evaluated_rows_only (n : nat) : Prop := Nat.sqrt n * Nat.sqrt n = n \/ Nat.sqrt n = 1.

Lemma uniform_grid_rows abs rel mins maxs sym n : 0 < n ->
  length (fst (uniform_grid abs rel mins maxs sym n)) = length (snd (uniform_grid abs rel mins maxs sym n)) /\
  n <= length (fst (uniform_grid abs rel mins maxs sym n)) /\
  (sym = true -> length (fst (uniform_grid abs rel mins maxs sym n)) = n) /\
  (evaluated_rows_only n -> length (fst (uniform_grid abs rel mins maxs sym n)) = n).
Proof.
  intros Hn. unfold uniform_grid, evaluated_rows_only. set (a := Nat.sqrt n).
  assert (Ha : a * a <= n) by (apply Nat.sqrt_spec'). assert (Ha1 : 1 <= a) by (apply (Nat.sqrt_le_mono 1 n); lia).
  destruct (negb (negb (Qle_bool 0 (qlist_min (map (fun x => rel * x - abs)%Q mins))))) eqn:E1; [|destruct (negb sym) eqn:E2]; cbn [fst snd].
  - rewrite repeat_length, !map_length, linspace_length. repeat split; auto.
  - rewrite repeat_rows_length, repeat_interleave_length, !map_length, !linspace_length.
    split; [lia|]. split; [nia|]. split; [destruct sym; discriminate|]. intros [H|H]; nia.
  - rewrite !map_length, linspace_length. repeat split; auto.
Qed.

Lemma In_repeat_rows {A} k (l : list A) x : In x (repeat_rows k l) -> In x l.
Proof. unfold repeat_rows. intros H. apply in_flat_map in H. now destruct H as (_ & _ & H). Qed.
Lemma In_repeat_interleave {A} k (l : list A) x : In x (repeat_interleave k l) -> In x l.
Proof. unfold repeat_interleave. intros H. apply in_flat_map in H. destruct H as (y & H & H'). apply repeat_spec in H'. now subst. Qed.
Lemma uniform_grid_cols abs rel mins maxs sym n : length maxs = length mins ->
  Forall (fun r => length r = length mins) (fst (uniform_grid abs rel mins maxs sym n)) /\
  Forall (fun r => length r = length mins) (snd (uniform_grid abs rel mins maxs sym n)).
Proof.
  intros HL. unfold uniform_grid. destruct (negb (negb (Qle_bool 0 (qlist_min (map (fun x => rel * x - abs)%Q mins))))) eqn:E1; [|destruct (negb sym) eqn:E2]; cbn [fst snd];
    split; apply Forall_forall; intros r Hr.
  - apply repeat_spec in Hr. subst. apply repeat_length.
  - apply in_map_iff in Hr. destruct Hr as (? & <- & _). now rewrite !map_length.
  - apply In_repeat_rows in Hr. apply in_map_iff in Hr. destruct Hr as (? & <- & _). now rewrite !map_length.
  - apply In_repeat_interleave in Hr. apply in_map_iff in Hr. destruct Hr as (? & <- & _). now rewrite !map_length.
  - apply in_map_iff in Hr. destruct Hr as (? & <- & Hr). apply in_map_iff in Hr. destruct Hr as (? & <- & _).
    rewrite !map_length, combine_length, !map_length. lia.
  - apply in_map_iff in Hr. destruct Hr as (? & <- & _). rewrite !map_length, combine_length, !map_length. lia.
Qed.

(** ** The grid covers the first batch *)
Lemma linspace_first a b n : 0 < n -> (nth 0 (linspace a b n) 0 == a)%Q.
Proof. destruct n as [|[|n]]; intros H; [lia|reflexivity|]. cbn [linspace seq map nth]. change (inject_Z (Z.of_nat 0)) with 0%Q. lra. Qed.
Lemma linspace_last a b n : 2 <= n -> (nth (n - 1) (linspace a b n) 0 == b)%Q.
Proof.
  intros H. destruct n as [|[|n]]; try lia. unfold linspace.
  set (f := fun i => (a + inject_Z (Z.of_nat i) * ((b - a) / inject_Z (Z.of_nat (S (S n) - 1))))%Q).
  rewrite (nth_indep _ 0%Q (f 0)) by (rewrite map_length, seq_length; lia). rewrite map_nth, seq_nth by lia.
  unfold f. replace (0 + (S (S n) - 1)) with (S (S n) - 1) by lia.
  assert (Hz : ~ (inject_Z (Z.of_nat (S (S n) - 1)) == 0)%Q).
  { intros E. apply (proj1 (inject_Z_injective _ 0)) in E. lia. }
  field. exact Hz.
Qed.
Lemma nth_map_rows (f : Q -> Q -> Q) l (row : list Q) i t : i < length l -> t < length row ->
  nth t (nth i (map (fun s => map (fun x => f s x) row) l) []) 0%Q = f (nth i l 0%Q) (nth t row 0%Q).
Proof.
  intros Hi Ht. set (g := fun s => map (fun x => f s x) row).
  rewrite (nth_indep _ [] (g 0%Q)) by (now rewrite map_length). rewrite map_nth. unfold g.
  rewrite (nth_indep _ 0%Q (f (nth i l 0%Q) 0%Q)) by (now rewrite map_length).
  exact (map_nth (fun x => f (nth i l 0%Q) x) row 0%Q t).
Qed.
Lemma nth_map_lt {A} (f : A -> Q) l d t : t < length l -> nth t (map f l) 0%Q = f (nth t l d).
Proof. intros H. rewrite (nth_indep _ 0%Q (f d)) by (now rewrite map_length). apply map_nth. Qed.
Lemma repeat_rows_nth {A} k (l : list A) d : forall q j, q < k -> j < length l ->
  nth (q * length l + j) (repeat_rows k l) d = nth j l d.
Proof.
  unfold repeat_rows.
  assert (H : forall s q j, q < k -> j < length l -> nth (q * length l + j) (flat_map (fun _ : nat => l) (seq s k)) d = nth j l d);
    [|intros; now apply H].
  induction k as [|k IH]; intros s q j Hq Hj; [lia|]. simpl seq. simpl flat_map. destruct q as [|q]; simpl.
  - now rewrite app_nth1.
  - rewrite app_nth2 by nia. replace (length l + q * length l + j - length l) with (q * length l + j) by lia. apply IH; lia.
Qed.
Lemma repeat_interleave_nth {A} k (l : list A) d : forall q j, q < length l -> j < k ->
  nth (q * k + j) (repeat_interleave k l) d = nth q l d.
Proof.
  unfold repeat_interleave. induction l as [|x l IH]; intros q j Hq Hj; simpl in *; [lia|]. destruct q as [|q]; simpl.
  - rewrite app_nth1 by (rewrite repeat_length; lia).
    destruct (nth_in_or_default j (repeat x k) d) as [H|H]; [now apply repeat_spec in H|].
    rewrite (nth_indep _ d x) by (rewrite repeat_length; lia).
    destruct (nth_in_or_default j (repeat x k) x) as [H'|H']; [now apply repeat_spec in H'|assumption].
  - rewrite app_nth2 by (rewrite repeat_length; lia). rewrite repeat_length.
    replace (k + q * k + j - k) with (q * k + j) by lia. apply IH; lia.
Qed.

Definition covering_candidate (grid : list (list Q) * list (list Q)) (n : nat) (mins maxs : list Q) : Prop :=
  exists i, i < n /\ forall t, t < length mins ->
    (nth t (nth i (fst grid) []) 0 <= nth t mins 0)%Q /\ (nth t maxs 0 <= nth t (nth i (snd grid) []) 0)%Q.

Lemma qlist_min_le l x : In x l -> (qlist_min l <= x)%Q.
Proof.
  intros H. destruct l as [|a l]; [easy|]. apply (list_min_le (a :: l) (qlist_min (a :: l)) x); [reflexivity|assumption].
Qed.

Lemma uniform_grid_covers abs mins maxs sym n : (0 <= abs)%Q -> 0 < n -> length maxs = length mins ->
  (sym = false -> exists k, 2 <= k /\ n = k * k) ->
  covering_candidate (uniform_grid abs 1 mins maxs sym n) n mins maxs.
Proof.
  intros Habs Hn HL Hk. unfold uniform_grid.
  set (maxd := map (fun x => (1 * x + abs)%Q) maxs). set (mind := map (fun x => (1 * x - abs)%Q) mins).
  assert (Lmx : length maxd = length mins) by (unfold maxd; now rewrite map_length).
  assert (Lmn : length mind = length mins) by (unfold mind; now rewrite map_length).
  assert (Nmx : forall t, t < length mins -> (nth t maxd 0 == nth t maxs 0 + abs)%Q).
  { intros t Ht. unfold maxd. rewrite (nth_map_lt _ _ 0%Q) by lia. lra. }
  assert (Nmn : forall t, t < length mins -> (nth t mind 0 == nth t mins 0 - abs)%Q).
  { intros t Ht. unfold mind. rewrite (nth_map_lt _ _ 0%Q) by lia. lra. }
  assert (Hlast : (nth (n - 1) (linspace (1 / inject_Z (Z.of_nat n)) 1 n) 0 == 1)%Q).
  { destruct (Nat.eq_dec n 1) as [->|H1]; [reflexivity|]. apply linspace_last. lia. }
  destruct (negb (negb (Qle_bool 0 (qlist_min mind)))) eqn:E1; [|destruct (negb sym) eqn:E2].
  - rewrite negb_involutive in E1. apply Qle_bool_iff in E1.
    exists (n - 1). split; [lia|]. intros t Ht. cbn [fst snd]. split.
    + assert (Ez : nth t (nth (n - 1) (repeat (repeat 0%Q (length mins)) n) []) 0%Q = 0%Q).
      { rewrite (nth_indep _ [] (repeat 0%Q (length mins))) by (rewrite repeat_length; lia).
        assert (Hr : forall (A : Type) (x : A) m i, nth i (repeat x m) x = x).
        { intros A x m; induction m as [|m IH]; intros [|i]; simpl; auto. }
        rewrite Hr. apply Hr. }
      assert (Hin : In (nth t mind 0%Q) mind) by (apply nth_In; lia). rewrite Ez. pose proof (qlist_min_le mind _ Hin) as H. rewrite (Nmn t Ht) in H. lra.
    + rewrite (nth_map_rows (fun s x => (s * x)%Q)) by (rewrite ?linspace_length; lia). rewrite Hlast, (Nmx t Ht). lra.
  - destruct sym; [discriminate|]. destruct (Hk eq_refl) as (k & Hk2 & ->). rewrite Nat.sqrt_square.
    replace (k + k * k - k * k) with k by lia. exists ((k - 1) * k + 0). split; [nia|]. intros t Ht. cbn [fst snd].
    set (M := map (fun s => map (fun x => (s * (1 * x + abs))%Q) mind) (linspace 1 (6 # 10) k)).
    set (X := map (fun s => map (fun x => (s * (1 * x + abs))%Q) maxd) (linspace (6 # 10) 1 k)).
    assert (LM : length M = k) by (unfold M; now rewrite map_length, linspace_length).
    assert (LX : length X = k) by (unfold X; now rewrite map_length, linspace_length).
    split.
    + rewrite <- LM at 2. rewrite repeat_rows_nth by lia. unfold M.
      rewrite (nth_map_rows (fun s x => (s * (1 * x + abs))%Q)) by (rewrite ?linspace_length; lia).
      rewrite linspace_first by lia. rewrite (Nmn t Ht). lra.
    + rewrite repeat_interleave_nth by lia. unfold X.
      rewrite (nth_map_rows (fun s x => (s * (1 * x + abs))%Q)) by (rewrite ?linspace_length; lia).
      rewrite linspace_last by lia. rewrite (Nmx t Ht). lra.
  - exists (n - 1). split; [lia|]. intros t Ht. cbn [fst snd].
    set (m := map (fun '(x, y) => Qmax (Qabs x) (Qabs y)) (combine mind maxd)).
    assert (Lm : length m = length mins) by (unfold m; rewrite map_length, combine_length; lia).
    assert (Nm : nth t m 0%Q = Qmax (Qabs (nth t mind 0%Q)) (Qabs (nth t maxd 0%Q))).
    { unfold m. set (g := fun '(x, y) => Qmax (Qabs x) (Qabs y)). rewrite (nth_map_lt g _ (0, 0)%Q) by (rewrite combine_length; lia).
      rewrite combine_nth by lia. reflexivity. }
    set (X := map (fun s => map (fun x => (s * x)%Q) m) (linspace (1 / inject_Z (Z.of_nat n)) 1 n)).
    assert (EX : (nth t (nth (n - 1) X []) 0 == nth t m 0)%Q).
    { unfold X. rewrite (nth_map_rows (fun s x => (s * x)%Q)) by (rewrite ?linspace_length; lia). rewrite Hlast. lra. }
    assert (Eneg : nth t (nth (n - 1) (map (map Qopp) X) []) 0%Q = (- nth t (nth (n - 1) X []) 0)%Q).
    { rewrite (nth_indep _ [] (map Qopp [])) by (unfold X; rewrite !map_length, linspace_length; lia). rewrite map_nth.
      apply (nth_map_lt Qopp). destruct (nth_in_or_default (n - 1) X []) as [H|H].
      - unfold X in H. apply in_map_iff in H. destruct H as (? & Hx & _). unfold X. rewrite <- Hx. rewrite map_length. lia.
      - exfalso. assert (Hlen : length (nth (n - 1) X []) = length m).
        { unfold X. rewrite (nth_indep _ [] ((fun s => map (fun x => (s * x)%Q) m) 0%Q)) by (rewrite map_length, linspace_length; lia).
          rewrite (map_nth (fun s => map (fun x => (s * x)%Q) m)). now rewrite map_length. }
        rewrite H in Hlen. simpl in Hlen. lia. }
    rewrite Eneg, EX, Nm.
    pose proof (Q.le_max_l (Qabs (nth t mind 0%Q)) (Qabs (nth t maxd 0%Q))).
    pose proof (Q.le_max_r (Qabs (nth t mind 0%Q)) (Qabs (nth t maxd 0%Q))).
    pose proof (Qle_Qabs (nth t maxd 0%Q)). pose proof (Qle_Qabs (- nth t mind 0)%Q) as Hq. rewrite Qabs_opp in Hq.
    pose proof (Nmx t Ht). pose proof (Nmn t Ht). split; lra.
Qed.

Lemma grid_search_best' : forall (B : Type) (err : list Q -> list Q -> B -> result (list Q)) (argmin : list Q -> nat)
  n P policy gm gx (e : nat -> B -> nat -> Q),
  argmin_ok argmin -> 0 < n -> length gm = n -> length gx = n ->
  Forall (fun r => length r = P) gm -> forall bs1 bs2,
  (forall i b, i < n -> In b (bs1 ++ bs2) -> err (nth i gm []) (nth i gx []) b = Ok (map (e i b) (seq 0 P))) ->
  bs1 <> [] -> policy (length bs1) = true ->
  (forall s, length bs1 < s <= length (bs1 ++ bs2) -> policy s = false) ->
  exists st mn mx, run_batches (grid_step err argmin n policy) (grid_setup (gm, gx)) (bs1 ++ bs2) = Ok st /\
    g_range st = Some (mn, mx) /\ length mn = P /\ length mx = P /\
    forall k, k < P -> exists i, i < n /\
      nth k mn 0%Q = nth k (nth i gm []) 0%Q /\ nth k mx 0%Q = nth k (nth i gx []) 0%Q /\
      forall j, j < n -> (qtotal (map (fun b => e i b k) bs1) <= qtotal (map (fun b => e j b k) bs1))%Q.
Proof.
  intros B err argmin n P policy gm gx e H1 H2 H3 H4 H5 bs1 bs2 H6 H7 H8 H9.
  assert (X : exists st rg, run_batches (grid_step err argmin n policy) (grid_setup (gm, gx)) (bs1 ++ bs2) = Ok st /\
    g_range st = Some rg /\ best_for n P gm gx e bs1 rg) by (eapply grid_search_best; eassumption).
  destruct X as (st & [mn mx] & E1 & E2 & B1 & B2 & B3). exists st, mn, mx. auto.
Qed.

Lemma uniform_grid_shape abs rel mins maxs sym n : 0 < n -> length maxs = length mins ->
  let gr := uniform_grid abs rel mins maxs sym n in
  length (fst gr) = length (snd gr) /\ n <= length (fst gr) /\
  (sym = true \/ Nat.sqrt n * Nat.sqrt n = n \/ Nat.sqrt n = 1 -> length (fst gr) = n) /\
  Forall (fun r => length r = length mins) (fst gr) /\ Forall (fun r => length r = length mins) (snd gr).
Proof.
  intros Hn HL gr. destruct (uniform_grid_rows abs rel mins maxs sym n Hn) as (H1 & H2 & H3 & H4).
  destruct (uniform_grid_cols abs rel mins maxs sym n HL) as [H5 H6].
  split; [assumption|]. split; [assumption|]. split; [|split; assumption]. intros [H|H]; auto.
Qed.

Lemma first_min_from_spec l : forall i best m pre, length pre = i -> best < i -> (nth best pre 0 == m)%Q ->
  (forall j, j < i -> (m <= nth j pre 0)%Q) ->
  first_min_from l i best m < length (pre ++ l) /\
  forall j, j < length (pre ++ l) -> (nth (first_min_from l i best m) (pre ++ l) 0 <= nth j (pre ++ l) 0)%Q.
Proof.
  induction l as [|x l IH]; intros i best m pre Hl Hb He Hm; cbn [first_min_from].
  - rewrite app_nil_r, Hl. split; [assumption|]. intros j Hj. rewrite He. auto.
  - replace (pre ++ x :: l) with ((pre ++ [x]) ++ l) by (now rewrite <- app_assoc).
    destruct (Qle_bool m x) eqn:E.
    + apply Qle_bool_iff in E. apply IH.
      * rewrite app_length. simpl. lia.
      * lia.
      * rewrite app_nth1 by lia. assumption.
      * intros j Hj. destruct (Nat.eq_dec j i) as [->|Hne].
        -- rewrite app_nth2 by lia. rewrite Hl, Nat.sub_diag. exact E.
        -- rewrite app_nth1 by lia. apply Hm. lia.
    + assert (Hx : (x <= m)%Q).
      { destruct (Qlt_le_dec m x) as [H|H]; [|assumption]. apply Qlt_le_weak in H. apply Qle_bool_iff in H. congruence. }
      apply IH.
      * rewrite app_length. simpl. lia.
      * lia.
      * rewrite app_nth2 by lia. rewrite Hl, Nat.sub_diag. reflexivity.
      * intros j Hj. destruct (Nat.eq_dec j i) as [->|Hne].
        -- rewrite app_nth2 by lia. rewrite Hl, Nat.sub_diag. apply Qle_refl.
        -- rewrite app_nth1 by lia. specialize (Hm j ltac:(lia)). lra.
Qed.
Lemma first_min_ok : argmin_ok first_min.
Proof.
  intros [|x l] H; [easy|]. apply (first_min_from_spec l 1 0 x [x]); simpl; auto; try reflexivity.
  intros j Hj. assert (j = 0) as -> by lia. simpl. lra.
Qed.

Lemma uneven_grid_witness :
  let gr := uniform_grid (1#2) 1 [-1]%Q [1]%Q false 5 in
  length (fst gr) = 6 /\
  exists st mn mx e0 e1,
    run_batches (grid_step mse_error first_min 5 (fun _ => true)) (grid_setup gr) [[-1; 1; 1#2]%Q] = Ok st /\
    g_range st = Some ([mn], [mx]) /\ (mn == -6#10)%Q /\ (mx == 2)%Q /\
    mse_error [mn] [mx] [-1; 1; 1#2]%Q = Ok [e0] /\
    mse_error (nth 0 (fst gr) []) (nth 0 (snd gr) []) [-1; 1; 1#2]%Q = Ok [e1] /\ (e1 < e0)%Q.
Proof.
  split; [reflexivity|]. do 5 eexists. split; [vm_compute; reflexivity|]. split; [reflexivity|]. split; [reflexivity|].
  split; [reflexivity|]. split; [vm_compute; reflexivity|]. split; [vm_compute; reflexivity|]. reflexivity.
Qed.
Lemma grid_search_example :
  argmin_ok first_min /\
  let gr := uniform_grid (1#2) 1 [-1]%Q [1]%Q false 4 in
  length (fst gr) = 4 /\
  exists st mn mx, run_batches (grid_step mse_error first_min 4 (fun _ => true)) (grid_setup gr) [[-1; 1; 1#2]%Q] = Ok st /\
    g_range st = Some ([mn], [mx]) /\ (mn == -1)%Q /\ (mx == 12#10)%Q.
Proof.
  split; [exact first_min_ok|]. split; [reflexivity|]. do 3 eexists. split; [vm_compute; reflexivity|].
  split; [reflexivity|]. split; reflexivity.
Qed.
