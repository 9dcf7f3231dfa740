(** Property theorems: range estimation (C23-C26, C70, C71). *)
From Verif Require Import Prelude TilingModel TilingSpec GranularityModel AffineModel AffineSpec
  OverrideModel RangeModel RangeSpec RangeProofs RangeSmoothProofs RangeGridProofs RangeBlockProofs.
From Coq Require Import QArith.
Local Open Scope nat_scope.

(** C23: from an unset range, after any non-empty sequence of batches, the bounds of tile [k]
    are the least and greatest entries of tile [k] over all batches. *)
Theorem C23_running_is_global : forall g n bs, bs <> [] -> Forall (batch_ok g n) bs ->
  exists mn mx, run_batches (running_step g) (None, None) bs = Ok (Some (map Fin mn), Some (map Fin mx)) /\
    length mn = n /\ length mx = n /\
    forall k x, (nth_error mn k = Some x -> is_min (seen g bs k) x) /\
                (nth_error mx k = Some x -> is_max (seen g bs k) x).
Proof. exact running_fresh. Qed.
Print Assumptions C23_running_is_global.

(** From a quantizer that already has a finite range, the old bounds count as seen values. *)
Theorem C23_running_extends_range : forall g n lo hi bs, length lo = n -> length hi = n -> Forall (batch_ok g n) bs ->
  exists mn mx, run_batches (running_step g) (Some (map Fin lo), Some (map Fin hi)) bs = Ok (Some (map Fin mn), Some (map Fin mx)) /\
    length mn = n /\ length mx = n /\
    forall k x, (nth_error mn k = Some x -> is_min (fun y => nth_error lo k = Some y \/ seen g bs k y) x) /\
                (nth_error mx k = Some x -> is_max (fun y => nth_error hi k = Some y \/ seen g bs k y) x).
Proof. exact running_from_range. Qed.
Print Assumptions C23_running_extends_range.

(** Order and split do not matter: same values per tile, same range. *)
Theorem C23_split_independent : forall g n bs bs', bs <> [] -> bs' <> [] -> Forall (batch_ok g n) bs -> Forall (batch_ok g n) bs' ->
  (forall k x, seen g bs k x <-> seen g bs' k x) ->
  exists mn mx mn' mx', run_batches (running_step g) (None, None) bs = Ok (Some (map Fin mn), Some (map Fin mx)) /\
    run_batches (running_step g) (None, None) bs' = Ok (Some (map Fin mn'), Some (map Fin mx')) /\
    Forall2 Qeq mn mn' /\ Forall2 Qeq mx mx'.
Proof. exact running_split_independent. Qed.
Print Assumptions C23_split_independent.

Definition ex_b1 : tensor Q := mkT [2; 2] [1; 5; -3; 2]%Q.
Definition ex_b2 : tensor Q := mkT [2; 3] [0; 7; 1; 4; -1; 2]%Q.
Example C23_nonvacuous :
  Forall (batch_ok (PerChannel [0%Z]) 2) [ex_b1; ex_b2] /\
  run_batches (running_step (PerChannel [0%Z])) (None, None) [ex_b1; ex_b2] = Ok (Some (map Fin [0; -3]%Q), Some (map Fin [7; 4]%Q)).
Proof.
  split; [|reflexivity]. constructor; [|constructor; [|constructor]].
  - split; [reflexivity|]. split; [discriminate|]. exists (Tile [1; 2]). split; [reflexivity|]. split; [|reflexivity].
    constructor; [split; [simpl; lia|exists 2; reflexivity]|]. constructor; [split; [simpl; lia|exists 1; reflexivity]|constructor].
  - split; [reflexivity|]. split; [discriminate|]. exists (Tile [1; 3]). split; [reflexivity|]. split; [|reflexivity].
    constructor; [split; [simpl; lia|exists 2; reflexivity]|]. constructor; [split; [simpl; lia|exists 1; reflexivity]|constructor].
Qed.

(** C24: the estimate for tile [k] is the exponentially weighted sum of the per-batch
    extremes of tile [k]; the first batch carries the initial weight. *)
Theorem C24_smoothed_is_weighted_average : forall g gamma n bs, n <> 0 -> bs <> [] -> Forall (batch_ok g n) bs ->
  exists mn mx, run_batches (smoothed_step g gamma) (None, None) bs = Ok (Some (map Fin mn), Some (map Fin mx)) /\
    length mn = n /\ length mx = n /\
    forall k, k < n -> forall ms,
      (Forall2 (fun b m => is_min (tile_value g b k) m) bs ms -> (nth k mn 0 == smoothed gamma ms)%Q) /\
      (Forall2 (fun b m => is_max (tile_value g b k) m) bs ms -> (nth k mx 0 == smoothed gamma ms)%Q).
Proof. exact smoothed_fresh. Qed.
Print Assumptions C24_smoothed_is_weighted_average.

(** The weights add up to one and are non-negative, so the estimate lies between the
    smallest and the largest per-batch extreme. *)
Theorem C24_weights_convex : forall gamma n, n <> 0 ->
  (qtotal (map (weight gamma n) (seq 0 n)) == 1)%Q /\
  ((0 <= gamma <= 1)%Q -> forall i, (0 <= weight gamma n i)%Q).
Proof. intros gamma n H. split; [now apply weights_sum|intros Hg i; now apply weight_nonneg]. Qed.
Print Assumptions C24_weights_convex.
Theorem C24_between_extremes : forall g gamma n bs, n <> 0 -> bs <> [] -> Forall (batch_ok g n) bs -> (0 <= gamma <= 1)%Q ->
  exists mn mx, run_batches (smoothed_step g gamma) (None, None) bs = Ok (Some (map Fin mn), Some (map Fin mx)) /\
    forall k, k < n -> forall ms,
      (Forall2 (fun b m => is_min (tile_value g b k) m) bs ms ->
         (exists m, In m ms /\ (m <= nth k mn 0)%Q) /\ (exists m, In m ms /\ (nth k mn 0 <= m)%Q)) /\
      (Forall2 (fun b m => is_max (tile_value g b k) m) bs ms ->
         (exists m, In m ms /\ (m <= nth k mx 0)%Q) /\ (exists m, In m ms /\ (nth k mx 0 <= m)%Q)).
Proof. exact smoothed_between_extremes. Qed.
Print Assumptions C24_between_extremes.
(** From an existing finite range, that range takes the place of the first batch. *)
Theorem C24_smoothed_from_range : forall g gamma n lo hi bs, length lo = n -> length hi = n -> Forall (batch_ok g n) bs ->
  exists mn mx, run_batches (smoothed_step g gamma) (Some (map Fin lo), Some (map Fin hi)) bs = Ok (Some (map Fin mn), Some (map Fin mx)) /\
    length mn = n /\ length mx = n /\
    forall k, k < n -> forall ms,
      (Forall2 (fun b m => is_min (tile_value g b k) m) bs ms -> (nth k mn 0 == smoothed gamma (nth k lo 0%Q :: ms))%Q) /\
      (Forall2 (fun b m => is_max (tile_value g b k) m) bs ms -> (nth k mx 0 == smoothed gamma (nth k hi 0%Q :: ms))%Q).
Proof. exact smoothed_from_range. Qed.
Print Assumptions C24_smoothed_from_range.
Example C24_nonvacuous :
  (smoothed (1#4) [4; 8; 0] == 15#4)%Q /\
  exists mn mx, run_batches (smoothed_step (PerChannel [0%Z]) (1#4)) (None, None) [ex_b1; ex_b2] = Ok (Some (map Fin mn), Some (map Fin mx)) /\
    Forall2 Qeq mn [3#4; (-10)#4]%Q /\ Forall2 Qeq mx [22#4; 10#4]%Q.
Proof.
  split; [reflexivity|]. eexists [_; _]%list, [_; _]%list. split; [vm_compute; reflexivity|]. split; repeat constructor.
Qed.

(** C25: if the grid has exactly [n] candidates and errors can be computed, then the range
    set at the last update step (after the batches [bs1]) is, per tile, that of a candidate whose
    error summed over [bs1] is minimal among the [n] candidates. *)
Theorem C25_grid_search_best : forall (B : Type) (err : list Q -> list Q -> B -> result (list Q)) (argmin : list Q -> nat)
  n P policy gm gx (e : nat -> B -> nat -> Q),
  argmin_ok argmin -> 0 < n -> length gm = n -> length gx = n ->
  Forall (fun r => length r = P) gm -> forall bs1 bs2,
  (forall i b, i < n -> In b (bs1 ++ bs2) -> err (nth i gm []) (nth i gx []) b = Ok (map (e i b) (seq 0 P))) ->
  bs1 <> [] -> policy (length bs1) = true ->
  (forall s, length bs1 < s <= length (bs1 ++ bs2) -> policy s = false) ->
  exists st mn mx, run_batches (grid_step err argmin n policy) (grid_setup (gm, gx)) (bs1 ++ bs2) = Ok st /\
    g_range st = Some (mn, mx) /\ length mn = P /\ length mx = P /\
    forall k, k < P -> exists i, i < n /\
      nth k mn 0%Q = nth k (nth i gm []) 0%Q /\ nth k mx 0%Q = nth k (nth i gx []) 0%Q /\
      forall j, j < n -> (qtotal (map (fun b => e i b k) bs1) <= qtotal (map (fun b => e j b k) bs1))%Q.
Proof. exact grid_search_best'. Qed.
Print Assumptions C25_grid_search_best.

(** The uniform grid has [n] rows, hence meets the hypothesis above, when it is symmetric or
    when [n] is a perfect square (or below 4). *)
Theorem C25_uniform_grid_rows_partial : forall abs rel mins maxs sym n, 0 < n -> length maxs = length mins ->
  let gr := uniform_grid abs rel mins maxs sym n in
  length (fst gr) = length (snd gr) /\ n <= length (fst gr) /\
  (sym = true \/ Nat.sqrt n * Nat.sqrt n = n \/ Nat.sqrt n = 1 -> length (fst gr) = n) /\
  Forall (fun r => length r = length mins) (fst gr) /\ Forall (fun r => length r = length mins) (snd gr).
Proof. exact uniform_grid_shape. Qed.
Print Assumptions C25_uniform_grid_rows_partial.

(** Otherwise it has more rows than are evaluated; their error stays zero and one of them is
    selected. Five candidates, data [-1, 1, 1/2], 8-bit asymmetric quantizer with the mean
    squared error: the chosen range clips -1 and its error is larger than that of an
    evaluated candidate. *)
Theorem C25_uneven_grid_refuted :
  let gr := uniform_grid (1#2) 1 [-1]%Q [1]%Q false 5 in
  length (fst gr) = 6 /\
  exists st mn mx e0 e1,
    run_batches (grid_step mse_error first_min 5 (fun _ => true)) (grid_setup gr) [[-1; 1; 1#2]%Q] = Ok st /\
    g_range st = Some ([mn], [mx]) /\ (mn == -6#10)%Q /\ (mx == 2)%Q /\
    mse_error [mn] [mx] [-1; 1; 1#2]%Q = Ok [e0] /\
    mse_error (nth 0 (fst gr) []) (nth 0 (snd gr) []) [-1; 1; 1#2]%Q = Ok [e1] /\ (e1 < e0)%Q.
Proof. exact uneven_grid_witness. Qed.
Print Assumptions C25_uneven_grid_refuted.

Example C25_nonvacuous :
  argmin_ok first_min /\
  let gr := uniform_grid (1#2) 1 [-1]%Q [1]%Q false 4 in
  length (fst gr) = 4 /\
  exists st mn mx, run_batches (grid_step mse_error first_min 4 (fun _ => true)) (grid_setup gr) [[-1; 1; 1#2]%Q] = Ok st /\
    g_range st = Some ([mn], [mx]) /\ (mn == -1)%Q /\ (mx == 12#10)%Q.
Proof. exact grid_search_example. Qed.

(** C26: the overrides of every quantizer after the block are those the body alone would have
    left, whether or not the body raises. With an empty body: those before the block. *)
Theorem C26_no_trace : forall (O : Type) supported skip mk (w : oworld O) qs body raises,
  ids_below w -> body_ok w body -> skip = true \/ (forall q, In q qs -> supported q = true) ->
  snd (estimate_ranges supported skip mk w qs body raises) = raises /\
  forall q, map snd (omap (fst (estimate_ranges supported skip mk w qs body raises)) q) = map snd (omap (run_body w body) q).
Proof. exact @estimate_no_trace. Qed.
Print Assumptions C26_no_trace.
(** An unsupported quantizer met while preparing makes the context manager raise without
    cleaning up those prepared before it. *)
Theorem C26_prepare_error_refuted :
  let w : oworld nat := mkOW 0 (fun _ => []) in
  let supported := fun q => q =? 0 in
  let w' := fst (estimate_ranges supported false (fun q => 100 + q) w [0; 1] [] false) in
  snd (estimate_ranges supported false (fun q => 100 + q) w [0; 1] [] false) = true /\
  map snd (omap w 0) = [] /\ map snd (omap w' 0) = [100].
Proof. exact estimate_leak_witness. Qed.
Print Assumptions C26_prepare_error_refuted.
Example C26_nonvacuous :
  let w : oworld nat := mkOW 3 (fun q => if q =? 0 then [(0, 10); (2, 12)] else []) in
  let body := [BReg 0 50; BRemOld (mkHandle 0 0); BReg 1 51; BRemNew 0] in
  ids_below w /\ body_ok w body /\
  map snd (omap (fst (estimate_ranges (fun _ => true) false (fun q => 100 + q) w [0; 1] body true)) 0) = [12] /\
  map snd (omap (fst (estimate_ranges (fun _ => true) false (fun q => 100 + q) w [0; 1] body true)) 1) = [51].
Proof.
  split; [|split; [|split; reflexivity]].
  - intros q i o. simpl. destruct (q =? 0); simpl; [|easy]. intros [H|[H|[]]]; injection H as <- <-; lia.
  - intros h. simpl. intros [H|[H|[H|[H|[]]]]]; try discriminate. injection H as <-. simpl. lia.
Qed.

(** C70 *)
Theorem C70_grid_covers_batch : forall abs mins maxs sym n, (0 <= abs)%Q -> 0 < n -> length maxs = length mins ->
  (sym = false -> exists k, 2 <= k /\ n = k * k) ->
  exists i, i < n /\ forall t, t < length mins ->
    (nth t (nth i (fst (uniform_grid abs 1 mins maxs sym n)) []) 0 <= nth t mins 0)%Q /\
    (nth t maxs 0 <= nth t (nth i (snd (uniform_grid abs 1 mins maxs sym n)) []) 0)%Q.
Proof. exact uniform_grid_covers. Qed.
Print Assumptions C70_grid_covers_batch.
Example C70_nonvacuous : (0 <= 1#2)%Q /\ exists k, 2 <= k /\ 100 = k * k.
Proof. split; [discriminate|exists 10; split; [lia|reflexivity]]. Qed.

(** C71 *)
Theorem C71_no_clipping : forall g n bs k x b sym allow ss oo mn mx,
  bs <> [] -> Forall (batch_ok g n) bs ->
  run_batches (running_step g) (None, None) bs = Ok (Some (map Fin mn), Some (map Fin mx)) ->
  parameters_for_range (combine mn mx) b sym allow = Ok (ss, oo) ->
  seen g bs k x -> (exists y, seen g bs k y /\ ~ (y == x)%Q) ->
  exists s, nth_error ss k = Some s /\
    (fst (quantization_range s (nth_offset oo k) b) <= x <= snd (quantization_range s (nth_offset oo k) b))%Q.
Proof. exact running_no_clipping. Qed.
Print Assumptions C71_no_clipping.
Example C71_nonvacuous :
  exists ss oo, parameters_for_range (combine [0; -3]%Q [7; 4]%Q) 8 false true = Ok (ss, oo) /\
    seen (PerChannel [0%Z]) [ex_b1; ex_b2] 1 (-3)%Q /\ seen (PerChannel [0%Z]) [ex_b1; ex_b2] 1 4%Q.
Proof.
  do 2 eexists. split; [vm_compute; reflexivity|]. split.
  - exists ex_b1. split; [now left|]. exists (Tile [1; 2]), [1; 0]. split; [reflexivity|]. split; [repeat constructor|]. split; reflexivity.
  - exists ex_b2. split; [now right; left|]. exists (Tile [1; 3]), [1; 0]. split; [reflexivity|]. split; [repeat constructor|]. split; reflexivity.
Qed.
