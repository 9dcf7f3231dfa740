(** Specification vocabulary for GPTQ. *)
From Verif Require Import Prelude TilingModel GranularityModel AffineModel FuseModel GptqModel.
From Coq Require Import QArith.
Local Open Scope nat_scope.

(** ** Hessian *)

(** An input vector of the layer. *)
Definition sample := nat -> Q.

(** The samples a layer with [n] input features gets from a calibration tensor: the
    vectors along the last of three dimensions, or the patches found by unfolding. *)
Definition samples_in (l : layer) (n : nat) (t : tensor Q) (xs : list sample) : Prop :=
  match l with
  | Linear => exists b s, shape t = [b; s; n] /\
      xs = map (fun k => fun i => nth (k * n + i) (data t) 0%Q) (seq 0 (b * s))
  | Conv2d unfold => exists k x, unfold t = Ok (n, k, x) /\ xs = map (fun s => fun i => x i s) (seq 0 k)
  end.

(** A dataset entry with one positional argument, and its samples. *)
Definition entry (l : layer) (n : nat) (s : store) (args : list nat) (xs : list sample) : Prop :=
  exists id, args = [id] /\ samples_in l n (act_data (s id)) xs /\ (act_sq (s id) == 1)%Q.

(** Sum of x x^T. *)
Definition moment (xs : list sample) (i j : nat) : Q := qsum (map (fun x => x i * x j)%Q xs).

(** No tensor that a linear layer scales in place is used twice. *)
Definition no_reuse (l : layer) (s : store) (ds : list (list nat)) : Prop :=
  l = Linear -> forall pre mid post id, ds = pre ++ [id] :: mid ++ [id] :: post -> act_aliases (s id) = false.

(** The Hessian of the calibration data: 2/N sum x x^T, with ones for features that are
    always zero. *)
Definition is_hessian (n : nat) (xs : list sample) (h : nat -> nat -> Q) : Prop :=
  forall i j, i < n -> j < n ->
    (i = j -> (moment xs i i == 0)%Q -> (h i j == 1)%Q) /\
    (~ (i = j /\ (moment xs i i == 0)%Q) ->
     (h i j == 2 / inject_Z (Z.of_nat (length xs)) * moment xs i j)%Q).

(** Dataset entries a layer with [n] input features cannot use. *)
Definition bad_entry (l : layer) (n : nat) (s : store) (args : list nat) : Prop :=
  length args <> 1 \/
  exists id, args = [id] /\
    match l with
    | Linear => length (shape (act_data (s id))) <> 3 \/
                exists b q f, shape (act_data (s id)) = [b; q; f] /\ f <> n /\ f <> 1
    | Conv2d unfold => exists f k x, unfold (act_data (s id)) = Ok (f, k, x) /\ f <> n /\ f <> 1
    end.

(** ** Columns *)
From Verif Require Import TilingSpec AffineSpec GranularitySpec.

(** Granularities [gptq] accepts for a weight matrix. *)
Definition supported (g : granularity) : Prop :=
  match g with
  | PerTensor | PerChannel [0%Z] | PerChannel [1%Z] | PerChannel [0%Z; 1%Z] | PerBlock _ _ _ true | PerTile _ => True
  | _ => False
  end.

(** The quantizer's parameters fit a (rows, cols) matrix, with tile sides [tile]. *)
Definition fits_matrix (rows cols : nat) (tile : list nat) (q : quantizer) : Prop :=
  0 < rows /\ 0 < cols /\ supported (q_gran q) /\ regular (q_gran q) /\
  (exists ta, tile_size (q_gran q) [rows; cols] = Ok ta /\ resolve_tile [rows; cols] ta = tile) /\
  length (q_scale q) = prod (grid [rows; cols] tile) /\
  (forall o, q_offset q = Some o -> length o = length (q_scale q)).

(** Scale and offset of the tile that contains an element. *)
Definition scale_of (rows cols : nat) (tile : list nat) (q : quantizer) (r c : nat) : option Q :=
  nth_error (q_scale q) (tile_row [rows; cols] tile [r; c]).
Definition offset_of (rows cols : nat) (tile : list nat) (q : quantizer) (r c : nat) : option Q :=
  nth_offset (q_offset q) (tile_row [rows; cols] tile [r; c]).

(** [y] is the quantize-dequantize value of [u] for the tile of an element. *)
Definition snaps (rows cols : nat) (tile : list nat) (q : quantizer) (r c : nat) (u y : Q) : Prop :=
  exists s z, scale_of rows cols tile q r c = Some s /\
    quantize_elem s (offset_of rows cols tile q r c) (q_bits q) u = Ok z /\
    y = dequantize_elem s (offset_of rows cols tile q r c) z.

(** The GPTQ recurrence, column after column in the given order: each column, corrected by
    the errors of the columns before it, is snapped to the grid; [e] is the error
    weighted by the inverse Hessian factor. *)
Definition recurrence (rows cols : nat) (tile : list nat) (q : quantizer) (w : nat -> nat -> Q) (order : nat -> nat)
    (hinv : nat -> nat -> Q) (y e : nat -> nat -> Q) : Prop :=
  forall r p, r < rows -> p < cols ->
    let u := (w r (order p) - qsum (map (fun k => e r k * hinv k p) (seq 0 p)))%Q in
    snaps rows cols tile q r (order p) u (y r p) /\ (e r p * hinv p p == u - y r p)%Q.

(** [m] is [h] in the given column order, with [damp] times the mean of the diagonal added
    to the diagonal. *)
Definition damped (n : nat) (damp : Q) (h : nat -> nat -> Q) (order : nat -> nat) (m : nat -> nat -> Q) : Prop :=
  forall i j, i < n -> j < n ->
    (m i j == h (order i) (order j) +
       if i =? j then damp * (qsum (map (fun k => h (order k) (order k)) (seq 0 n)) / inject_Z (Z.of_nat n)) else 0)%Q.

(** Equal but for scale and offset. *)
Definition settings (q q' : quantizer) : Prop :=
  q_gran q' = q_gran q /\ q_bits q' = q_bits q /\ q_symmetric q' = q_symmetric q /\ q_one_sided q' = q_one_sided q /\ q_out q' = q_out q.

(** ** Groups *)
From Verif Require RangeSpec.

(** Smallest and largest of the values [u] in column group [g] (columns with [c / cb = g])
    and row block [k]. *)
Definition in_group (rows rb cb : nat) (u : nat -> nat -> Q) (g k : nat) (x : Q) : Prop :=
  exists r c, r < rows /\ r / rb = k /\ c / cb = g /\ (x == u r c)%Q.

(** The parameters of column group [g] were computed from the ranges of the values [u]. *)
Definition group_scaled (rows cols rb cb : nat) (q : quantizer) (u : nat -> nat -> Q) (g : nat) : Prop :=
  exists ranges scales offsets,
    length ranges = rows / rb /\
    (forall k mn mx, nth_error ranges k = Some (mn, mx) ->
       RangeSpec.is_min (in_group rows rb cb u g k) mn /\ RangeSpec.is_max (in_group rows rb cb u g k) mx) /\
    parameters_for_range ranges (q_bits q) (q_symmetric q) (q_one_sided q) = Ok (scales, offsets) /\
    forall r c, r < rows -> c / cb = g ->
      scale_of rows cols [rb; cb] q r c = nth_error scales (r / rb) /\
      offset_of rows cols [rb; cb] q r c =
        match q_offset q, offsets with
        | None, _ => None
        | Some _, None => Some 0%Q
        | Some _, Some os => nth_error os (r / rb)
        end.

(** Weights corrected by the errors of the first [n] columns. *)
Definition corrected (w e hinv : nat -> nat -> Q) (n r c : nat) : Q :=
  (w r c - qsum (map (fun k => e r k * hinv k c) (seq 0 n)))%Q.
