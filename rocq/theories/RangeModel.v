(** Model of [src/fastforward/range_setting/{common,minmax,min_error}.py]. Data are finite
    rationals; thresholds may be infinite (before the first step). *)
From Verif Require Import Prelude TilingModel GranularityModel AffineModel OverrideModel.
From Coq Require Import QArith Qminmax.
Local Open Scope nat_scope.

Inductive ext := NInf | Fin (q : Q) | PInf.
Definition ext_min (a b : ext) : ext :=
  match a, b with
  | NInf, _ | _, NInf => NInf
  | PInf, x | x, PInf => x
  | Fin x, Fin y => Fin (Qmin x y)
  end.
Definition ext_max (a b : ext) : ext :=
  match a, b with
  | PInf, _ | _, PInf => PInf
  | NInf, x | x, NInf => x
  | Fin x, Fin y => Fin (Qmax x y)
  end.
Definition is_inf (a : ext) : bool := match a with Fin _ => false | _ => true end.

(** Elementwise operation on 1-d tensors with broadcasting. *)
Definition bcast {A B C} (f : A -> B -> C) (a : list A) (b : list B) : result (list C) :=
  if length a =? length b then Ok (map (fun '(x, y) => f x y) (combine a b))
  else match a, b with
       | [x], _ => Ok (map (f x) b)
       | _, [y] => Ok (map (fun x => f x y) a)
       | _, _ => Err RuntimeError
       end.

(** Row [i] of an (n, m) tensor. *)
Definition row {A} (r : tensor A) (i : nat) : list A :=
  match shape r with [n; m] => firstn m (skipn (i * m) (data r)) | _ => [] end.
(** [torch.min(r, -1).values] and [torch.max(r, -1).values] of an (n, m) tensor. *)
Definition row_mins (r : tensor Q) : result (list Q) :=
  match shape r with [n; m] => rmapM (fun i => list_min (row r i)) (seq 0 n) | _ => Err RuntimeError end.
Definition row_maxs (r : tensor Q) : result (list Q) :=
  match shape r with [n; m] => rmapM (fun i => list_max (row r i)) (seq 0 n) | _ => Err RuntimeError end.

(** The estimator's [min]/[max] buffers ([None] before the first step of a quantizer
    without a range: minmax.py:42-50, 186-190). *)
Definition buffers : Type := (option (list ext) * option (list ext))%type.

(** minmax.py:52-63 and 192-203 [initialize_parameters] *)
Definition init_buffers (g : granularity) (s : list nat) (st : buffers) : result (list ext * list ext) :=
  let? n := parameter_dimensionality g s in
  Ok (match fst st with None => repeat PInf n | Some l => l end,
      match snd st with None => repeat NInf n | Some l => l end).

(** minmax.py:74-81 and 214-219: per-tile extremes of a batch *)
Definition batch_extremes (g : granularity) (b : tensor Q) : result (list Q * list Q) :=
  let? ta := tile_size g (shape b) in
  let? r := tiles_to_rows b ta in
  let? mn := row_mins r in
  let? mx := row_maxs r in Ok (mn, mx).

(** minmax.py:205-228 [RunningMinMaxEstimator.estimate_step]: new buffers, which are also
    the range assigned to the quantizer. (The check for infinite data never fires on
    finite data.) *)
Definition running_step (g : granularity) (st : buffers) (b : tensor Q) : result buffers :=
  let? (mn, mx) := init_buffers g (shape b) st in
  let? (dmn, dmx) := batch_extremes g b in
  let? mn' := bcast (fun a x => ext_min a (Fin x)) mn dmn in
  let? mx' := bcast (fun a x => ext_max a (Fin x)) mx dmx in
  Ok (Some mn', Some mx').

(** minmax.py:65-91 [SmoothedMinMaxEstimator.estimate_step] *)
Definition mix (gamma : Q) (x : Q) (a : ext) : ext :=
  match a with Fin q => Fin (gamma * x + (1 - gamma) * q)%Q | e => e end.
Definition smoothed_step (g : granularity) (gamma : Q) (st : buffers) (b : tensor Q) : result buffers :=
  let? (mn, mx) := init_buffers g (shape b) st in
  let? (dmn, dmx) := batch_extremes g b in
  if existsb is_inf mn || existsb is_inf mx then Ok (Some (map Fin dmn), Some (map Fin dmx))
  else let? mn' := bcast (mix gamma) dmn mn in
       let? mx' := bcast (mix gamma) dmx mx in
       Ok (Some mn', Some mx').

(** Feeding a sequence of batches. *)
Definition run_batches {S B} (step : S -> B -> result S) (st : S) (bs : list B) : result S :=
  fold_left (fun r b => let? s := r in step s b) bs (Ok st).

(** common.py:210-236 [SimpleEstimatorStep.forward] as an override: the state [E] is the
    estimator with the quantizer's parameters; [step] covers the one-time set-up. *)
Definition estimator_override {V E} (step : E -> V -> result E) (disable : bool) : V -> beh V E :=
  fun x => BGet (fun s =>
    match step s x with
    | Err e => BRet (Err e)
    | Ok s' => BPut s' (if disable then BRet (Ok x) else BCall x BRet)
    end).

(** ** common.py:239-291 [estimate_ranges] *)
(** Preparing the quantizers one by one (minmax.py:127-149, 248-269, min_error.py:270-289): an
    unsupported one raises TypeError, unless it was skipped by [split_module]. On an exception
    the world is returned as it is then. [mk q] is the estimator registered on [q]. *)
Section Estimate.
  Context {O : Type} (supported : nat -> bool) (skip : bool) (mk : nat -> O).
  Fixpoint prepare_all (w : oworld O) (qs : list nat) : oworld O * (result (list handle)) :=
    match qs with
    | [] => (w, Ok [])
    | q :: qs' =>
        if supported q then
          let (w1, h) := register_override w q (mk q) in
          let (w2, r) := prepare_all w1 qs' in
          (w2, rmap (cons h) r)
        else if skip then prepare_all w qs' else (w, Err TypeError)
    end.

  (** Body of the block: it may register overrides, remove overrides registered before the
      block ([BRemOld]) or by itself ([BRemNew k]: its k-th), and stop at any point. *)
  Inductive bop := BReg (q : nat) (o : O) | BRemOld (h : handle) | BRemNew (k : nat).
  Definition bstep (st : oworld O * list handle) (b : bop) : oworld O * list handle :=
    let (w, hs) := st in
    match b with
    | BReg q o => let (w', h) := register_override w q o in (w', hs ++ [h])
    | BRemOld h => (snd (handle_remove w h), hs)
    | BRemNew k => match nth_error hs k with
                   | Some h => (snd (handle_remove w h), hs)
                   | None => st
                   end
    end.
  Definition run_body (w : oworld O) (body : list bop) : oworld O :=
    fst (fold_left bstep body (w, [])).

  (** [raises]: the body ends with an exception. Result: world, and whether an exception
      leaves the block. [finally] runs the clean-up in both cases (common.py:287-291,
      minmax.py:151-159). *)
  Definition estimate_ranges (w : oworld O) (qs : list nat) (body : list bop) (raises : bool) : oworld O * bool :=
    match prepare_all w qs with
    | (w1, Err _) => (w1, true)
    | (w1, Ok hs) =>
        let w2 := run_body w1 body in
        (fold_left (fun w h => snd (handle_remove w h)) hs w2, raises)
    end.
End Estimate.
Arguments BReg {O}. Arguments BRemOld {O}. Arguments BRemNew {O}.

(** ** min_error.py *)
(** [torch.linspace(a, b, n)] *)
Definition linspace (a b : Q) (n : nat) : list Q :=
  match n with
  | 0 => []
  | 1 => [a]
  | _ => map (fun i => a + inject_Z (Z.of_nat i) * ((b - a) / inject_Z (Z.of_nat (n - 1))))%Q (seq 0 n)
  end.

Definition qlist_min (l : list Q) : Q := match l with [] => 0%Q | a :: l' => fold_left Qmin l' a end.
(** [repeat(k, 1)] and [repeat_interleave(k, dim=0)] on a list of rows *)
Definition repeat_rows {A} (k : nat) (l : list A) : list A := flat_map (fun _ => l) (seq 0 k).
Definition repeat_interleave {A} (k : nat) (l : list A) : list A := flat_map (fun x => repeat x k) l.

(** min_error.py:74-149 [_UniformSearchGrid.__call__] on the per-tile minima and maxima of
    the sample; candidates are rows. [floor(sqrt(n))] is [Nat.sqrt]. *)
Definition uniform_grid (abs_margin rel_margin : Q) (mins maxs : list Q) (symmetric : bool) (n : nat)
  : list (list Q) * list (list Q) :=
  let max_data := map (fun x => rel_margin * x + abs_margin)%Q maxs in
  let min_data := map (fun x => rel_margin * x - abs_margin)%Q mins in
  let negative := negb (Qle_bool 0 (qlist_min min_data)) in
  if negb negative then
    (repeat (repeat 0%Q (length mins)) n,
     map (fun s => map (fun x => s * x)%Q max_data) (linspace (1 / inject_Z (Z.of_nat n)) 1 n))
  else if negb symmetric then
    let a := Nat.sqrt n in
    let b := a + n - a * a in
    let mn := map (fun s => map (fun x => s * (rel_margin * x + abs_margin))%Q min_data) (linspace 1 (6 # 10) a) in
    let mx := map (fun s => map (fun x => s * (rel_margin * x + abs_margin))%Q max_data) (linspace (6 # 10) 1 b) in
    (repeat_rows b mn, repeat_interleave a mx)
  else
    let m := map (fun '(x, y) => Qmax (Qabs.Qabs x) (Qabs.Qabs y)) (combine min_data max_data) in
    let mx := map (fun s => map (fun x => s * x)%Q m) (linspace (1 / inject_Z (Z.of_nat n)) 1 n) in
    (map (map Qopp) mx, mx).

(** The estimator after set-up (min_error.py:176-207): thresholds, cumulative errors (one row per
    candidate), the number of steps, and the range last assigned to the quantizer. *)
Record grid_state := mkG { g_min : list (list Q); g_max : list (list Q); g_err : list (list Q);
                           g_steps : nat; g_range : option (list Q * list Q) }.

Section Grid.
  (** [operator_for_range] followed by dequantization and the error function: error per
      tile for one candidate on one batch; may raise. *)
  Context {B : Type} (err : list Q -> list Q -> B -> result (list Q)).
  (** [Tensor.min(dim=0).indices] per column. *)
  Variable argmin : list Q -> nat.
  Variable n : nat.                      (* num_candidates *)
  Variable policy : nat -> bool.         (* update_range_policy, by step number *)

  (** min_error.py:192-207 *)
  Definition grid_setup (grid : list (list Q) * list (list Q)) : grid_state :=
    mkG (fst grid) (snd grid) (map (map (fun _ => 0%Q)) (fst grid)) 0 None.

  (** min_error.py:209-216: [min_threshold[best_grid, arange(P)]] *)
  Definition column (k : nat) (l : list (list Q)) : list Q := map (fun r => nth k r 0%Q) l.
  Definition best_range (st : grid_state) : list Q * list Q :=
    let p := length (hd [] (g_min st)) in
    let best := map (fun k => argmin (column k (g_err st))) (seq 0 p) in
    (map (fun '(i, k) => nth k (nth i (g_min st) []) 0%Q) (combine best (seq 0 p)),
     map (fun '(i, k) => nth k (nth i (g_max st) []) 0%Q) (combine best (seq 0 p))).

  Fixpoint set_row (i : nat) (r : list Q) (l : list (list Q)) : list (list Q) :=
    match l, i with
    | [], _ => []
    | _ :: l', 0 => r :: l'
    | x :: l', S i' => x :: set_row i' r l'
    end.

  (** min_error.py:218-228, the loop over candidates *)
  Fixpoint accumulate (st : grid_state) (b : B) (is : list nat) (errs : list (list Q)) : result (list (list Q)) :=
    match is with
    | [] => Ok errs
    | i :: is' =>
        match nth_error (g_min st) i, nth_error (g_max st) i, nth_error errs i with
        | Some mn, Some mx, Some e =>
            let? d := err mn mx b in
            let? e' := bcast Qplus e d in
            if length e' =? length e then accumulate st b is' (set_row i e' errs) else Err RuntimeError
        | _, _, _ => Err IndexError
        end
    end.
  (** min_error.py:218-232 *)
  Definition grid_step (st : grid_state) (b : B) : result grid_state :=
    let? errs := accumulate st b (seq 0 n) (g_err st) in
    let st1 := mkG (g_min st) (g_max st) errs (S (g_steps st)) (g_range st) in
    Ok (if policy (g_steps st1)
        then mkG (g_min st1) (g_max st1) errs (g_steps st1) (Some (best_range st1))
        else st1).
End Grid.

(** min_error.py:63-73, 218-228 for a per-tensor 8-bit asymmetric quantizer: parameters for
    the candidate range, quantize, dequantize, mean squared error of the single tile. *)
Definition mse_error (mn mx : list Q) (b : list Q) : result (list Q) :=
  let? (ss, oo) := parameters_for_range (combine mn mx) 8 false true in
  match ss with
  | [s] =>
      let o := match oo with Some [o] => Some o | _ => None end in
      let? qs := rmapM (quantize_elem s o 8) b in
      let ds := map (fun '(x, z) => (dequantize_elem s o z - x) * (dequantize_elem s o z - x))%Q (combine b qs) in
      Ok [Qred (qsum ds / inject_Z (Z.of_nat (length b)))%Q]
  | _ => Err RuntimeError
  end.
(** [Tensor.min(dim).indices]: the first smallest entry. *)
Fixpoint first_min_from (l : list Q) (i best : nat) (m : Q) : nat :=
  match l with
  | [] => best
  | x :: l' => if Qle_bool m x then first_min_from l' (S i) best m else first_min_from l' (S i) i x
  end.
Definition first_min (l : list Q) : nat :=
  match l with [] => 0 | x :: l' => first_min_from l' 1 0 x end.
