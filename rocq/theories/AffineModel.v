(** Model of fastforward/quantization/affine/range.py,
    fastforward/quantization/_quantizer_impl.py and the range accessors of
    fastforward/nn/linear_quantizer.py.

    Simplifications: floating point numbers are exact rationals; [num_bits] is a
    positive integer (the annotations allow floats); a division by zero, which gives
    inf/nan in torch, is the error value [Err ZeroDivisionError]. *)
From Verif Require Import Prelude TilingModel.
From Coq Require Import QArith Qround Qabs Qminmax.
Local Open Scope Q_scope.

Definition QofZ : Z -> Q := inject_Z.

(** torch.round: nearest integer, ties to even. *)
Definition round_half_even (q : Q) : Z :=
  let f := Qfloor q in
  match Qcompare (q - QofZ f) (1 # 2) with
  | Lt => f
  | Gt => (f + 1)%Z
  | Eq => if Z.even f then f else (f + 1)%Z
  end.

(** torch division; see header. *)
Definition qdiv (a b : Q) : result Q :=
  if Qeq_bool b 0 then Err ZeroDivisionError else Ok (a / b).

(** range.py:9-17, _quantizer_impl.py:158 *)
Definition integer_minimum (b : positive) : Z := (- 2 ^ (Zpos b - 1))%Z.
(** range.py:20-28, _quantizer_impl.py:159 *)
Definition integer_maximum (b : positive) : Z := (- integer_minimum b - 1)%Z.

(** torch.clamp(z, lo, hi) *)
Definition clamp (z lo hi : Z) : Z := Z.min (Z.max z lo) hi.

(** range.py:31-51, one parameter *)
Definition quantization_range (scale : Q) (offset : option Q) (b : positive) : Q * Q :=
  let offset := match offset with None => 0 | Some o => o end in
  ((QofZ (integer_minimum b) + offset) * scale, (QofZ (integer_maximum b) + offset) * scale).

(** torch.finfo(torch.float32).eps *)
Definition eps32 : Q := 1 # 8388608.

(** range.py:107-111, one element *)
Definition symmetric_scale (mn mx : Q) (b : positive) : result Q :=
  let? neg_scale := qdiv (Qabs mn) (QofZ (Z.abs (integer_minimum b))) in
  let? pos_scale := qdiv (Qabs mx) (QofZ (Z.abs (integer_maximum b))) in
  Ok (Qmax neg_scale pos_scale).

(** range.py:117-122, one element *)
Definition asymmetric_params (mn mx : Q) (b : positive) : result (Q * Q) :=
  let num_steps := QofZ (2 ^ Zpos b - 1) in
  let? s := qdiv (mx - mn) num_steps in
  let scale := Qmax s eps32 in
  let? o := qdiv mn scale in
  Ok (scale, o - QofZ (integer_minimum b)).

(** range.py:100 *)
Definition is_one_sided (mins : list Q) (allow_one_sided : bool) : bool :=
  forallb (fun m => Qle_bool 0 m) mins && allow_one_sided.

(** range.py:54-122.  [ranges] is the zip of min_range and max_range (their
    dimensionality must match); an empty min_range makes [.min()] raise. *)
Definition parameters_for_range (ranges : list (Q * Q)) (b : positive)
    (symmetric allow_one_sided : bool) : result (list Q * option (list Q)) :=
  match ranges with
  | [] => Err RuntimeError
  | _ =>
    let one_sided := is_one_sided (map fst ranges) allow_one_sided in
    let ranges := if symmetric && one_sided then map (fun '(_, mx) => (0, mx)) ranges else ranges in
    if symmetric && negb one_sided then
      let? scales := rmapM (fun '(mn, mx) => symmetric_scale mn mx b) ranges in
      Ok (scales, None)
    else
      let? ps := rmapM (fun '(mn, mx) => asymmetric_params mn mx b) ranges in
      Ok (map fst ps, Some (map snd ps))
  end.

(** _quantizer_impl.py:140-141 _infer_offset, one element *)
Definition infer_offset (o : option Q) : Z :=
  match o with Some o => round_half_even o | None => 0%Z end.

(** _quantizer_impl.py:158-162, one element *)
Definition quantize_elem (scale : Q) (offset : option Q) (b : positive) (x : Q) : result Z :=
  let? d := qdiv x scale in
  Ok (clamp (round_half_even (d - QofZ (infer_offset offset))) (integer_minimum b) (integer_maximum b)).

(** _quantizer_impl.py:186, one element *)
Definition dequantize_elem (scale : Q) (offset : option Q) (z : Z) : Q :=
  (QofZ z + QofZ (infer_offset offset)) * scale.

(** Row-wise broadcasting of a parameter vector: [r op p[:, None]] for r of shape (n, m)
    and p of length k, with torch broadcasting of the first dimension. *)
Definition rowwise {A B P} (f : P -> A -> result B) (r : tensor A) (ps : list P) : result (tensor B) :=
  match shape r with
  | [n; m] =>
      let k := length ps in
      if ((k =? n) || (k =? 1) || (n =? 1))%nat then
        let rows := (if n =? 1 then k else n)%nat in
        let? d := rmapM (fun '(i, j) =>
          match nth_error ps (if k =? 1 then 0 else i)%nat,
                nth_error (data r) ((if n =? 1 then 0 else i) * m + j)%nat with
          | Some p, Some a => f p a
          | _, _ => Err IndexError
          end) (list_prod (seq 0 rows) (seq 0 m)) in
        Ok (mkT [rows; m] d)
      else Err RuntimeError
  | _ => Err RuntimeError
  end.

Definition tmap {A B} (f : A -> B) (t : tensor A) : tensor B := mkT (shape t) (map f (data t)).

(** Output dtypes accepted by can_support_bitwidth (_quantizer_impl.py:44-75):
    floating point formats by mantissa width, integer formats by width/signedness. *)
Inductive dtype := FloatT (mantissa : nat) | IntT (bits : nat) (signed : bool).

(** _quantizer_impl.py:44-75 *)
Definition can_support_bitwidth (d : dtype) (b : positive) : bool :=
  let available := match d with FloatT m => m | IntT w _ => w end in
  (Pos.to_nat b <=? available + 2)%nat.

(** _infer_offset on vectors: reshape(-1), round; zeros like scale if None *)
Definition infer_offsets (offset : option (list Q)) (scale : list Q) : list Z :=
  match offset with Some os => map round_half_even os | None => map (fun _ => 0%Z) scale end.

(** _quantizer_impl.py:144-169.  The final cast to [output_dtype] is modelled
    separately ([store] below); codes are integers here. *)
Definition quantize_by_tile (t : tensor Q) (scale : list Q) (tile : tile_arg) (b : positive)
    (out : dtype) (offset : option (list Q)) : result (tensor Z) :=
  let offset := infer_offsets offset scale in
  let? rows := tiles_to_rows t tile in
  let? d := rowwise (fun s x => qdiv x s) rows scale in
  let? u := rowwise (fun o x => Ok (x - QofZ o)) d offset in
  let q := tmap (fun x => clamp (round_half_even x) (integer_minimum b) (integer_maximum b)) u in
  let? res := rows_to_tiles q (shape t) tile in
  if can_support_bitwidth out b then Ok res else Err RuntimeError.

(** _quantizer_impl.py:172-190 *)
Definition dequantize_by_tile (t : tensor Z) (scale : list Q) (tile : tile_arg)
    (offset : option (list Q)) : result (tensor Q) :=
  let offset := infer_offsets offset scale in
  let? rows := tiles_to_rows t tile in
  let? a := rowwise (fun o z => Ok (QofZ z + QofZ o)) rows offset in
  let? d := rowwise (fun s x => Ok (x * s)) a scale in
  rows_to_tiles d (shape t) tile.

(** Cast of an integral value to the storage dtype: floating point formats keep
    integers that fit the significand (None: not exactly representable), integer
    formats wrap around. *)
Definition store (d : dtype) (z : Z) : option Z :=
  match d with
  | FloatT m => if (Z.abs z <=? 2 ^ (Z.of_nat m + 1))%Z then Some z else None
  | IntT w false => Some (z mod 2 ^ Z.of_nat w)%Z
  | IntT w true =>
      let r := (z mod 2 ^ Z.of_nat w)%Z in
      Some (if (r <? 2 ^ (Z.of_nat w - 1))%Z then r else (r - 2 ^ Z.of_nat w)%Z)
  end.

(** _quantizer_impl.py:193-237, one element: (dinput, dscale contribution, doffset
    contribution). *)
Definition grad_elem (scale : Q) (offset : option Q) (b : positive) (x g : Q) : result (Q * Q * Q) :=
  let o := infer_offset offset in
  let? d := qdiv x scale in
  let pre_round := d - QofZ o in
  let quantized := round_half_even pre_round in
  let lo := integer_minimum b in
  let hi := integer_maximum b in
  let clip := ((quantized <? lo)%Z || (hi <? quantized)%Z)%bool in
  let dinput := if clip then 0 else g in
  let doffset := if clip then scale * g else 0 in
  let dscale := if clip
                then (QofZ (if (quantized <? lo)%Z then lo else hi) + QofZ o) * g
                else (QofZ quantized - pre_round) * g in
  Ok (dinput, dscale, doffset).

Definition qsum (l : list Q) : Q := fold_right Qplus 0 l.

(** _quantizer_impl.py:222-236, one tile (row): elementwise dinput, summed dscale and
    doffset (doffset is the empty tensor when there is no offset). *)
Definition grad_row (scale : Q) (offset : option Q) (b : positive) (xg : list (Q * Q))
  : result (list Q * Q * option Q) :=
  let? r := rmapM (fun '(x, g) => grad_elem scale offset b x g) xg in
  Ok (map (fun '(a, _, _) => a) r,
      qsum (map (fun '(_, s, _) => s) r),
      match offset with None => None | Some _ => Some (qsum (map (fun '(_, _, o) => o) r)) end).

(** torch.min / torch.max over a row; an empty row raises IndexError. *)
Definition list_min (l : list Q) : result Q :=
  match l with [] => Err IndexError | a :: l' => Ok (fold_left Qmin l' a) end.
Definition list_max (l : list Q) : result Q :=
  match l with [] => Err IndexError | a :: l' => Ok (fold_left Qmax l' a) end.

(** _quantizer_impl.py:257-278 on the rows (one row per tile). *)
Definition quantize_dynamic_rows (rows : list (list Q)) (b : positive) (symmetric allow_one_sided : bool)
  : result (list (list Z) * list Q * list Z) :=
  let? mins := rmapM (fun r => match list_min r with Ok v => Ok v | Err _ => Err QuantizationError end) rows in
  let? maxs := rmapM (fun r => match list_max r with Ok v => Ok v | Err _ => Err QuantizationError end) rows in
  let? (scale, offset) := parameters_for_range (combine mins maxs) b symmetric allow_one_sided in
  let offset := infer_offsets offset scale in
  let? q := rmapM (fun '(r, (s, o)) =>
      rmapM (fun x => let? d := qdiv x s in
        Ok (clamp (round_half_even (d - QofZ o)) (integer_minimum b) (integer_maximum b))) r)
    (combine rows (combine scale offset)) in
  Ok (q, scale, offset).

(** State of a LinearQuantizer's parameters (one tile): linear_quantizer.py:147-173.
    [offset_slot]: None when symmetric without one-sided support. *)
Record lq := mkLq { lq_bits : positive; lq_symmetric : bool; lq_one_sided : bool;
                    lq_scale : Q; lq_offset : option Q }.

(** linear_quantizer.py:310-325 *)
Definition lq_get_range (q : lq) : Q * Q := quantization_range (lq_scale q) (lq_offset q) (lq_bits q).

(** linear_quantizer.py:327-357 (a single parameter) *)
Definition lq_set_range (q : lq) (mn mx : Q) : result lq :=
  let? (s, o) := parameters_for_range [(mn, mx)] (lq_bits q) (lq_symmetric q) (lq_one_sided q) in
  match s with
  | [s] =>
      Ok (mkLq (lq_bits q) (lq_symmetric q) (lq_one_sided q) s
        (match lq_offset q, o with
         | None, _ => None
         | Some _, Some [o] => Some o
         | Some _, _ => Some 0
         end))
  | _ => Err RuntimeError
  end.
