(** Model of the entry points of affine quantization:
    fastforward/quantization/affine/function.py, affine/static.py, affine/dynamic.py, the
    wrappers of affine/_autograd.py, [QuantizationContext.attach] of quantization/function.py,
    and [quantize_dynamic_by_tile_impl] of quantization/_quantizer_impl.py on tensors.

    Simplifications: numbers are exact rationals, so that casting a value to a floating point
    dtype is the identity; casting to an integer dtype truncates and wraps around; devices and
    gradients are left out; a tensor of parameters is the list of its elements
    ([reshape(-1)]); tensors of parameters hold floating point numbers. *)
From Verif Require Import Prelude TilingModel GranularityModel AffineModel.
From Coq Require Import QArith Qround.
Local Open Scope nat_scope.

(** A tensor: its dtype and its values; a tensor of stored codes. *)
Record dten := mkD { d_dtype : dtype; d_val : tensor Q }.
Record codes := mkC { c_dtype : dtype; c_raw : tensor Z }.

Definition is_float (d : dtype) : bool := match d with FloatT _ => true | IntT _ _ => false end.
(** [torch.get_default_dtype()] *)
Definition default_dtype : dtype := FloatT 23.

(** [.to(dtype)] of an integral value.  A floating point format that cannot hold the integer
    rounds it; that never happens to codes (see [can_support_bitwidth]) and is left out. *)
Definition cast_code (d : dtype) (z : Z) : Z := match store d z with Some v => v | None => z end.

(** Conversion of a number to an integer: towards zero. *)
Definition trunc (q : Q) : Z := if Qle_bool 0 q then Qfloor q else (- Qfloor (- q))%Z.

(** [.to(dtype)] and [torch.tensor(q, dtype=dtype)] of a number *)
Definition cast_num (d : dtype) (q : Q) : Q :=
  match d with FloatT _ => q | IntT _ _ => QofZ (cast_code d (trunc q)) end.

(** A scale or an offset: a Python number or a tensor. *)
Inductive arg := Num (q : Q) | Ten (l : list Q).

(** common.py:59-75 [tensor_or_none]: tensors are left as they are *)
Definition as_tensor (d : dtype) (a : arg) : list Q :=
  match a with Num q => [cast_num d q] | Ten l => l end.

Definition or_dtype (a : option dtype) (d : dtype) : dtype := match a with Some a => a | None => d end.

(** _autograd.py:27-38 and 68-88 *)
Definition quantize_affine (x : dten) (scale : arg) (offset : option arg) (tile : tile_arg)
    (b : positive) (out : dtype) : result codes :=
  let dt := if is_float (d_dtype x) then d_dtype x else default_dtype in
  let? z := quantize_by_tile (d_val x) (as_tensor dt scale)
              (Tile (resolve_tile (shape (d_val x)) tile)) b out (option_map (as_tensor dt) offset) in
  Ok (mkC out (tmap (cast_code out) z)).

(** _autograd.py:41-52 and 136-148 *)
Definition dequantize_affine (c : codes) (scale : arg) (offset : option arg) (tile : tile_arg)
    (dt : option dtype) : result dten :=
  let dt := match dt with
            | Some dt => dt
            | None => if is_float (c_dtype c) then c_dtype c else default_dtype
            end in
  let? v := dequantize_by_tile (c_raw c) (as_tensor dt scale)
              (Tile (resolve_tile (shape (c_raw c)) tile)) (option_map (as_tensor dt) offset) in
  Ok (mkD dt (tmap (cast_num dt) v)).

(** Row [i] of a matrix with rows of [m] elements *)
Definition row_of {A} (m : nat) (l : list A) (i : nat) : list A := firstn m (skipn (i * m) l).

(** torch.min and torch.max over the rows; empty rows raise QuantizationError
    (_quantizer_impl.py:259-264) *)
Definition row_extremes (r : tensor Q) : result (list (Q * Q)) :=
  match shape r with
  | [n; m] =>
      rmapM (fun i =>
        match list_min (row_of m (data r) i), list_max (row_of m (data r) i) with
        | Ok mn, Ok mx => Ok (mn, mx)
        | _, _ => Err QuantizationError
        end) (seq 0 n)
  | _ => Err RuntimeError
  end.

(** _quantizer_impl.py:243-284 [quantize_dynamic_by_tile_impl] (and _autograd.py:55-65,
    107-122) *)
Definition quantize_dynamic_affine (x : dten) (tile : tile_arg) (b : positive)
    (symmetric allow_one_sided : bool) (out : dtype) : result (codes * list Q * list Q) :=
  let tile := Tile (resolve_tile (shape (d_val x)) tile) in
  let? rows := tiles_to_rows (d_val x) tile in
  let? ranges := row_extremes rows in
  let? (scale, offset) := parameters_for_range ranges b symmetric allow_one_sided in
  let offset := infer_offsets offset scale in
  let? d := rowwise (fun s x => qdiv x s) rows scale in
  let? u := rowwise (fun o x => Ok (x - QofZ o)%Q) d offset in
  let q := tmap (fun x => clamp (round_half_even x) (integer_minimum b) (integer_maximum b)) u in
  let? res := rows_to_tiles q (shape (d_val x)) tile in
  if can_support_bitwidth out b
  then Ok (mkC out (tmap (cast_code out) res), scale, map QofZ offset)
  else Err RuntimeError.

(** function.py:32-42 *)
Record static := mkS {
  s_scale : arg; s_offset : option arg; s_bits : positive; s_gran : granularity;
  s_qdtype : option dtype; s_ddtype : option dtype
}.

(** function.py:51-62; [parameter_inference_fn] is given the parameters as well, which a
    function of the data alone can contain. *)
Record dynamic := mkY {
  y_bits : positive; y_gran : granularity; y_symmetric : bool; y_one_sided : bool;
  y_qdtype : option dtype; y_ddtype : option dtype;
  y_infer : option (dten -> result (list Q * option (list Q)))
}.

Inductive params := Static (p : static) | Dynamic (p : dynamic).

(** What quantization returns: a QuantizedTensor, or an ordinary tensor (in export mode). *)
Inductive output := Quantized (c : codes) (p : params) | Plain (x : dten).

(** function.py:178-188 [AffineQuantizationFunction.dequantize] *)
Definition dequantize (c : codes) (p : params) : result dten :=
  match p with
  | Dynamic _ => Err TypeError
  | Static p =>
      let? tile := tile_size (s_gran p) (shape (c_raw c)) in
      dequantize_affine c (s_scale p) (s_offset p) tile (s_ddtype p)
  end.

(** quantized_tensor.py:384-388 [QuantizedTensor.dequantize] *)
Definition dequantized (o : output) : result dten :=
  match o with Quantized c p => dequantize c p | Plain x => Ok x end.

(** function.py:122-138 [_static_quantize] *)
Definition static_quantize (x : dten) (p : static) : result output :=
  let? tile := tile_size (s_gran p) (shape (d_val x)) in
  let? c := quantize_affine x (s_scale p) (s_offset p) tile (s_bits p) (or_dtype (s_qdtype p) (d_dtype x)) in
  Ok (Quantized c (Static (mkS (s_scale p) (s_offset p) (s_bits p) (s_gran p) (s_qdtype p)
                               (Some (or_dtype (s_ddtype p) (d_dtype x)))))).

(** function.py:191-212 [_static_from_dynamic], called with the dtype of the data *)
Definition static_from_dynamic (p : dynamic) (scale : list Q) (offset : option (list Q)) (x : dten) : static :=
  mkS (Ten scale) (option_map Ten offset) (y_bits p) (y_gran p) (y_qdtype p)
      (Some (or_dtype (y_ddtype p) (d_dtype x))).

(** function.py:140-176 [_dynamic_quantize], [_dynamic_minmax_quantize] *)
Definition dynamic_quantize (x : dten) (p : dynamic) : result output :=
  match y_infer p with
  | None =>
      let? tile := tile_size (y_gran p) (shape (d_val x)) in
      let? (c, scale, offset) :=
        quantize_dynamic_affine x tile (y_bits p) (y_symmetric p) (y_one_sided p)
          (or_dtype (y_qdtype p) (d_dtype x)) in
      Ok (Quantized c (Static (static_from_dynamic p scale (Some offset) x)))
  | Some infer =>
      let? (scale, offset) := infer x in
      static_quantize x (static_from_dynamic p scale offset x)
  end.

(** function.py:93-120 [_export_quantize] *)
Definition export_quantize (x : dten) (p : params) : result output :=
  match p with
  | Dynamic _ => Err ExportError
  | Static p =>
      let? tile := tile_size (s_gran p) (shape (d_val x)) in
      let? c := quantize_affine x (s_scale p) (s_offset p) tile (s_bits p) (or_dtype (s_qdtype p) (d_dtype x)) in
      let? v := dequantize_affine c (s_scale p) (s_offset p) tile (Some (or_dtype (s_qdtype p) (d_dtype x))) in
      Ok (Plain v)
  end.

(** function.py:72-91 [AffineQuantizationFunction.quantize]; [export] is the export mode. *)
Definition quantize (export : bool) (x : dten) (p : params) : result output :=
  if export then export_quantize x p
  else match p with Static p => static_quantize x p | Dynamic p => dynamic_quantize x p end.

(** quantization/function.py:156-166 [QuantizationContext.attach] *)
Definition attach (export : bool) (c : codes) (p : params) : result output :=
  if export then rmap Plain (dequantize c p) else Ok (Quantized c p).

(** ** static.py *)

(** static.py:19-54: the parameters of the context *)
Definition static_context (scale : arg) (offset : option arg) (g : option granularity) (b : positive)
    (out deq : option dtype) : params :=
  Static (mkS scale offset b (match g with Some g => g | None => PerTensor end) out deq).

(** static.py:91-121 *)
Definition st_by_tile (export : bool) (x : dten) (scale : arg) (offset : option arg) (tile : list nat)
    (b : positive) (out : option dtype) : result output :=
  quantize export x (Static (mkS scale offset b (PerTile tile) out None)).

(** static.py:124-150 *)
Definition st_per_tensor (export : bool) (x : dten) (scale : arg) (offset : option arg)
    (b : positive) (out : option dtype) : result output :=
  quantize export x (Static (mkS scale offset b PerTensor out None)).

(** static.py:153-181 *)
Definition st_per_channel (export : bool) (x : dten) (scale : arg) (offset : option arg) (axis : list Z)
    (b : positive) (out : option dtype) : result output :=
  quantize export x (Static (mkS scale offset b (PerChannel axis) out None)).

(** static.py:57-88 *)
Definition st_per_granularity (export : bool) (x : dten) (scale : arg) (offset : option arg)
    (g : granularity) (b : positive) (out : option dtype) : result output :=
  match g with
  | PerTensor => st_per_tensor export x scale offset b out
  | PerChannel axis => st_per_channel export x scale offset axis b out
  | _ =>
      let? tile := tile_size g (shape (d_val x)) in
      match tile with
      | DataShape => Err AssertionError
      | Tile t => st_by_tile export x scale offset t b out
      end
  end.

(** static.py:209-212, dynamic.py:229-232: the tile of a block *)
Definition block_tile (s : list nat) (channel_axis block_axis : Z) (block_size : nat) : result (list nat) :=
  let? t := py_set s channel_axis 1 in py_set t block_axis block_size.

(** static.py:184-213 *)
Definition st_per_block (export : bool) (x : dten) (scale : arg) (offset : option arg)
    (channel_axis block_axis : Z) (block_size : nat) (b : positive) (out : option dtype) : result output :=
  let? t := block_tile (shape (d_val x)) channel_axis block_axis block_size in
  st_by_tile export x scale offset t b out.

(** ** dynamic.py *)

(** dynamic.py:22-53 *)
Definition dynamic_context (g : granularity) (b : positive) (symmetric allow_one_sided : bool)
    (out deq : option dtype) : params :=
  Dynamic (mkY b g symmetric allow_one_sided out deq None).

(** dynamic.py:109-138 *)
Definition dy_by_tile (export : bool) (x : dten) (tile : list nat) (b : positive)
    (symmetric allow_one_sided : bool) (out : option dtype) : result output :=
  quantize export x (Dynamic (mkY b (PerTile tile) symmetric allow_one_sided out None None)).

(** dynamic.py:141-168 *)
Definition dy_per_tensor (export : bool) (x : dten) (b : positive)
    (symmetric allow_one_sided : bool) (out : option dtype) : result output :=
  quantize export x (Dynamic (mkY b PerTensor symmetric allow_one_sided out None None)).

(** dynamic.py:171-200 *)
Definition dy_per_channel (export : bool) (x : dten) (axis : list Z) (b : positive)
    (symmetric allow_one_sided : bool) (out : option dtype) : result output :=
  quantize export x (Dynamic (mkY b (PerChannel axis) symmetric allow_one_sided out None None)).

(** dynamic.py:56-106 *)
Definition dy_per_granularity (export : bool) (x : dten) (g : granularity) (b : positive)
    (symmetric allow_one_sided : bool) (out : option dtype) : result output :=
  match g with
  | PerTensor => dy_per_tensor export x b symmetric allow_one_sided out
  | PerChannel axis => dy_per_channel export x axis b symmetric allow_one_sided out
  | _ =>
      let? tile := tile_size g (shape (d_val x)) in
      match tile with
      | DataShape => Err AssertionError
      | Tile t => dy_by_tile export x t b symmetric allow_one_sided out
      end
  end.

(** dynamic.py:203-241 *)
Definition dy_per_block (export : bool) (x : dten) (channel_axis block_axis : Z) (block_size : nat)
    (b : positive) (symmetric allow_one_sided : bool) (out : option dtype) : result output :=
  let? t := block_tile (shape (d_val x)) channel_axis block_axis block_size in
  quantize export x (Dynamic (mkY b (PerTile t) symmetric allow_one_sided out None None)).
