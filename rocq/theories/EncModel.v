(** Model of the export of quantization encodings:
    fastforward/export/{_export_schemas,_lpbq,_export_types}.py, the metadata part of
    fastforward/export/stages/onnx/onnx_export_stages.py and
    fastforward/export/stages/annotations.py.

    Simplifications: numbers are exact rationals ([.item()], [.tolist()], json.dumps and
    json.loads of numbers are the identity); a scale or offset is a number (0-d tensor) or a
    vector; bit widths are positive; dictionary entries with constant values ("dtype",
    "version", "quantizer_args", the format keys of the metadata) are left out; log
    messages are left out. *)
From Coq Require Import String.
From Verif Require Import Prelude TilingModel GranularityModel AffineModel.
From Coq Require Import QArith.
Local Open Scope nat_scope.
Local Open Scope list_scope.

(** ** Parameters *)

(** A tensor of parameters: 0-d or 1-d. *)
Inductive param := Scalar (q : Q) | Vec (l : list Q).

Definition pelems (p : param) : list Q := match p with Scalar q => [q] | Vec l => l end.
Definition pmap (f : Q -> Q) (p : param) : param :=
  match p with Scalar q => Scalar (f q) | Vec l => Vec (map f l) end.

(** Iteration over a tensor: a 0-d tensor raises TypeError. *)
Definition piter (p : param) : result (list Q) :=
  match p with Scalar _ => Err TypeError | Vec l => Ok l end.

(** [.item()]: one element only *)
Definition pitem (p : param) : result Q :=
  match pelems p with [q] => Ok q | _ => Err RuntimeError end.

(** An element-wise binary operation with broadcasting *)
Definition pbroadcast (f : Q -> Q -> Q) (a b : param) : result param :=
  match a, b with
  | Scalar x, _ => Ok (pmap (f x) b)
  | Vec l, Scalar y => Ok (Vec (map (fun x => f x y) l))
  | Vec l, Vec [y] => Ok (Vec (map (fun x => f x y) l))
  | Vec [x], Vec m => Ok (Vec (map (f x) m))
  | Vec l, Vec m =>
      if length l =? length m then Ok (Vec (map (fun '(x, y) => f x y) (combine l m)))
      else Err RuntimeError
  end.

(** "num_bits" is a number: integer valued or not. *)
Inductive num_bits := IntBits (b : positive) | FracBits (q : Q).

(** _export_schemas.py:28-33 *)
Definition strict_cast_to_int (n : num_bits) : result positive :=
  match n with IntBits b => Ok b | FracBits _ => Err ExportError end.

(** _export_types.py:13-19 QuantParametersDict.  [torch.Size(None)] raises TypeError. *)
Record quant_params := mkQP {
  q_scale : param; q_offset : option param; q_bits : num_bits;
  q_tile : option (list nat); q_shape : option (list nat)
}.

(** _export_types.py:22-30 *)
Record processed := mkPP {
  p_scale : param; p_offset : param; p_qnn_offset : param; p_bits : positive;
  p_symmetric : bool; p_shape : list nat; p_tile : list nat
}.

(** [torch.Size(x)] *)
Definition to_size (x : option (list nat)) : result (list nat) :=
  match x with Some s => Ok s | None => Err TypeError end.

(** _export_schemas.py:36-60.  [torch.all] of a tensor: every element is nonzero. *)
Definition preprocess (e : quant_params) : result processed :=
  let? data_shape := to_size (q_shape e) in
  let? tile_size := to_size (q_tile e) in
  let offset := match q_offset e with Some o => o | None => pmap (fun _ => 0%Q) (q_scale e) end in
  let offset := pmap (fun o => QofZ (round_half_even o)) offset in
  let is_symmetric := negb (forallb (fun o => negb (Qeq_bool o 0)) (pelems offset)) in
  let? bitwidth := strict_cast_to_int (q_bits e) in
  let qnn_offset := pmap (fun o => (o - QofZ (2 ^ (Zpos bitwidth - 1)))%Q) offset in
  Ok (mkPP (q_scale e) offset qnn_offset bitwidth is_symmetric data_shape tile_size).

(** ** LPBQ *)

(** _lpbq.py:18-46: the two bit widths, validated by __new__ *)
Definition lpbq_new (compressed_bw decompressed_bw : Z) : result (positive * positive) :=
  if ((compressed_bw <=? 0) || (decompressed_bw <=? 0))%Z then Err ValueError else
  if (decompressed_bw <=? compressed_bw)%Z then Err ValueError else
  if (8 <? compressed_bw)%Z then Err ValueError else
  if (32 <? decompressed_bw)%Z then Err ValueError else
  Ok (Z.to_pos compressed_bw, Z.to_pos decompressed_bw).

(** _lpbq.py:48-74: the block and per-channel dimensions and the block size *)
Definition lpbq_granularity_and_block_size (compressed_bw : positive) (p : processed)
  : result (list Z * list Z * nat) :=
  match granularity_from_sizes (p_shape p) (p_tile p) with
  | PerBlock dims sizes pc _ =>
      if negb ((length dims =? 1) && (length pc =? 1) && p_symmetric p
               && (p_bits p =? compressed_bw)%positive) then Err ValueError else
      match sizes with bs :: _ => Ok (dims, pc, bs) | [] => Err IndexError end
  | _ => Err ValueError
  end.

Definition get {A} (t : tensor A) (idx : list nat) : result A :=
  match nth_error (data t) (ravel (shape t) idx) with Some a => Ok a | None => Err IndexError end.

(** [a // b] *)
Definition floordiv (a b : nat) : result nat := if b =? 0 then Err ZeroDivisionError else Ok (a / b).

(** _lpbq.py:177-198; no case matching leaves [shape] unbound *)
Definition infer_scale_2d_shape (data_shape : list nat) (dims pc : list Z) (bs : nat) : result (nat * nat) :=
  match dims, pc with
  | [1%Z], [0%Z] =>
      let? out_channels := py_get data_shape 0 in
      let? n := py_get data_shape 1 in
      let? k := floordiv n bs in Ok (out_channels, k)
  | [0%Z], [1%Z] =>
      let? in_channels := py_get data_shape 1 in
      let? n := py_get data_shape 0 in
      let? k := floordiv n bs in Ok (k, in_channels)
  | _, _ => Err UnboundLocalError
  end.

(** _lpbq.py:154-161: [1, n] for a grouped dimension (-1), [n // g, g] otherwise *)
Fixpoint expand_shape (s : list nat) (grouping : list Z) : list nat :=
  match s, grouping with
  | n :: s', g :: grouping' =>
      (if (g =? -1)%Z then [1; n] else [n / Z.to_nat g; Z.to_nat g]) ++ expand_shape s' grouping'
  | _, _ => []
  end.

(** _lpbq.py:166-167: torch.amax over dimensions 1 and 3 of a 4-d tensor, keepdim *)
Definition amax_odd (t : tensor Q) : result (tensor Q) :=
  match shape t with
  | [e0; e1; e2; e3] =>
      let? d := rmapM (fun '(i, k) =>
                  let? xs := rmapM (fun '(j, l) => get t [i; j; k; l]) (list_prod (seq 0 e1) (seq 0 e3)) in
                  list_max xs) (list_prod (seq 0 e0) (seq 0 e2)) in
      Ok (mkT [e0; 1; e2; 1] d)
  | _ => Err RuntimeError
  end.

(** _lpbq.py:138-175.  Result: integer scales in the layout of [scale_2d] and the
    per-group float scales, flattened. *)
Definition grouped_dynamic_quantize (scale_2d : tensor Q) (grouping : list Z) (bitwidth : positive)
  : result (list Z * list Q) :=
  let? grouped := reshape scale_2d (expand_shape (shape scale_2d) grouping) in
  let? max_scale := amax_odd grouped in
  let dynamic_scale := tmap (fun m => (m / QofZ (2 ^ Zpos bitwidth))%Q) max_scale in
  let? quantized := rmapM (fun p =>
      match unravel (shape grouped) p with
      | [i; j; k; l] =>
          let? x := get grouped [i; j; k; l] in
          let? d := get dynamic_scale [i; 0; k; 0] in
          let? r := qdiv x d in
          Ok (clamp (round_half_even r) 1 (2 ^ Zpos bitwidth))
      | _ => Err RuntimeError
      end) (seq 0 (length (data grouped))) in
  Ok (quantized, data dynamic_scale).

(** The fields of an LPBQ encoding. *)
Record lpbq_enc := mkLP {
  lp_compressed : positive; lp_bw : positive; lp_block : nat;
  lp_int_scale : list Z; lp_scale : list Q; lp_offset : list Q
}.

(** _lpbq.py:76-136 *)
Definition generate_lpbq_encoding (bws : positive * positive) (p : processed) : result lpbq_enc :=
  let '(compressed_bw, decompressed_bw) := bws in
  let? (dp, block_size) := lpbq_granularity_and_block_size compressed_bw p in
  let '(dims, pc) := dp in
  let? (a, b) := infer_scale_2d_shape (p_shape p) dims pc block_size in
  let? scale_2d := reshape (mkT [length (pelems (p_scale p))] (pelems (p_scale p))) [a; b] in
  let? grouping := match dims, pc with
                   | [1%Z], [0%Z] => Ok [1%Z; (-1)%Z]
                   | [0%Z], [1%Z] => Ok [(-1)%Z; 1%Z]
                   | _, _ => Err UnboundLocalError
                   end in
  let? (ints, floats) := grouped_dynamic_quantize scale_2d grouping compressed_bw in
  let offset_value := QofZ (- 2 ^ (Zpos decompressed_bw - 1)) in
  Ok (mkLP compressed_bw decompressed_bw block_size ints floats (repeat offset_value (length floats))).

(** ** Schema handlers *)

(** The legacy (0.6.1) entry of one parameter: _export_schemas.py:167-175 *)
Record legacy_entry := mkLE {
  le_bw : positive; le_symmetric : bool; le_min : Q; le_max : Q; le_offset : Z; le_scale : Q
}.

(** Python's int() of a float: truncation towards zero *)
Definition int_of (q : Q) : Z := Z.quot (Qnum q) (Zpos (Qden q)).

(** affine/range.py:31-51 on tensors *)
Definition quantization_range_t (scale offset : param) (b : positive) : result (param * param) :=
  let? mn := pbroadcast (fun o s => (QofZ (integer_minimum b) + o) * s)%Q offset scale in
  let? mx := pbroadcast (fun o s => (QofZ (integer_maximum b) + o) * s)%Q offset scale in
  Ok (mn, mx).

(** _export_schemas.py:127-176: the entries; zip stops at the shortest list *)
Definition legacy_build (e : quant_params) : result (list legacy_entry) :=
  let? p := preprocess e in
  let? _ := match granularity_from_sizes (p_shape p) (p_tile p) with
            | PerTensor => Ok tt
            | PerChannel [0%Z] => Ok tt
            | _ => Err ValueError
            end in
  let? (mn, mx) := quantization_range_t (p_scale p) (p_offset p) (p_bits p) in
  let? ss := piter (p_scale p) in
  let? os := piter (p_qnn_offset p) in
  let? mns := piter mn in
  let? mxs := piter mx in
  Ok (map (fun '(s, (o, (a, b))) => mkLE (p_bits p) (p_symmetric p) a b (int_of o) s)
          (combine ss (combine os (combine mns mxs)))).

(** enc_type of a 1.0.0 entry *)
Inductive v1_kind := K_per_tensor | K_per_channel | K_per_block (block_size : nat).

(** A 1.0.0 entry: _export_schemas.py:263-270, 324-325, or the LPBQ entry *)
Inductive v1_entry :=
| V1Plain (kind : v1_kind) (is_sym : bool) (bw : positive) (scale offset : list Q)
| V1Lpbq (e : lpbq_enc).

(** _export_schemas.py:308-326 *)
Definition handle_per_block (lpbq : option (positive * positive)) (p : processed)
    (dims : list Z) (sizes : list nat) (ss os : list Q) : result v1_entry :=
  if (1 <? length dims) || (1 <? length sizes) then Err ValueError else
  match lpbq with
  | Some bws => rmap V1Lpbq (generate_lpbq_encoding bws p)
  | None => match sizes with
            | bs :: _ => Ok (V1Plain (K_per_block bs) (p_symmetric p) (p_bits p) ss os)
            | [] => Err IndexError
            end
  end.

(** _export_schemas.py:259-289 *)
Definition v1_build (lpbq : option (positive * positive)) (e : quant_params) : result v1_entry :=
  let? p := preprocess e in
  let? ss := piter (p_scale p) in
  let? os := piter (p_qnn_offset p) in
  match granularity_from_sizes (p_shape p) (p_tile p) with
  | PerTensor => Ok (V1Plain K_per_tensor (p_symmetric p) (p_bits p) ss os)
  | PerChannel [0%Z] => Ok (V1Plain K_per_channel (p_symmetric p) (p_bits p) ss os)
  | PerBlock [1%Z] sizes [0%Z] _ => handle_per_block lpbq p [1%Z] sizes ss os
  | PerBlock [0%Z] sizes [1%Z] _ => handle_per_block lpbq p [0%Z] sizes ss os
  | _ => Err ValueError
  end.

(** Values of "y_scale" and "y_zero_point" in a 2.0.0 entry: a number, a list, or nested
    lists (a tensor) *)
Inductive nested (A : Type) := Single (a : A) | Many (l : list A) | Nested (t : tensor A).
Arguments Single {A}. Arguments Many {A}. Arguments Nested {A}.

(** A 2.0.0 entry: _export_schemas.py:390-437 *)
Record v2_entry := mkV2 {
  v2_unsigned : bool; v2_bw : positive; v2_axis : option Z; v2_block : option nat;
  v2_scale : nested Q; v2_zero_point : option (nested Q)
}.

(** _export_schemas.py:464-493 *)
Definition v2_block_parameter_shape (data_shape : list nat) (dims : list Z) (sizes : list nat) (pc : list Z)
  : result (list nat) :=
  rmapM (fun '(idx, size) =>
    if existsb (Z.eqb (Z.of_nat idx)) pc then Ok size
    else match find (fun '(d, _) => (d =? Z.of_nat idx)%Z) (combine dims sizes) with
         | Some (_, bs) => floordiv size bs
         | None => Ok 1
         end) (combine (seq 0 (length data_shape)) data_shape).

(** numpy reshape of the flat parameters; a wrong number of elements raises ValueError *)
Definition np_reshape (p : param) (s : list nat) : result (tensor Q) :=
  if prod s =? length (pelems p) then Ok (mkT s (pelems p)) else Err ValueError.

(** _export_schemas.py:387-440 *)
Definition v2_build (e : quant_params) : result v2_entry :=
  let? p := preprocess e in
  let entry := mkV2 (negb (p_symmetric p)) (p_bits p) in
  match granularity_from_sizes (p_shape p) (p_tile p) with
  | PerTensor =>
      let? s := pitem (p_scale p) in
      if p_symmetric p then Ok (entry None None (Single s) None) else
      let? o := pitem (p_qnn_offset p) in
      Ok (entry None None (Single s) (Some (Single (QofZ (int_of o)))))
  | PerChannel [0%Z] =>
      let? ss := piter (p_scale p) in
      if p_symmetric p then Ok (entry (Some 0%Z) None (Many ss) None) else
      let? os := piter (p_qnn_offset p) in
      Ok (entry (Some 0%Z) None (Many ss) (Some (Many (map (fun o => QofZ (int_of o)) os))))
  | PerChannel _ => Err ValueError
  | PerBlock dims sizes pc _ =>
      if (1 <? length dims) || (1 <? length sizes) then Err ValueError else
      match dims, sizes with
      | d :: _, bs :: _ =>
          let? ps := v2_block_parameter_shape (p_shape p) dims sizes pc in
          let? s := np_reshape (p_scale p) ps in
          let? o := np_reshape (p_offset p) ps in
          Ok (entry (Some d) (Some bs) (Nested s)
                    (if p_symmetric p then None else Some (Nested o)))
      | _, _ => Err IndexError
      end
  | PerTile _ => Err ValueError
  end.

(** ** Handler objects *)

Definition known (name : string) (names : list string) : bool := existsb (String.eqb name) names.

(** *** Legacy: _export_schemas.py:117-120, 126-205; the dictionaries by insertion order *)
Record legacy := mkLegacy {
  lg_param : list (string * list legacy_entry); lg_act : list (string * list legacy_entry)
}.
Definition legacy_init : legacy := mkLegacy [] [].
Definition legacy_add (h : legacy) (name : string) (e : quant_params) (is_param : bool) : result legacy :=
  let? entry := legacy_build e in
  if is_param then
    if known name (map fst (lg_param h)) then Ok h
    else Ok (mkLegacy (lg_param h ++ [(name, entry)]) (lg_act h))
  else
    if known name (map fst (lg_act h)) then Ok h
    else Ok (mkLegacy (lg_param h) (lg_act h ++ [(name, entry)])).
Definition legacy_clear (h : legacy) : legacy := mkLegacy [] [].

(** *** 1.0.0: _export_schemas.py:242-252, 258-342; entries with their "name" *)
Record v1 := mkV1H {
  v1_param : list (string * v1_entry); v1_act : list (string * v1_entry);
  v1_param_names : list string; v1_act_names : list string
}.
Definition v1_init : v1 := mkV1H [] [] [] [].
Definition v1_add (lpbq : option (positive * positive)) (h : v1) (name : string) (e : quant_params)
    (is_param : bool) : result v1 :=
  let? entry := v1_build lpbq e in
  if is_param then
    if known name (v1_param_names h) then Ok h
    else Ok (mkV1H (v1_param h ++ [(name, entry)]) (v1_act h) (name :: v1_param_names h) (v1_act_names h))
  else
    if known name (v1_act_names h) then Ok h
    else Ok (mkV1H (v1_param h) (v1_act h ++ [(name, entry)]) (v1_param_names h) (name :: v1_act_names h)).
Definition v1_clear (h : v1) : v1 := mkV1H [] [] [] [].

(** *** 2.0.0: _export_schemas.py:376-379, 385-461 *)
Record v2 := mkV2H { v2_encs : list (string * v2_entry); v2_names : list string }.
Definition v2_init : v2 := mkV2H [] [].
Definition v2_add (h : v2) (name : string) (e : quant_params) (is_param : bool) : result v2 :=
  let? entry := v2_build e in
  if known name (v2_names h) then Ok h
  else Ok (mkV2H (v2_encs h ++ [(name, entry)]) (name :: v2_names h)).
Definition v2_clear (h : v2) : v2 := mkV2H [] [].

(** A schema handler object (EncodingSchemaHandler, _export_schemas.py:63-81): one of the
    three, with its state. *)
Inductive handler :=
| HLegacy (h : legacy)
| HV1 (lpbq : option (positive * positive)) (h : v1)
| HV2 (h : v2).

Definition add_encoding (h : handler) (name : string) (e : quant_params) (is_param : bool) : result handler :=
  match h with
  | HLegacy s => rmap HLegacy (legacy_add s name e is_param)
  | HV1 l s => rmap (HV1 l) (v1_add l s name e is_param)
  | HV2 s => rmap HV2 (v2_add s name e is_param)
  end.

Definition clear (h : handler) : handler :=
  match h with
  | HLegacy s => HLegacy (legacy_clear s)
  | HV1 l s => HV1 l (v1_clear s)
  | HV2 s => HV2 (v2_clear s)
  end.

Inductive any_entry := ELegacy (l : list legacy_entry) | EV1 (e : v1_entry) | EV2 (e : v2_entry).

(** build_encodings_dictionary (_export_schemas.py:193-201, 328-336, 450-457): the parameter
    and activation encodings; 2.0.0 has a single list, given here for both. *)
Definition build_encodings (h : handler) (params : bool) : list (string * any_entry) :=
  match h with
  | HLegacy s => map (fun '(n, e) => (n, ELegacy e)) (if params then lg_param s else lg_act s)
  | HV1 _ s => map (fun '(n, e) => (n, EV1 e)) (if params then v1_param s else v1_act s)
  | HV2 s => map (fun '(n, e) => (n, EV2 e)) (v2_encs s)
  end.

(** ** ONNX metadata *)

(** annotations.py:12-21 FFQuantizerSpec *)
Record spec := mkSpec {
  s_bits : positive; s_scale : list Q; s_offset : list Q; s_symmetric : bool;
  s_tile : option (list nat); s_shape : option (list nat)
}.

(** annotations.py:24-85.  [offset = None] fails the assertion on line 35;
    [data_shape] is tensor_meta's shape if there is one. *)
Definition ff_quantizer_spec (scale : list Q) (offset : option (list Q)) (bits : num_bits)
    (tile_size : option (list nat)) (data_shape : option (list nat)) : result spec :=
  match offset with
  | None => Err AssertionError
  | Some o =>
      let symmetric := forallb (fun x => Qeq_bool x 0) o in
      match bits with
      | FracBits _ => Err ValueError
      | IntBits b =>
          let o' := if symmetric then o else map (fun x => (QofZ (2 ^ (Zpos b - 1)) - x)%Q) o in
          Ok (mkSpec b scale o' symmetric tile_size data_shape)
      end
  end.

(** metadata_props of an ONNX object, parsed: None if one of the four required keys is
    missing (onnx_export_stages.py:125-127) *)
Record metadata := mkMeta {
  m_scale : list Q; m_offset : list Q; m_bits : positive; m_symmetric : bool;
  m_size : option (list nat * list nat)   (* data shape and tile size *)
}.

(** onnx_export_stages.py:302-324 *)
Definition apply_quant_spec_metadata (s : spec) : metadata :=
  mkMeta (s_scale s) (s_offset s) (s_bits s) (s_symmetric s)
    (match s_shape s, s_tile s with Some d, Some t => Some (d, t) | _, _ => None end).

(** onnx_export_stages.py:129-172 *)
Definition quant_params_from_metadata (m : metadata) : result quant_params :=
  if negb (length (m_scale m) =? length (m_offset m)) then Err RuntimeError else
  let offset := if m_symmetric m then m_offset m
                else map (fun x => (QofZ (2 ^ (Zpos (m_bits m) - 1)) - x)%Q) (m_offset m) in
  Ok (mkQP (Vec (m_scale m)) (Some (Vec offset)) (IntBits (m_bits m))
           (option_map snd (m_size m)) (option_map fst (m_size m))).

(** A graph proto: initializers, inputs, nodes (with the names of their outputs) and
    outputs, each with its metadata *)
Record proto := mkProto {
  g_init : list (string * option metadata); g_input : list (string * option metadata);
  g_node : list (option metadata * list string); g_output : list (string * option metadata)
}.

Definition add_all (names : list string) (m : option metadata) (is_param : bool) (h : handler) : result handler :=
  match m with
  | None => Ok h
  | Some m =>
      let? e := quant_params_from_metadata m in
      fold_left (fun r n => let? h := r in add_encoding h n e is_param) names (Ok h)
  end.

(** onnx_export_stages.py:175-219: the handler after the extraction *)
Definition extract_encodings (g : proto) (h : handler) : result handler :=
  let h := clear h in
  let initializer_names := map fst (g_init g) in
  let? h := fold_left (fun r '(n, m) => let? h := r in add_all [n] m true h) (g_init g) (Ok h) in
  let? h := fold_left (fun r '(n, m) => let? h := r in
                if known n initializer_names then Ok h else add_all [n] m false h) (g_input g) (Ok h) in
  let? h := fold_left (fun r '(m, ns) => let? h := r in add_all ns m false h) (g_node g) (Ok h) in
  fold_left (fun r '(n, m) => let? h := r in add_all [n] m false h) (g_output g) (Ok h).
