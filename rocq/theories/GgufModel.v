(** Model of the GGUF export of quantized weights:
    fastforward/export/stages/gguf/{_extract,_arch,_naming,_packing,adapter,gguf_export_stages}.py.

    Simplifications: a parameter is its shape and flat row-major data; scales are exact
    rationals until they are cast to binary16; the file writer (GGUFWriter) is trusted to
    write the packed bytes verbatim, so the model ends with the dictionary of packed
    tensors; metadata and vocabulary are not modelled.  The model's named parameters are
    given as a list; discovery of weight quantizers by mpath query is modelled by giving
    each parameter its (optional) initialized quantizer. *)
From Coq Require Import String Ascii.
From Verif Require Import Prelude TilingModel GranularityModel AffineModel.
From Coq Require Import QArith Qpower.
Local Open Scope nat_scope.
Local Open Scope list_scope.

(** ** binary16 *)

Definition two_pow (e : Z) : Q := Qpower 2 e.

Definition qlt_bool (a b : Q) : bool := negb (Qle_bool b a).

(** torch.Tensor.to(torch.float16) of a non-negative number, as the 15 low bits of the
    encoding: round to nearest, ties to even, on the grid of the binade (or of the
    subnormals); 31*1024 is infinity.  (_packing.py:44, 71) *)
Definition half_magnitude (s : Q) : Z :=
  match find (fun e => qlt_bool s (two_pow (e + 1))) (map (fun k => Z.of_nat k - 14)%Z (seq 0 30)) with
  | Some e => ((e + 14) * 1024 + round_half_even (s / two_pow (e - 10)))%Z
  | None => (31 * 1024)%Z
  end.

Definition to_half (s : Q) : Z :=
  if qlt_bool s 0 then (32768 + half_magnitude (- s))%Z else half_magnitude s.

(** [.view(torch.uint8)] of one binary16 number on a little-endian host *)
Definition half_bytes (s : Q) : list Z := [(to_half s mod 256)%Z; (to_half s / 256)%Z].

(** ** Packing *)

(** [t.reshape(n, w)] of flat data as the list of its rows *)
Definition chunks {A} (n w : nat) (l : list A) : list (list A) :=
  map (fun i => firstn w (skipn (i * w) l)) (seq 0 n).

(** _packing.py:46-51, one block *)
Definition pack_q4_block (codes : list Z) : result (list Z) :=
  let gguf_qs := map (fun c => clamp (c + 8) 0 15) codes in
  let h := (length codes / 2)%nat in
  if (2 * h =? length codes)%nat then
    Ok (map (fun '(lo, hi) => Z.lor lo (Z.shiftl hi 4)) (combine (firstn h gguf_qs) (skipn h gguf_qs)))
  else Err RuntimeError.

(** _packing.py:75, one block *)
Definition pack_q8_block (codes : list Z) : result (list Z) :=
  Ok (map (fun c => (clamp c (-127) 127) mod 256)%Z codes).

(** _packing.py:42-53 and 69-77: [d | qs] for each block; the reshape of the scale bytes
    to (n_blocks, 2) needs one scale per block. *)
Definition pack_blocks (pack_block : list Z -> result (list Z)) (blocks : list (list Z)) (scales : list Q)
  : result (list (list Z)) :=
  if negb (length scales =? length blocks)%nat then Err RuntimeError else
  rmapM (fun '(b, s) => let? q := pack_block b in Ok (half_bytes s ++ q)) (combine blocks scales).

Definition pack_q4_0_blocks := pack_blocks pack_q4_block.
Definition pack_q8_0_blocks := pack_blocks pack_q8_block.

(** adapter.py:67-97 GgufQuantFormat (name and file_type are metadata) *)
Record quant_format := mkFmt {
  f_bits : positive; f_block : nat; f_symmetric : bool;
  f_pack : list (list Z) -> list Q -> result (list (list Z)) }.

(** _packing.py:80-96 *)
Definition GGUF_Q4_0 := mkFmt 4 32 true pack_q4_0_blocks.
Definition GGUF_Q8_0 := mkFmt 8 32 true pack_q8_0_blocks.

(** ** Extraction *)

(** _extract.py:37-51 ExtractedTensor: [XQ] is kind "quantized", [XF] kind "float". *)
Inductive body :=
| XQ (cols : nat) (codes : list Z) (scales : list Q)
| XF (float_data : tensor Q).
Record xtensor := mkX { x_hf : string; x_rows : nat; x_body : body; x_gguf : string }.

(** The initialized LinearQuantizer of a weight; [w_buffer]: the offset is a buffer
    (symmetric quantizer that allows the one-sided fallback) and not a parameter. *)
Record wquantizer := mkWq {
  w_bits : positive; w_gran : granularity; w_scale : list Q; w_offset : option (list Q);
  w_buffer : bool; w_out : dtype }.

(** linear_quantizer.py:155-170 *)
Definition w_symmetric (q : wquantizer) : bool :=
  w_buffer q || match w_offset q with None => true | Some _ => false end.

(** linear_quantizer.py:103-113, affine/static.py: codes of the weight *)
Definition w_quantize (q : wquantizer) (w : tensor Q) : result (tensor Z) :=
  let? tile := tile_size (w_gran q) (shape w) in
  quantize_by_tile w (w_scale q) tile (w_bits q) (w_out q) (w_offset q).

(** _extract.py:76-130 *)
Definition validate_quantizer (q : wquantizer) (f : quant_format) : result unit :=
  if f_symmetric f && negb (w_symmetric q) then Err ExportError else
  if negb (f_symmetric f) && w_symmetric q then Err ExportError else
  if negb (w_bits q =? f_bits f)%positive then Err ExportError else
  match w_gran q with
  | PerBlock dims sizes pc _ =>
      if negb (list_eqb Z.eqb dims [1%Z] && list_eqb Z.eqb pc [0%Z]) then Err ExportError else
      if negb (existsb (Nat.eqb (f_block f)) sizes) then Err ExportError else Ok tt
  | _ => Err ExportError
  end.

(** A named parameter; [p_data = None] for an UninitializedParameter. *)
Record param := mkP { p_name : string; p_data : option (tensor Q); p_quantizer : option wquantizer }.

(** adapter.py:100-150 ArchAdapter, the fields read by the modelled stages *)
Record adapter := mkA {
  a_map : string -> option string;
  a_transforms : list (quant_format -> xtensor -> result xtensor);
  a_tied : string -> bool }.

(** _extract.py:184-206, one exported parameter *)
Definition extract_one (f : quant_format) (name : string) (w : tensor Q) (oq : option wquantizer)
  : result xtensor :=
  match oq with
  | Some q =>
      let? _ := validate_quantizer q f in
      let? codes := w_quantize q w in
      match shape w with
      | [rows; cols] =>
          if rows =? 0 then Err ZeroDivisionError else
          if negb (length (w_scale q) mod rows =? 0) then Err AssertionError else
          Ok (mkX name rows (XQ cols (data codes) (w_scale q)) "")
      | _ => Err ValueError
      end
  | None =>
      match shape w with
      | rows :: _ => Ok (mkX name rows (XF w) "")
      | [] => Err IndexError
      end
  end.

(** _extract.py:172-206 extract_module_tensors *)
Fixpoint extract (a : adapter) (f : quant_format) (ps : list param) : result (list xtensor) :=
  match ps with
  | [] => Ok []
  | p :: ps' =>
      match a_map a (p_name p) with
      | None => extract a f ps'
      | Some _ =>
          match p_data p with
          | None => extract a f ps'
          | Some w =>
              if a_tied a (p_name p) then extract a f ps' else
              let? x := extract_one f (p_name p) w (p_quantizer p) in
              let? xs := extract a f ps' in
              Ok (x :: xs)
          end
      end
  end.

(** ** RoPE permutation *)

(** _arch.py:52-68 *)
Definition rope_permute_row_index (n_rows n_head : nat) : result (list nat) :=
  if n_head * 2 =? 0 then Err ZeroDivisionError else
  if negb (n_rows mod (n_head * 2) =? 0) then Err ExportError else
  let? index := reshape (mkT [n_rows] (seq 0 n_rows)) [n_head; 2; n_rows / n_head / 2] in
  let? swapped := permute index [0; 2; 1] in
  let? flat := reshape swapped [n_rows] in
  Ok (data flat).

(** [t[row_index]] of a tensor given as the list of its rows *)
Definition take_rows {A} (rows : list (list A)) (idx : list nat) : result (list (list A)) :=
  rmapM (fun i => match nth_error rows i with Some r => Ok r | None => Err IndexError end) idx.

(** [t.reshape(n, w)], an error if the number of elements differs *)
Definition reshape_rows {A} (n w : nat) (l : list A) : result (list (list A)) :=
  if length l =? n * w then Ok (chunks n w l) else Err RuntimeError.

(** _arch.py:71-91.  A float tensor fails the first assertion. *)
Definition apply_row_permute (x : xtensor) (row_index : list nat) (block_size : nat) : result xtensor :=
  match x_body x with
  | XQ cols codes scales =>
      if block_size =? 0 then Err ZeroDivisionError else
      if negb (cols mod block_size =? 0) then Err ExportError else
      let blocks_per_row := cols / block_size in
      let? crows := reshape_rows (x_rows x) (blocks_per_row * block_size) codes in
      let? srows := reshape_rows (x_rows x) blocks_per_row scales in
      let? pc := take_rows crows row_index in
      let? ps := take_rows srows row_index in
      Ok (mkX (x_hf x) (x_rows x) (XQ cols (concat pc) (concat ps)) (x_gguf x))
  | XF _ => Err AssertionError
  end.

(** ** Names *)

Definition is_digit (c : ascii) : bool :=
  (48 <=? nat_of_ascii c)%nat && (nat_of_ascii c <=? 57)%nat.

(** Greedy [\d+] *)
Fixpoint span_digits (s : string) : string * string :=
  match s with
  | EmptyString => (EmptyString, EmptyString)
  | String c s' =>
      if is_digit c then let (d, r) := span_digits s' in (String c d, r) else (EmptyString, s)
  end.

Fixpoint strip_prefix (p s : string) : option string :=
  match p, s with
  | EmptyString, _ => Some s
  | String a p', String b s' => if Ascii.eqb a b then strip_prefix p' s' else None
  | String _ _, EmptyString => None
  end.

Definition newline : string := String (ascii_of_nat 10) EmptyString.

(** re.compile(r"model\.layers\.(\d+)" + suffix + "$").match(name): the digits if it
    matches; [$] also matches before a trailing newline.  [\d] is restricted to ASCII. *)
Definition layer_match (suffix name : string) : option string :=
  match strip_prefix "model.layers." name with
  | None => None
  | Some rest =>
      let (ds, tail) := span_digits rest in
      if String.eqb ds "" then None else
      if String.eqb tail suffix || String.eqb tail (suffix ++ newline)%string then Some ds else None
  end.

(** _naming.py:19-23 *)
Definition static_map : list (string * string) :=
  [("model.embed_tokens.weight", "token_embd.weight");
   ("model.norm.weight", "output_norm.weight");
   ("lm_head.weight", "output.weight")]%string.

(** _naming.py:26-36: what follows the layer number on either side *)
Definition common_patterns : list (string * string) :=
  [(".input_layernorm.weight", ".attn_norm.weight");
   (".self_attn.q_proj.weight", ".attn_q.weight");
   (".self_attn.k_proj.weight", ".attn_k.weight");
   (".self_attn.v_proj.weight", ".attn_v.weight");
   (".self_attn.o_proj.weight", ".attn_output.weight");
   (".post_attention_layernorm.weight", ".ffn_norm.weight");
   (".mlp.gate_proj.weight", ".ffn_gate.weight");
   (".mlp.up_proj.weight", ".ffn_up.weight");
   (".mlp.down_proj.weight", ".ffn_down.weight")]%string.

(** _naming.py:39-42 *)
Definition qwen3_extra : list (string * string) :=
  [(".self_attn.q_norm.weight", ".attn_q_norm.weight");
   (".self_attn.k_norm.weight", ".attn_k_norm.weight")]%string.

(** _naming.py:46-50 *)
Definition qwen2_extra : list (string * string) :=
  [(".self_attn.q_proj.bias", ".attn_q.bias");
   (".self_attn.k_proj.bias", ".attn_k.bias");
   (".self_attn.v_proj.bias", ".attn_v.bias")]%string.

Fixpoint assoc_str {V} (k : string) (l : list (string * V)) : option V :=
  match l with
  | [] => None
  | (k', v) :: l' => if String.eqb k k' then Some v else assoc_str k l'
  end.

Fixpoint first_pattern (patterns : list (string * string)) (name : string) : option string :=
  match patterns with
  | [] => None
  | (suffix, target) :: ps =>
      match layer_match suffix name with
      | Some ds => Some ("blk." ++ ds ++ target)%string
      | None => first_pattern ps name
      end
  end.

(** _naming.py:53-65 *)
Definition build_name_map (patterns : list (string * string)) (name : string) : option string :=
  match assoc_str name static_map with
  | Some v => Some v
  | None => first_pattern patterns name
  end.

(** _naming.py:68-70 *)
Definition llama_name_map := build_name_map common_patterns.
Definition qwen3_name_map := build_name_map (common_patterns ++ qwen3_extra).
Definition qwen2_name_map := build_name_map (common_patterns ++ qwen2_extra).

(** _arch.py:94-118; [kv_heads = None]: the config has no num_key_value_heads *)
Definition llama_rope_permute (heads : nat) (kv_heads : option nat) (f : quant_format) (x : xtensor)
  : result xtensor :=
  match x_body x with
  | XF _ => Ok x
  | XQ _ _ _ =>
      match layer_match ".self_attn.q_proj.weight" (x_hf x) with
      | Some _ =>
          let? idx := rope_permute_row_index (x_rows x) heads in
          apply_row_permute x idx (f_block f)
      | None =>
          match layer_match ".self_attn.k_proj.weight" (x_hf x) with
          | Some _ =>
              let? idx := rope_permute_row_index (x_rows x) (match kv_heads with Some k => k | None => heads end) in
              apply_row_permute x idx (f_block f)
          | None => Ok x
          end
      end
  end.

(** adapter.py:60-64, [tie]: config.tie_word_embeddings *)
Definition default_is_tied (tie : bool) (name : string) : bool :=
  if tie then String.eqb name "lm_head.weight" else false.

(** _arch.py:153-186 *)
Definition LLAMA_ADAPTER (heads : nat) (kv : option nat) (tie : bool) :=
  mkA llama_name_map [llama_rope_permute heads kv] (default_is_tied tie).
Definition QWEN2_ADAPTER (tie : bool) := mkA qwen2_name_map [] (default_is_tied tie).
Definition QWEN3_ADAPTER (tie : bool) := mkA qwen3_name_map [] (default_is_tied tie).

(** ** Stages *)

(** gguf_export_stages.py:101-104, inner loop *)
Fixpoint apply_transforms (ts : list (quant_format -> xtensor -> result xtensor)) (f : quant_format)
    (x : xtensor) : result xtensor :=
  match ts with
  | [] => Ok x
  | t :: ts' => let? x' := t f x in apply_transforms ts' f x'
  end.

(** gguf_export_stages.py:83-105 *)
Definition stage_transform (a : adapter) (f : quant_format) (xs : list xtensor) : result (list xtensor) :=
  rmapM (apply_transforms (a_transforms a) f) xs.

(** gguf_export_stages.py:108-124 *)
Definition stage_names (a : adapter) (xs : list xtensor) : list xtensor :=
  flat_map (fun x => match a_map a (x_hf x) with
                     | None => []
                     | Some g => [mkX (x_hf x) (x_rows x) (x_body x) g]
                     end) xs.

(** [d[k] = v] on a dict in insertion order *)
Fixpoint dict_set {V} (k : string) (v : V) (d : list (string * V)) : list (string * V) :=
  match d with
  | [] => [(k, v)]
  | (k', v') :: d' => if String.eqb k k' then (k, v) :: d' else (k', v') :: dict_set k v d'
  end.

(** gguf_export_stages.py:146-150, one quantized tensor: the packed rows.
    [reshape(-1, w)] needs a positive w that divides the number of elements. *)
Definition pack_tensor (f : quant_format) (rows : nat) (codes : list Z) (scales : list Q)
  : result (list (list Z)) :=
  let bs := f_block f in
  if (bs =? 0) || negb (length codes mod bs =? 0) then Err RuntimeError else
  let? packed := f_pack f (chunks (length codes / bs) bs codes) scales in
  let bytes := concat packed in
  if (rows =? 0) || negb (length bytes mod rows =? 0) then Err RuntimeError else
  Ok (chunks rows (length bytes / rows) bytes).

(** gguf_export_stages.py:127-155 *)
Fixpoint stage_pack (f : quant_format) (xs : list xtensor)
    (qd : list (string * list (list Z))) (fd : list (string * tensor Q))
  : result (list (string * list (list Z)) * list (string * tensor Q)) :=
  match xs with
  | [] => Ok (qd, fd)
  | x :: xs' =>
      match x_body x with
      | XQ _ codes scales =>
          let? p := pack_tensor f (x_rows x) codes scales in
          stage_pack f xs' (dict_set (x_gguf x) p qd) fd
      | XF t => stage_pack f xs' qd (dict_set (x_gguf x) t fd)
      end
  end.

(** The four stages in pipeline order *)
Definition export_gguf (a : adapter) (f : quant_format) (ps : list param)
  : result (list (string * list (list Z)) * list (string * tensor Q)) :=
  let? xs := extract a f ps in
  let? ts := stage_transform a f xs in
  stage_pack f (stage_names a ts) [] [].
