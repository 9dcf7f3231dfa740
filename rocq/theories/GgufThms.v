(** C59, C60, C73, C74: GGUF export. *)
From Coq Require Import String Ascii.
From Verif Require Import Prelude TilingModel TilingSpec GranularityModel AffineModel GgufModel GgufSpec
  GgufHalfProofs GgufPackProofs GgufRopeProofs GgufNameProofs GgufExportProofs GgufTopProofs GgufWitness.
From Coq Require Import QArith Qabs Qminmax Permutation.
Local Open Scope nat_scope.
Local Open Scope list_scope.

(** ** C59 *)

(** The scale stored in a block is the binary16 rounding of FastForward's scale. *)
Theorem C59_scale_rounding :
  forall s, (0 <= s)%Q -> (s < 65520)%Q ->
    exists h, half_value (half_magnitude s) = Some h /\
      (Qabs (h - s) <= Qmax (s * Qpower 2 (-11)) (Qpower 2 (-25)))%Q.
Proof. exact half_error. Qed.
Print Assumptions C59_scale_rounding.

Theorem C59_scale_exact :
  forall s, is_half s -> exists h, half_value (to_half s) = Some h /\ (h == s)%Q /\ (0 <= s)%Q /\
    (0 <= to_half s < 31 * 1024)%Z.
Proof. exact half_exact. Qed.
Print Assumptions C59_scale_exact.

(** Scales from 65520 on become infinite. *)
Theorem C59_scale_overflow_refuted : forall s, (65520 <= s)%Q -> half_value (to_half s) = None.
Proof. exact half_overflow. Qed.
Print Assumptions C59_scale_overflow_refuted.

(** Packed Q4_0 rows, whatever the codes: llama.cpp reads half(scale) * code for every code
    in [-8, 7]. *)
Theorem C59_q4_0_packing :
  forall rows n codes scales,
    0 < rows -> length codes = rows * (n * 32) -> length scales = rows * n ->
    exists rs, pack_tensor GGUF_Q4_0 rows codes scales = Ok rs /\ length rs = rows /\
      (forall r row, nth_error rs r = Some row -> length row = n * 18) /\
      forall r c, r < rows -> c < n * 32 ->
        exists row s z, nth_error rs r = Some row /\ nth_error scales (r * n + c / 32) = Some s /\
          nth_error codes (r * (n * 32) + c) = Some z /\
          q4_0_element row c =
            option_map (fun d => inject_Z (Z.min (Z.max (z + 8) 0) 15 - 8) * d)%Q (half_value (to_half s)).
Proof. exact pack_q4_0_reads. Qed.
Print Assumptions C59_q4_0_packing.

Theorem C59_q8_0_packing :
  forall rows n codes scales,
    0 < rows -> length codes = rows * (n * 32) -> length scales = rows * n ->
    exists rs, pack_tensor GGUF_Q8_0 rows codes scales = Ok rs /\ length rs = rows /\
      (forall r row, nth_error rs r = Some row -> length row = n * 34) /\
      forall r c, r < rows -> c < n * 32 ->
        exists row s z, nth_error rs r = Some row /\ nth_error scales (r * n + c / 32) = Some s /\
          nth_error codes (r * (n * 32) + c) = Some z /\
          q8_0_element row c =
            option_map (fun d => inject_Z (Z.min (Z.max z (-127)) 127) * d)%Q (half_value (to_half s)).
Proof. exact pack_q8_0_reads. Qed.
Print Assumptions C59_q8_0_packing.

(** From the model's parameters to the bytes in the file: every exported 4-bit weight is
    FastForward's dequantized weight (see [exported_values]), in the row order of the target
    architecture. *)
Theorem C59_export_llama_q4_0 :
  forall heads kv tie ps qd fd p w q g,
    export_gguf (LLAMA_ADAPTER heads kv tie) GGUF_Q4_0 ps = Ok (qd, fd) -> NoDup (map p_name ps) ->
    (forall n, In n (map p_name ps) -> no_newline n) ->
    In p ps -> p_data p = Some w -> wf w -> p_quantizer p = Some q ->
    llama_name_map (p_name p) = Some g -> default_is_tied tie (p_name p) = false ->
    w_offset q = None -> (forall s, In s (w_scale q) -> 0 < s /\ s < 65520)%Q ->
    exists rs, assoc_str g qd = Some rs /\
      exported_values q4_0_element q w rs (llama_row heads (match kv with Some n => n | None => heads end) (p_name p)).
Proof. exact export_llama_q4. Qed.
Print Assumptions C59_export_llama_q4_0.

Theorem C59_export_qwen_q4_0 :
  forall a tie ps qd fd p w q g,
    a = QWEN2_ADAPTER tie \/ a = QWEN3_ADAPTER tie ->
    export_gguf a GGUF_Q4_0 ps = Ok (qd, fd) -> NoDup (map p_name ps) ->
    (forall n, In n (map p_name ps) -> no_newline n) ->
    In p ps -> p_data p = Some w -> wf w -> p_quantizer p = Some q ->
    a_map a (p_name p) = Some g -> a_tied a (p_name p) = false ->
    w_offset q = None -> (forall s, In s (w_scale q) -> 0 < s /\ s < 65520)%Q ->
    exists rs, assoc_str g qd = Some rs /\ exported_values q4_0_element q w rs (fun _ r r' => r' = r).
Proof. exact export_qwen_q4. Qed.
Print Assumptions C59_export_qwen_q4_0.

(** The same for 8 bits, if no code is -128. *)
Theorem C59_export_llama_q8_0_partial :
  forall heads kv tie ps qd fd p w q g,
    export_gguf (LLAMA_ADAPTER heads kv tie) GGUF_Q8_0 ps = Ok (qd, fd) -> NoDup (map p_name ps) ->
    (forall n, In n (map p_name ps) -> no_newline n) ->
    In p ps -> p_data p = Some w -> wf w -> p_quantizer p = Some q ->
    llama_name_map (p_name p) = Some g -> default_is_tied tie (p_name p) = false ->
    w_offset q = None -> (forall s, In s (w_scale q) -> 0 < s /\ s < 65520)%Q ->
    (forall codes, w_quantize q w = Ok codes -> ~ In (-128)%Z (data codes)) ->
    exists rs, assoc_str g qd = Some rs /\
      exported_values q8_0_element q w rs (llama_row heads (match kv with Some n => n | None => heads end) (p_name p)).
Proof. exact export_llama_q8. Qed.
Print Assumptions C59_export_llama_q8_0_partial.

Theorem C59_export_qwen_q8_0_partial :
  forall a tie ps qd fd p w q g,
    a = QWEN2_ADAPTER tie \/ a = QWEN3_ADAPTER tie ->
    export_gguf a GGUF_Q8_0 ps = Ok (qd, fd) -> NoDup (map p_name ps) ->
    (forall n, In n (map p_name ps) -> no_newline n) ->
    In p ps -> p_data p = Some w -> wf w -> p_quantizer p = Some q ->
    a_map a (p_name p) = Some g -> a_tied a (p_name p) = false ->
    w_offset q = None -> (forall s, In s (w_scale q) -> 0 < s /\ s < 65520)%Q ->
    (forall codes, w_quantize q w = Ok codes -> ~ In (-128)%Z (data codes)) ->
    exists rs, assoc_str g qd = Some rs /\ exported_values q8_0_element q w rs (fun _ r r' => r' = r).
Proof. exact export_qwen_q8. Qed.
Print Assumptions C59_export_qwen_q8_0_partial.

Example C59_nonvacuous :
  wf ex_w /\ NoDup (map p_name ex_ps) /\ (forall n, In n (map p_name ex_ps) -> no_newline n) /\
  (forall s, In s (w_scale ex_q) -> 0 < s /\ s < 65520)%Q /\
  exists qd fd, export_gguf (LLAMA_ADAPTER 2 None false) GGUF_Q4_0 ex_ps = Ok (qd, fd) /\
    assoc_str "blk.0.attn_q.weight" qd <> None /\ assoc_str "output_norm.weight" fd = Some ex_norm.
Proof. exact (conj ex_wf (conj (proj1 ex_names) (conj (proj2 ex_names) (conj ex_scales ex_export)))). Qed.

(** An 8-bit range set to the weight's own minimum and maximum gives its minimum the code
    -128, which is written as -127. *)
Theorem C59_q8_0_minimum_refuted :
  parameters_for_range [(-128, 89)]%Q 8 true true = Ok ([128 # 128]%Q, None) /\
  exists qd fd row, export_gguf (QWEN3_ADAPTER false) GGUF_Q8_0 neg_ps = Ok (qd, fd) /\
    assoc_str "output.weight" qd = Some [row] /\
    at_index neg_w [0; 0] = Some (-128)%Q /\
    exists codes deq, w_quantize neg_q neg_w = Ok codes /\
      dequantize_by_tile codes (w_scale neg_q) (Tile [1; 32]) None = Ok deq /\
      exists v v', at_index deq [0; 0] = Some v /\ (v == -128)%Q /\ q8_0_element row 0 = Some v' /\ (v' == -127)%Q.
Proof. exact neg_witness. Qed.
Print Assumptions C59_q8_0_minimum_refuted.

(** A symmetric quantizer that fell back to its one-sided range passes validation; its
    offset is not written, and every weight in the file is wrong by offset * scale. *)
Theorem C59_one_sided_refuted :
  (exists s o, parameters_for_range [(1, 15)]%Q 4 true true = Ok ([s], Some [o]) /\ (s == 1)%Q /\ (o == 8)%Q) /\
  exists qd fd row, export_gguf (QWEN3_ADAPTER false) GGUF_Q4_0 pos_ps = Ok (qd, fd) /\
    assoc_str "output.weight" qd = Some [row] /\
    exists codes deq, w_quantize pos_q pos_w = Ok codes /\
      dequantize_by_tile codes (w_scale pos_q) (Tile [1; 32]) (w_offset pos_q) = Ok deq /\
      exists v v', at_index deq [0; 0] = Some v /\ (v == 1)%Q /\ q4_0_element row 0 = Some v' /\ (v' == -7)%Q.
Proof. exact pos_witness. Qed.
Print Assumptions C59_one_sided_refuted.

(** ** C60 *)

(** The row index is a permutation that sends output row h*d + 2*j + k to input row
    h*d + k*(d/2) + j of each head of d rows. *)
Theorem C60_rope_permutation :
  forall n h, 0 < h -> n mod (h * 2) = 0 ->
    exists l, rope_permute_row_index n h = Ok l /\ length l = n /\
      (forall r, r < n -> nth_error l r = Some (rope_source (n / h) r)) /\
      Permutation l (seq 0 n).
Proof. exact rope_index_spec. Qed.
Print Assumptions C60_rope_permutation.

Theorem C60_rope_documented :
  forall n h, 0 < h -> n mod (h * 2) = 0 ->
    exists l, rope_permute_row_index n h = Ok l /\ length l = n /\
      forall a k j, a < h -> k < 2 -> j < n / h / 2 ->
        nth_error l (a * (n / h) + 2 * j + k) = Some (a * (n / h) + k * (n / h / 2) + j).
Proof. exact rope_index_at. Qed.
Print Assumptions C60_rope_documented.

Theorem C60_rope_rejects :
  forall n h, 0 < h -> n mod (h * 2) <> 0 -> rope_permute_row_index n h = Err ExportError.
Proof. exact rope_index_error. Qed.
Print Assumptions C60_rope_rejects.

(** Codes and block scales of a row move together, for any row index. *)
Theorem C60_scales_follow_codes :
  forall x cols codes scales idx bs n,
    x_body x = XQ cols codes scales -> 0 < bs -> cols = n * bs ->
    length codes = x_rows x * cols -> length scales = x_rows x * n ->
    Forall (fun i => i < x_rows x) idx -> length idx = x_rows x ->
    exists codes' scales', apply_row_permute x idx bs =
        Ok (mkX (x_hf x) (x_rows x) (XQ cols codes' scales') (x_gguf x)) /\
      length codes' = length codes /\ length scales' = length scales /\
      (forall r i c, nth_error idx r = Some i -> c < cols ->
         nth_error codes' (r * cols + c) = nth_error codes (i * cols + c)) /\
      (forall r i b, nth_error idx r = Some i -> b < n ->
         nth_error scales' (r * n + b) = nth_error scales (i * n + b)).
Proof. exact apply_row_permute_spec. Qed.
Print Assumptions C60_scales_follow_codes.

Example C60_nonvacuous :
  rope_permute_row_index 8 2 = Ok [0; 2; 1; 3; 4; 6; 5; 7] /\
  exists x', apply_row_permute
    (mkX "" 2 (XQ 4 [1; 2; 3; 4; 5; 6; 7; 8]%Z [10; 20; 30; 40]%Q) "") [1; 0] 2 = Ok x' /\
    x_body x' = XQ 4 [5; 6; 7; 8; 1; 2; 3; 4]%Z [30; 40; 10; 20]%Q.
Proof. exact (conj rope_ex perm_ex). Qed.

(** ** C73 *)

(** No two parameters share a GGUF name. *)
Theorem C73_names_injective :
  forall a n m g, builtin_adapter a -> no_newline n -> no_newline m ->
    a_map a n = Some g -> a_map a m = Some g -> n = m.
Proof. exact builtin_injective. Qed.
Print Assumptions C73_names_injective.

(** The Llama map, in full: the three global tensors and the listed tensors of each layer. *)
Theorem C73_llama_names :
  forall name g,
    llama_name_map name = Some g <->
    assoc_str name static_map = Some g \/
    (assoc_str name static_map = None /\
     exists i s t, layer_number i /\ In (s, t) common_patterns /\ g = ("blk." ++ i ++ t)%string /\
       (name = ("model.layers." ++ i ++ s)%string \/ name = ("model.layers." ++ i ++ s ++ newline)%string)).
Proof. exact (fun name g => name_map_graph common_patterns name g llama_table). Qed.
Print Assumptions C73_llama_names.

(** A tensor is in the file iff it is the GGUF name of an initialized, untied parameter. *)
Theorem C73_complete :
  forall a f ps qd fd, builtin_adapter a ->
    export_gguf a f ps = Ok (qd, fd) -> NoDup (map p_name ps) -> (forall n, In n (map p_name ps) -> no_newline n) ->
    forall g, (assoc_str g qd <> None \/ assoc_str g fd <> None) <->
      exists p, In p ps /\ a_map a (p_name p) = Some g /\ p_data p <> None /\ a_tied a (p_name p) = false.
Proof. exact export_complete. Qed.
Print Assumptions C73_complete.

(** Unquantized parameters are written unchanged under their own name. *)
Theorem C73_float_unchanged :
  forall a f ps qd fd p w g, builtin_adapter a ->
    export_gguf a f ps = Ok (qd, fd) -> NoDup (map p_name ps) -> (forall n, In n (map p_name ps) -> no_newline n) ->
    In p ps -> p_data p = Some w -> p_quantizer p = None ->
    a_map a (p_name p) = Some g -> a_tied a (p_name p) = false ->
    assoc_str g fd = Some w.
Proof. exact export_float. Qed.
Print Assumptions C73_float_unchanged.

Example C73_nonvacuous :
  builtin_adapter (LLAMA_ADAPTER 2 None false) /\ NoDup (map p_name ex_ps) /\
  (forall n, In n (map p_name ex_ps) -> no_newline n) /\
  exists qd fd, export_gguf (LLAMA_ADAPTER 2 None false) GGUF_Q4_0 ex_ps = Ok (qd, fd) /\
    assoc_str "blk.0.attn_q.weight" qd <> None /\ assoc_str "output_norm.weight" fd = Some ex_norm.
Proof.
  refine (conj (or_introl _) (conj (proj1 ex_names) (conj (proj2 ex_names) ex_export))).
  exists 2, None, false. reflexivity.
Qed.

(** Without the newline hypothesis the name maps are not injective. *)
Theorem C73_newline_refuted :
  llama_name_map ("model.layers.0.input_layernorm.weight" ++ newline)%string = Some "blk.0.attn_norm.weight"%string /\
  llama_name_map "model.layers.0.input_layernorm.weight"%string = Some "blk.0.attn_norm.weight"%string.
Proof. exact newline_witness. Qed.
Print Assumptions C73_newline_refuted.

(** ** C74 *)

(** Quantized projections of a Llama model are in llama.cpp's row order (both formats; the
    values themselves are C59). *)
Theorem C74_quantized_row_order_partial :
  forall heads kv tie ps qd fd p w q g,
    export_gguf (LLAMA_ADAPTER heads kv tie) GGUF_Q4_0 ps = Ok (qd, fd) -> NoDup (map p_name ps) ->
    (forall n, In n (map p_name ps) -> no_newline n) ->
    In p ps -> p_data p = Some w -> wf w -> p_quantizer p = Some q ->
    llama_name_map (p_name p) = Some g -> default_is_tied tie (p_name p) = false ->
    w_offset q = None -> (forall s, In s (w_scale q) -> 0 < s /\ s < 65520)%Q ->
    exists rs, assoc_str g qd = Some rs /\
      exported_values q4_0_element q w rs (llama_row heads (match kv with Some n => n | None => heads end) (p_name p)).
Proof. exact export_llama_q4. Qed.
Print Assumptions C74_quantized_row_order_partial.

(** An unquantized query projection is written in Hugging Face row order: row 1 of the file
    is row 1 of the weight where llama.cpp expects row 2. *)
Theorem C74_float_row_order_refuted :
  exists qd fd, export_gguf (LLAMA_ADAPTER 1 None false) GGUF_Q4_0 flt_ps = Ok (qd, fd) /\
    assoc_str "blk.0.attn_q.weight" fd = Some flt_w /\
    (forall r', llama_row 1 1 "model.layers.0.self_attn.q_proj.weight" 4 1 r' -> r' = 2) /\
    at_index flt_w [1; 0] = Some 1%Q /\ at_index flt_w [2; 0] = Some 2%Q.
Proof. exact flt_witness. Qed.
Print Assumptions C74_float_row_order_refuted.
