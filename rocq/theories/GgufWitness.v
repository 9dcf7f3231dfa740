(** Concrete exports used as witnesses. *)
From Coq Require Import String Ascii.
From Verif Require Import Prelude TilingModel TilingSpec GranularityModel AffineModel GgufModel GgufSpec.
From Coq Require Import QArith Qabs.
Local Open Scope nat_scope.
Local Open Scope list_scope.

Definition per_block32 := PerBlock [1%Z] [32] [0%Z] true.

(** A 4x64 query projection, two heads, 4-bit blocks. *)
Definition ex_w : tensor Q := mkT [4; 64] (map (fun i => inject_Z (Z.of_nat (i * 7 mod 16) - 8) * (1 # 2))%Q (seq 0 256)).
Definition ex_q : wquantizer := mkWq 4 per_block32 (repeat (1 # 2)%Q 8) None true (FloatT 23).
Definition ex_norm : tensor Q := mkT [2] [1; 3]%Q.
Definition ex_ps : list param :=
  [mkP "model.layers.0.self_attn.q_proj.weight" (Some ex_w) (Some ex_q);
   mkP "model.norm.weight" (Some ex_norm) None;
   mkP "model.rotary.inv_freq" (Some ex_norm) None].

Lemma ex_wf : wf ex_w. Proof. reflexivity. Qed.

Lemma ex_export : exists qd fd, export_gguf (LLAMA_ADAPTER 2 None false) GGUF_Q4_0 ex_ps = Ok (qd, fd) /\
  assoc_str "blk.0.attn_q.weight" qd <> None /\ assoc_str "output_norm.weight" fd = Some ex_norm.
Proof.
  destruct (export_gguf (LLAMA_ADAPTER 2 None false) GGUF_Q4_0 ex_ps) as [[qd fd]|e] eqn:E.
  - exists qd, fd. split; [reflexivity|]. revert E. vm_compute. intros [= <- <-]. split; [discriminate|reflexivity].
  - exfalso. revert E. vm_compute. discriminate.
Qed.

Lemma ex_names : NoDup (map p_name ex_ps) /\ (forall n, In n (map p_name ex_ps) -> no_newline n).
Proof.
  split.
  - repeat constructor; cbn; intros H; repeat (destruct H as [H|H]; [discriminate H|]); exact H.
  - intros n H. cbn in H. destruct H as [<-|[<-|[<-|[]]]]; vm_compute; repeat split; intros H; discriminate H.
Qed.

Lemma ex_scales : forall s, In s (w_scale ex_q) -> (0 < s /\ s < 65520)%Q.
Proof. intros s H. apply repeat_spec in H. subst. split; reflexivity. Qed.

(** An 8-bit block whose most negative weight has code -128. *)
Definition neg_w : tensor Q := mkT [1; 32] (map (fun i => inject_Z (Z.of_nat i * 7 - 128))%Q (seq 0 32)).
Definition neg_q : wquantizer := mkWq 8 per_block32 [1%Q] None true (FloatT 23).
Definition neg_ps := [mkP "lm_head.weight" (Some neg_w) (Some neg_q)].

Lemma neg_witness :
  parameters_for_range [(-128, 89)]%Q 8 true true = Ok ([128 # 128]%Q, None) /\
  exists qd fd row, export_gguf (QWEN3_ADAPTER false) GGUF_Q8_0 neg_ps = Ok (qd, fd) /\
    assoc_str "output.weight" qd = Some [row] /\
    at_index neg_w [0; 0] = Some (-128)%Q /\
    exists codes deq, w_quantize neg_q neg_w = Ok codes /\
      dequantize_by_tile codes (w_scale neg_q) (Tile [1; 32]) None = Ok deq /\
      exists v v', at_index deq [0; 0] = Some v /\ (v == -128)%Q /\ q8_0_element row 0 = Some v' /\ (v' == -127)%Q.
Proof.
  split; [vm_compute; reflexivity|].
  destruct (export_gguf (QWEN3_ADAPTER false) GGUF_Q8_0 neg_ps) as [[qd fd]|e] eqn:E.
  2:{ exfalso. revert E. vm_compute. discriminate. }
  revert E. vm_compute (export_gguf _ _ _). intros [= <- <-].
  eexists _, _, _. split; [reflexivity|]. split; [reflexivity|]. split; [reflexivity|].
  eexists _, _. split; [vm_compute; reflexivity|]. split; [vm_compute; reflexivity|].
  eexists _, _. split; [vm_compute; reflexivity|]. split; [reflexivity|]. split; [vm_compute; reflexivity|reflexivity].
Qed.

(** A non-negative block: the symmetric quantizer falls back to a one-sided range, with an
    offset; the export accepts it and drops the offset. *)
Definition pos_w : tensor Q := mkT [1; 32] (map (fun i => inject_Z (Z.of_nat (i mod 15) + 1))%Q (seq 0 32)).
Definition pos_q : wquantizer := mkWq 4 per_block32 [1%Q] (Some [8%Q]) true (FloatT 23).
Definition pos_ps := [mkP "lm_head.weight" (Some pos_w) (Some pos_q)].

Lemma pos_witness :
  (exists s o, parameters_for_range [(1, 15)]%Q 4 true true = Ok ([s], Some [o]) /\ (s == 1)%Q /\ (o == 8)%Q) /\
  exists qd fd row, export_gguf (QWEN3_ADAPTER false) GGUF_Q4_0 pos_ps = Ok (qd, fd) /\
    assoc_str "output.weight" qd = Some [row] /\
    exists codes deq, w_quantize pos_q pos_w = Ok codes /\
      dequantize_by_tile codes (w_scale pos_q) (Tile [1; 32]) (w_offset pos_q) = Ok deq /\
      exists v v', at_index deq [0; 0] = Some v /\ (v == 1)%Q /\ q4_0_element row 0 = Some v' /\ (v' == -7)%Q.
Proof.
  split.
  { eexists _, _. split; [vm_compute; reflexivity|]. split; reflexivity. }
  destruct (export_gguf (QWEN3_ADAPTER false) GGUF_Q4_0 pos_ps) as [[qd fd]|e] eqn:E.
  2:{ exfalso. revert E. vm_compute. discriminate. }
  revert E. vm_compute (export_gguf _ _ _). intros [= <- <-].
  eexists _, _, _. split; [reflexivity|]. split; [reflexivity|].
  eexists _, _. split; [vm_compute; reflexivity|]. split; [vm_compute; reflexivity|].
  eexists _, _. split; [vm_compute; reflexivity|]. split; [reflexivity|]. split; [vm_compute; reflexivity|reflexivity].
Qed.

(** An unquantized query projection of a Llama model keeps its row order. *)
Definition flt_w : tensor Q := mkT [4; 1] [0; 1; 2; 3]%Q.
Definition flt_ps := [mkP "model.layers.0.self_attn.q_proj.weight" (Some flt_w) None].

Lemma flt_witness :
  exists qd fd, export_gguf (LLAMA_ADAPTER 1 None false) GGUF_Q4_0 flt_ps = Ok (qd, fd) /\
    assoc_str "blk.0.attn_q.weight" fd = Some flt_w /\
    (forall r', llama_row 1 1 "model.layers.0.self_attn.q_proj.weight" 4 1 r' -> r' = 2) /\
    at_index flt_w [1; 0] = Some 1%Q /\ at_index flt_w [2; 0] = Some 2%Q.
Proof.
  eexists _, _. split; [vm_compute; reflexivity|]. split; [reflexivity|]. split; [|split; reflexivity].
  intros r' (H & _). rewrite H; [reflexivity|].
  exists "0"%string. split; [|reflexivity]. split; [discriminate|]. split; [vm_compute; lia|exact I].
Qed.

(** A trailing newline is the one way two parameters share a GGUF name. *)
Lemma newline_witness :
  llama_name_map ("model.layers.0.input_layernorm.weight" ++ newline)%string = Some "blk.0.attn_norm.weight"%string /\
  llama_name_map "model.layers.0.input_layernorm.weight"%string = Some "blk.0.attn_norm.weight"%string.
Proof. split; vm_compute; reflexivity. Qed.

Lemma rope_ex : rope_permute_row_index 8 2 = Ok [0; 2; 1; 3; 4; 6; 5; 7].
Proof. vm_compute. reflexivity. Qed.

Lemma perm_ex : exists x', apply_row_permute
    (mkX "" 2 (XQ 4 [1; 2; 3; 4; 5; 6; 7; 8]%Z [10; 20; 30; 40]%Q) "") [1; 0] 2 = Ok x' /\
    x_body x' = XQ 4 [5; 6; 7; 8; 1; 2; 3; 4]%Z [30; 40; 10; 20]%Q.
Proof. eexists. split; vm_compute; reflexivity. Qed.
