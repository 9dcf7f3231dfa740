(** Forward passes of quantized modules.

    Modelled code: src/fastforward/nn/{linear,conv,normalization,embedding,activations,container}.py, and
    of the generated functions (src/fastforward/_quantops/generate.py) the check of arguments, the call of
    the torch function and the output quantizer. Tensors are objects in a memory, with a mark for
    quantized tensors and the real numbers they stand for; what torch functions compute is left open. *)
From Coq Require Import List Arith Bool.
From Verif Require Import Prelude.
Import ListNotations.

(** The torch functions. Configurations of modules other than what matters here are of any type. *)
Record torch := mkTorch {
  D : Type;
  cfg : Type;
  padding : Type;
  no_padding : padding;
  f_linear : D -> D -> option D -> D;
  f_conv : nat -> D -> D -> option D -> cfg -> padding -> D;
  f_pad : D -> padding -> nat -> D;
  f_layer_norm : D -> cfg -> option D -> option D -> D;
  f_embedding : D -> D -> cfg -> D;
  f_renorm : D -> D -> cfg -> option D;
  f_act : nat -> D -> D
}.

Section Fwd.
  Variable F : torch.

  Record tensor := mkTensor { quantized : bool; data : D F }.

  (** Memory, the next free address, and the calls of quantizers with the numbers they were given. *)
  Record state := mkState { next : nat; mem : nat -> tensor; calls : list (nat * D F) }.
  Definition set (s : state) (a : nat) (t : tensor) : state :=
    mkState (next s) (fun b => if b =? a then t else mem s b) (calls s).
  Definition alloc (s : state) (t : tensor) : nat * state :=
    (next s, mkState (S (next s)) (fun b => if b =? next s then t else mem s b) (calls s)).
  Definition read (s : state) (a : nat) : D F := data (mem s a).
  Definition read_opt (s : state) (a : option nat) : option (D F) := option_map (read s) a.

  (** A stub returns the tensor it is given; another quantizer makes a quantized tensor. *)
  Inductive quantizer := Stub | Quant (id : nat) (q : D F -> D F).
  Definition apply_quantizer (q : quantizer) (s : state) (a : nat) : nat * state :=
    match q with
    | Stub => (a, s)
    | Quant id f =>
        let (b, s') := alloc s (mkTensor true (f (read s a))) in
        (b, mkState (next s') (mem s') (calls s ++ [(id, read s a)]))
    end.

  (** Padding modes of convolutions: 0 is zeros. *)
  Inductive qmodule :=
  | QLinear (input_q weight_q : quantizer) (bias_q : option quantizer) (output_q : quantizer)
            (weight : nat) (bias : option nat)
  | QConv (input_q weight_q : quantizer) (bias_q : option quantizer) (output_q : quantizer)
          (dim : nat) (weight : nat) (bias : option nat) (c : cfg F) (pad : padding F) (padding_mode : nat)
  | QLayerNorm (input_q : quantizer) (weight_q bias_q : option quantizer) (output_q : quantizer)
               (weight bias : option nat) (c : cfg F)
  | QEmbedding (weight_q output_q : quantizer) (weight : nat) (c : cfg F)
  | QAct (input_q output_q : quantizer) (act : nat)
  | QSequential (l : qmodules)
  with qmodules := QNil | QCons (m : qmodule) (r : qmodules).

  (** generate.py:341-362: in strict mode quantized tensors are asked for. *)
  Definition guard (strict : bool) (s : state) (l : list nat) : bool :=
    negb strict || forallb (fun a => quantized (mem s a)) l.

  (** The end of a generated function: the new tensor goes through the output quantizer. *)
  Definition finish (output_q : quantizer) (s : state) (d : D F) : nat * state :=
    let (a, s') := alloc s (mkTensor false d) in apply_quantizer output_q s' a.

  (** The bias (linear.py:35-38, conv.py:34-38 and 72-76): without bias or bias quantizer as it is. *)
  Definition quantize_opt (q : option quantizer) (s : state) (a : option nat) : option nat * state :=
    match a, q with
    | Some b, Some q' => let (b', s') := apply_quantizer q' s b in (Some b', s')
    | _, _ => (a, s)
    end.

  Definition list_opt (a : option nat) : list nat := match a with Some b => [b] | None => [] end.

  Fixpoint forward (strict : bool) (m : qmodule) (x : nat) (s : state) : result (nat * state) :=
    match m with
    (** linear.py:31-39 QuantizedLinear.forward *)
    | QLinear iq wq bq oq w b =>
        let (x, s) := apply_quantizer iq s x in
        let (w, s) := apply_quantizer wq s w in
        let (b, s) := quantize_opt bq s b in
        if guard strict s [x; w] then Ok (finish oq s (f_linear F (read s x) (read s w) (read_opt s b)))
        else Err QuantizationError
    (** conv.py:30-49 and 68-87 QuantizedConv2d.forward, QuantizedConv1d.forward; the padding mode is not
        used. *)
    | QConv iq wq bq oq d w b c pad _ =>
        let (x, s) := apply_quantizer iq s x in
        let (w, s) := apply_quantizer wq s w in
        let (b, s) := quantize_opt bq s b in
        if guard strict s [x; w] then Ok (finish oq s (f_conv F d (read s x) (read s w) (read_opt s b) c pad))
        else Err QuantizationError
    (** normalization.py:30-48 QuantizedLayerNorm.forward *)
    | QLayerNorm iq wq bq oq w b c =>
        let (x, s) := apply_quantizer iq s x in
        let (w, s) := quantize_opt wq s w in
        let (b, s) := quantize_opt bq s b in
        if guard strict s (x :: list_opt w)
        then Ok (finish oq s (f_layer_norm F (read s x) c (read_opt s w) (read_opt s b)))
        else Err QuantizationError
    (** embedding.py:20-31 QuantizedEmbedding.forward. torch changes the weight in place if there is a
        maximal norm; a quantized weight is dequantized first, so that a copy is changed. *)
    | QEmbedding wq oq w c =>
        let (w, s) := apply_quantizer wq s w in
        if guard strict s [w] then
          let (w, s) := if quantized (mem s w) then alloc s (mkTensor false (read s w)) else (w, s) in
          let s := match f_renorm F (read s w) (read s x) c with
                   | Some d => set s w (mkTensor false d)
                   | None => s
                   end in
          Ok (finish oq s (f_embedding F (read s x) (read s w) c))
        else Err QuantizationError
    (** activations.py:35-37 and 53-55: QuantizedRelu.forward, QuantizedSilu.forward *)
    | QAct iq oq f =>
        let (x, s) := apply_quantizer iq s x in
        if guard strict s [x] then Ok (finish oq s (f_act F f (read s x))) else Err QuantizationError
    (** container.py:9-10 QuantizedSequential: forward of torch.nn.Sequential *)
    | QSequential l => forward_all strict l x s
    end
  with forward_all (strict : bool) (l : qmodules) (x : nat) (s : state) : result (nat * state) :=
    match l with
    | QNil => Ok (x, s)
    | QCons m r => let? p := forward strict m x s in forward_all strict r (fst p) (snd p)
    end.

  (** Modules of torch; an activation may work in place. *)
  Inductive module :=
  | Linear (weight : nat) (bias : option nat)
  | Conv (dim : nat) (weight : nat) (bias : option nat) (c : cfg F) (pad : padding F) (padding_mode : nat)
  | LayerNorm (affine : bool) (weight bias : option nat) (c : cfg F)
  | Embedding (weight : nat) (c : cfg F)
  | Act (act : nat) (inplace : bool)
  | Sequential (l : modules)
  with modules := MNil | MCons (m : module) (r : modules).

  (** The conversion of modules: __init_quantization__ of each class makes the stubs. *)
  Definition stub_opt (a : option nat) : option quantizer := match a with Some _ => Some Stub | None => None end.
  Fixpoint quantize (m : module) : qmodule :=
    match m with
    (** linear.py:20-29 *)
    | Linear w b => QLinear Stub Stub (stub_opt b) Stub w b
    (** conv.py:20-28 and 58-66 *)
    | Conv d w b c p pm => QConv Stub Stub (stub_opt b) Stub d w b c p pm
    (** normalization.py:17-28 *)
    | LayerNorm affine w b c =>
        if affine then QLayerNorm Stub (Some Stub) (Some Stub) Stub w b c else QLayerNorm Stub None None Stub w b c
    (** embedding.py:14-18 *)
    | Embedding w c => QEmbedding Stub Stub w c
    (** activations.py:14-17, 29-32 and 47-50: activations no longer work in place. *)
    | Act f _ => QAct Stub Stub f
    | Sequential l => QSequential (quantize_all l)
    end
  with quantize_all (l : modules) : qmodules :=
    match l with MNil => QNil | MCons m r => QCons (quantize m) (quantize_all r) end.
End Fwd.
Arguments mkTensor {F}. Arguments mkState {F}. Arguments quantized {F}. Arguments data {F}.
Arguments next {F}. Arguments mem {F}. Arguments calls {F}. Arguments set {F}. Arguments alloc {F}.
Arguments read {F}. Arguments read_opt {F}. Arguments Stub {F}. Arguments Quant {F}.
Arguments apply_quantizer {F}. Arguments guard {F}. Arguments finish {F}. Arguments quantize_opt {F}.
Arguments QLinear {F}. Arguments QConv {F}. Arguments QLayerNorm {F}. Arguments QEmbedding {F}.
Arguments QAct {F}. Arguments QSequential {F}. Arguments QNil {F}. Arguments QCons {F}.
Arguments Linear {F}. Arguments Conv {F}. Arguments LayerNorm {F}. Arguments Embedding {F}.
Arguments Act {F}. Arguments Sequential {F}. Arguments MNil {F}. Arguments MCons {F}.
Arguments forward {F}. Arguments forward_all {F}. Arguments quantize {F}. Arguments quantize_all {F}.
Arguments stub_opt {F}.
