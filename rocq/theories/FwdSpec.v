(** What torch's modules compute, and programs that use modules. *)
From Coq Require Import List Arith Bool.
From Verif Require Import Prelude FwdModel.
Import ListNotations.

Section Spec.
  Variable F : torch.

  (** ** torch *)
  Definition put (s : state F) (d : D F) : nat * state F := alloc s (mkTensor false d).

  Fixpoint torch_forward (m : module F) (x : nat) (s : state F) : nat * state F :=
    match m with
    | Linear w b => put s (f_linear F (read s x) (read s w) (read_opt s b))
    | Conv d w b c p mode =>
        match mode with
        | O => put s (f_conv F d (read s x) (read s w) (read_opt s b) c p)
        | S _ =>
            let (y, s) := put s (f_pad F (read s x) p mode) in
            put s (f_conv F d (read s y) (read s w) (read_opt s b) c (no_padding F))
        end
    | LayerNorm _ w b c => put s (f_layer_norm F (read s x) c (read_opt s w) (read_opt s b))
    | Embedding w c =>
        let s := match f_renorm F (read s w) (read s x) c with
                 | Some d => set s w (mkTensor false d)
                 | None => s
                 end in
        put s (f_embedding F (read s x) (read s w) c)
    | Act f inplace =>
        if inplace then (x, set s x (mkTensor false (f_act F f (read s x)))) else put s (f_act F f (read s x))
    | Sequential l => torch_forward_all l x s
    end
  with torch_forward_all (l : modules F) (x : nat) (s : state F) : nat * state F :=
    match l with
    | MNil => (x, s)
    | MCons m r => let (y, s') := torch_forward m x s in torch_forward_all r y s'
    end.

  (** ** Properties of modules *)
  (** Parameters *)
  Definition opt_list (a : option nat) : list nat := match a with Some b => [b] | None => [] end.
  Fixpoint params (m : module F) : list nat :=
    match m with
    | Linear w b => w :: opt_list b
    | Conv _ w b _ _ _ => w :: opt_list b
    | LayerNorm _ w b _ => opt_list w ++ opt_list b
    | Embedding w _ => [w]
    | Act _ _ => []
    | Sequential l => params_all l
    end
  with params_all (l : modules F) : list nat :=
    match l with MNil => [] | MCons m r => params m ++ params_all r end.

  (** All convolutions pad with zeros. *)
  Fixpoint pads_with_zeros (m : module F) : Prop :=
    match m with
    | Conv _ _ _ _ _ mode => mode = 0
    | Sequential l => pads_with_zeros_all l
    | _ => True
    end
  with pads_with_zeros_all (l : modules F) : Prop :=
    match l with MNil => True | MCons m r => pads_with_zeros m /\ pads_with_zeros_all r end.

  (** The module returns the tensor it was given. *)
  Fixpoint returns_input (m : module F) : Prop :=
    match m with
    | Act _ inplace => inplace = true
    | Sequential l => returns_input_all l
    | _ => False
    end
  with returns_input_all (l : modules F) : Prop :=
    match l with MNil => True | MCons m r => returns_input m /\ returns_input_all r end.
  (** The module may change the tensor it was given. *)
  Fixpoint changes_input (m : module F) : Prop :=
    match m with
    | Act _ inplace => inplace = true
    | Sequential l => changes_input_all l
    | _ => False
    end
  with changes_input_all (l : modules F) : Prop :=
    match l with
    | MNil => False
    | MCons m r => changes_input m \/ (returns_input m /\ changes_input_all r)
    end.

  (** ** Programs *)
  (** Code that calls modules and torch functions: [dst := module(src)] or [dst := f(src, ...)]. *)
  Inductive stmt (mod_ : Type) :=
  | CallMod (dst : nat) (m : mod_) (src : nat)
  | CallFn (dst : nat) (f : list (D F) -> D F) (srcs : list nat).
  Definition upd (e : nat -> nat) (x a : nat) : nat -> nat := fun y => if y =? x then a else e y.

  Fixpoint torch_run (p : list (stmt (module F))) (e : nat -> nat) (s : state F) : (nat -> nat) * state F :=
    match p with
    | [] => (e, s)
    | CallMod _ y m x :: r => let (a, s') := torch_forward m (e x) s in torch_run r (upd e y a) s'
    | CallFn _ y f xs :: r => let (a, s') := put s (f (map (fun x => read s (e x)) xs)) in torch_run r (upd e y a) s'
    end.
  Fixpoint quantized_run (strict : bool) (p : list (stmt (qmodule F))) (e : nat -> nat) (s : state F)
    : result ((nat -> nat) * state F) :=
    match p with
    | [] => Ok (e, s)
    | CallMod _ y m x :: r =>
        let? q := forward strict m (e x) s in quantized_run strict r (upd e y (fst q)) (snd q)
    | CallFn _ y f xs :: r =>
        let (a, s') := put s (f (map (fun x => read s (e x)) xs)) in quantized_run strict r (upd e y a) s'
    end.
  Definition with_modules {A B : Type} (h : A -> B) (st : stmt A) : stmt B :=
    match st with
    | CallMod _ y m x => CallMod B y (h m) x
    | CallFn _ y f xs => CallFn B y f xs
    end.
  Definition uses (p : list (stmt (module F))) (m : module F) : Prop := exists y x, In (CallMod _ y m x) p.
End Spec.
Arguments put {F}. Arguments torch_forward {F}. Arguments torch_forward_all {F}. Arguments params {F}.
Arguments params_all {F}. Arguments pads_with_zeros {F}. Arguments pads_with_zeros_all {F}.
Arguments returns_input {F}. Arguments returns_input_all {F}.
Arguments changes_input {F}. Arguments changes_input_all {F}. Arguments CallMod {F mod_}. Arguments CallFn {F mod_}.
Arguments torch_run {F}. Arguments quantized_run {F}. Arguments with_modules {F A B}. Arguments uses {F}.

(** ** Quantizers *)
Section Ideal.
  Variable F : torch.

  (** What a quantizer makes of a tensor, and the call that is made. *)
  Definition after (q : quantizer F) (d : D F) : D F := match q with Stub => d | Quant _ f => f d end.
  Definition called (q : quantizer F) (d : D F) : list (nat * D F) :=
    match q with Stub => [] | Quant id _ => [(id, d)] end.
  Definition is_real (q : quantizer F) : bool := match q with Stub => false | Quant _ _ => true end.
  (** The same for parameters that may be missing, with quantizers that may be missing. *)
  Definition after_opt (q : option (quantizer F)) (d : option (D F)) : option (D F) :=
    match q, d with Some q, Some d => Some (after q d) | _, _ => d end.
  Definition called_opt (q : option (quantizer F)) (d : option (D F)) : list (nat * D F) :=
    match q, d with Some q, Some d => called q d | _, _ => [] end.

  (** The torch function of the quantized input and parameters, then the output quantizer. The calls of
      quantizers: input, weight, bias, output. [val] are the values of the parameters. *)
  Fixpoint ideal (m : qmodule F) (val : nat -> D F) (x : D F) : D F * list (nat * D F) :=
    match m with
    | QLinear iq wq bq oq w b =>
        let r := f_linear F (after iq x) (after wq (val w)) (after_opt bq (option_map val b)) in
        (after oq r, called iq x ++ called wq (val w) ++ called_opt bq (option_map val b) ++ called oq r)
    | QConv iq wq bq oq d w b c p _ =>
        let r := f_conv F d (after iq x) (after wq (val w)) (after_opt bq (option_map val b)) c p in
        (after oq r, called iq x ++ called wq (val w) ++ called_opt bq (option_map val b) ++ called oq r)
    | QLayerNorm iq wq bq oq w b c =>
        let r := f_layer_norm F (after iq x) c (after_opt wq (option_map val w)) (after_opt bq (option_map val b)) in
        (after oq r, called iq x ++ called_opt wq (option_map val w) ++ called_opt bq (option_map val b) ++ called oq r)
    | QEmbedding wq oq w c =>
        let w' := match f_renorm F (after wq (val w)) x c with Some d => d | None => after wq (val w) end in
        let r := f_embedding F x w' c in
        (after oq r, called wq (val w) ++ called oq r)
    | QAct iq oq f =>
        let r := f_act F f (after iq x) in (after oq r, called iq x ++ called oq r)
    | QSequential l => ideal_all l val x
    end
  with ideal_all (l : qmodules F) (val : nat -> D F) (x : D F) : D F * list (nat * D F) :=
    match l with
    | QNil => (x, [])
    | QCons m r => let (y, c) := ideal m val x in let (z, c') := ideal_all r val y in (z, c ++ c')
    end.

  (** Whether strict mode accepts the module: None if not, otherwise whether the output is quantized.
      [qx] and [qp] tell whether input and parameters are quantized tensors. *)
  Definition opt_ok (q : option (quantizer F)) (qp : nat -> bool) (w : option nat) : bool :=
    match w with
    | None => true
    | Some a => qp a || match q with Some q => is_real q | None => false end
    end.
  Fixpoint accepted (m : qmodule F) (qx : bool) (qp : nat -> bool) : option bool :=
    match m with
    | QLinear iq wq _ oq w _ | QConv iq wq _ oq _ w _ _ _ _ =>
        if (qx || is_real iq) && (qp w || is_real wq) then Some (is_real oq) else None
    | QLayerNorm iq wq _ oq w _ _ => if (qx || is_real iq) && opt_ok wq qp w then Some (is_real oq) else None
    | QEmbedding wq oq w _ => if qp w || is_real wq then Some (is_real oq) else None
    | QAct iq oq _ => if qx || is_real iq then Some (is_real oq) else None
    | QSequential l => accepted_all l qx qp
    end
  with accepted_all (l : qmodules F) (qx : bool) (qp : nat -> bool) : option bool :=
    match l with
    | QNil => Some qx
    | QCons m r => match accepted m qx qp with Some qy => accepted_all r qy qp | None => None end
    end.

  Fixpoint qparams (m : qmodule F) : list nat :=
    match m with
    | QLinear _ _ _ _ w b | QConv _ _ _ _ _ w b _ _ _ => w :: opt_list b
    | QLayerNorm _ _ _ _ w b _ => opt_list w ++ opt_list b
    | QEmbedding _ _ w _ => [w]
    | QAct _ _ _ => []
    | QSequential l => qparams_all l
    end
  with qparams_all (l : qmodules F) : list nat :=
    match l with QNil => [] | QCons m r => qparams m ++ qparams_all r end.

  (** Parameters together with the quantizers they are given to. *)
  Definition pair_opt (q : option (quantizer F)) (w : option nat) : list (nat * quantizer F) :=
    match q, w with Some q, Some a => [(a, q)] | _, _ => [] end.
  Fixpoint parameter_quantizers (m : qmodule F) : list (nat * quantizer F) :=
    match m with
    | QLinear _ wq bq _ w b | QConv _ wq bq _ _ w b _ _ _ => (w, wq) :: pair_opt bq b
    | QLayerNorm _ wq bq _ w b _ => pair_opt wq w ++ pair_opt bq b
    | QEmbedding wq _ w _ => [(w, wq)]
    | QAct _ _ _ => []
    | QSequential l => parameter_quantizers_all l
    end
  with parameter_quantizers_all (l : qmodules F) : list (nat * quantizer F) :=
    match l with QNil => [] | QCons m r => parameter_quantizers m ++ parameter_quantizers_all r end.
  (** Layer norm without affine transformation has no parameters. *)
  Fixpoint well_made (m : module F) : Prop :=
    match m with
    | LayerNorm affine w b _ => affine = true \/ (w = None /\ b = None)
    | Sequential l => well_made_all l
    | _ => True
    end
  with well_made_all (l : modules F) : Prop :=
    match l with MNil => True | MCons m r => well_made m /\ well_made_all r end.

  (** Embeddings with a maximal norm have a weight quantizer. *)
  Fixpoint weights_stay (m : qmodule F) : Prop :=
    match m with
    | QEmbedding wq _ _ c => is_real wq = true \/ forall a b, f_renorm F a b c = None
    | QSequential l => weights_stay_all l
    | _ => True
    end
  with weights_stay_all (l : qmodules F) : Prop :=
    match l with QNil => True | QCons m r => weights_stay m /\ weights_stay_all r end.
End Ideal.
Arguments after {F}. Arguments called {F}. Arguments is_real {F}. Arguments after_opt {F}.
Arguments called_opt {F}. Arguments ideal {F}. Arguments ideal_all {F}. Arguments opt_ok {F}.
Arguments accepted {F}. Arguments accepted_all {F}. Arguments qparams {F}. Arguments qparams_all {F}.
Arguments parameter_quantizers {F}. Arguments parameter_quantizers_all {F}. Arguments well_made {F}.
Arguments well_made_all {F}.
Arguments weights_stay {F}. Arguments weights_stay_all {F}.
