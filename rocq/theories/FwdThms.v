(** C145 to C147: forward passes of quantized modules. *)
From Coq Require Import List Arith Bool Lia.
From Verif Require Import Prelude FwdModel FwdSpec FwdProofs FwdQProofs.
Import ListNotations.

(** Sequences of numbers; convolution of one channel in one dimension, padding by zeros or circular. *)
Fixpoint dot (w x : list nat) : nat :=
  match w, x with a :: w', b :: x' => a * b + dot w' x' | _, _ => 0 end.
Fixpoint slide (w x : list nat) (n : nat) : list nat :=
  match n with O => [] | S n' => dot w x :: slide w (tl x) n' end.
Definition correlate (w x : list nat) : list nat := slide w x (length x + 1 - length w).
Definition add_bias (b : option (list nat)) (x : list nat) : list nat :=
  match b with Some (k :: _) => map (plus k) x | _ => x end.
Definition zeros_around (p : nat) (x : list nat) : list nat := repeat 0 p ++ x ++ repeat 0 p.
Definition circular (p : nat) (x : list nat) : list nat := skipn (length x - p) x ++ x ++ firstn p x.
Definition sequences : torch :=
  mkTorch (list nat) unit nat 0
    (fun x w b => add_bias b [dot w x])
    (fun _ x w b _ p => add_bias b (correlate w (zeros_around p x)))
    (fun x p _ => circular p x)
    (fun x _ w b => add_bias b (match w with Some (k :: _) => map (mult k) x | _ => x end))
    (fun x w _ => map (fun i => nth i w 0) x)
    (fun w x _ => None)
    (fun _ x => map (fun a => a - 4) x).
(** Address 0: input [1; 2; 3]; 1: weight [1; 1]; 2: bias [5]; 3: another input [4]. *)
Definition memory : state sequences :=
  @mkState sequences 4 (fun a => @mkTensor sequences false
    match a with 0 => [1; 2; 3] | 1 => [1; 1] | 2 => [5] | _ => [4] end) [].
Definition variables (v : nat) : nat := if v =? 0 then 0 else 3.

(** ** C145 *)

(** Code that calls modules and torch functions computes the same values after its modules were
    converted to quantized modules, whose quantizers are stubs, and parameters have the same values
    in the end, if convolutions pad with zeros and no module changes the tensor it is given. *)
Theorem C145_conversion_keeps_results_partial : forall (F : torch) (p : list (stmt F (module F))) e s P,
  (forall m, uses p m -> incl (params m) P /\ pads_with_zeros m /\ ~ changes_input m) ->
  (forall a, In a P -> a < next s /\ quantized (mem s a) = false) ->
  (forall v, e v < next s /\ ~ In (e v) P) ->
  exists e' s', quantized_run false (map (with_modules quantize) p) e s = Ok (e', s')
  /\ (forall v, read s' (e' v) = read (snd (torch_run p e s)) (fst (torch_run p e s) v))
  /\ (forall a, In a P -> read s' a = read (snd (torch_run p e s)) a)
  /\ calls s' = calls s.
Proof.
  intros F p e s P U Q E.
  destruct (run_sim F P p e e s s) as (e' & s' & R & Rel & A & C); auto.
  - constructor; auto; intros a I; apply Q; exact I.
  - intro v. destruct (E v). constructor; auto.
  - exists e', s'. split; [exact R|]. split; [|split; [|exact C]].
    + intro v. symmetry. apply A.
    + intros a I. symmetry. apply Rel. exact I.
Qed.
Print Assumptions C145_conversion_keeps_results_partial.

(** The same for the result of a single module, which may change the tensor it is given. *)
Theorem C145_one_call_partial : forall (F : torch) (m : module F) x s,
  pads_with_zeros m -> (forall a, In a (params m) -> a < next s /\ quantized (mem s a) = false) ->
  x < next s -> ~ In x (params m) ->
  exists y s', forward false (quantize m) x s = Ok (y, s')
  /\ read s' y = read (snd (torch_forward m x s)) (fst (torch_forward m x s))
  /\ forall a, In a (params m) -> read s' a = read (snd (torch_forward m x s)) a.
Proof.
  intros F m x s Z Q L N.
  destruct (proj1 (forward_sim F (params m)) m (incl_refl _) Z x x s s) as (y & t & E & G).
  - constructor; auto; intros a I; apply Q; exact I.
  - constructor; auto.
  - exists y, t. destruct G as (R & A & _). split; [exact E|]. split; [symmetry; apply A|].
    intros a I. symmetry. apply R, I.
Qed.
Print Assumptions C145_one_call_partial.

(** Convolution, in-place activation, then a sum with the input. *)
Definition chain1 : module sequences :=
  Sequential (MCons (@Conv sequences 1 1 (Some 2) tt 1 0) (MCons (Act 0 true) MNil)).
Definition add (l : list (list nat)) : list nat :=
  match l with [a; b] => map (fun p => fst p + snd p) (combine a b) | _ => [] end.
Definition program1 : list (stmt sequences (module sequences)) :=
  [CallMod 1 chain1 0; @CallFn sequences _ 2 add [0; 1]].
Example C145_nonvacuous :
  (forall m, uses program1 m -> incl (params m) [1; 2] /\ pads_with_zeros m /\ ~ changes_input m)
  /\ read (snd (torch_run program1 variables memory)) (fst (torch_run program1 variables memory) 1) = [2; 4; 6; 4]
  /\ read (snd (torch_run program1 variables memory)) (fst (torch_run program1 variables memory) 2) = [3; 6; 9].
Proof.
  split; [|split; reflexivity]. intros m (y & x & [H|[H|[]]]); inversion H; subst.
  split; [|split; [cbn; auto|cbn; tauto]]. intros a I. cbn in *. tauto.
Qed.

(** The padding mode of convolutions is ignored after conversion. *)
Theorem C145_padding_mode_refuted : exists m : module sequences,
  ~ changes_input m
  /\ read (snd (torch_forward m 0 memory)) (fst (torch_forward m 0 memory)) = [4; 3; 5; 4]
  /\ exists y s', forward false (quantize m) 0 memory = Ok (y, s') /\ read s' y = [1; 3; 5; 3].
Proof. exists (@Conv sequences 1 1 None tt 1 1). split; [cbn; tauto|]. split; [reflexivity|]. do 2 eexists. split; reflexivity. Qed.
Print Assumptions C145_padding_mode_refuted.

(** In-place activations no longer change their input, which shows if it is used again. *)
Theorem C145_in_place_refuted : exists p : list (stmt sequences (module sequences)),
  (forall m, uses p m -> pads_with_zeros m)
  /\ read (snd (torch_run p variables memory)) (fst (torch_run p variables memory) 2) = [0]
  /\ exists e' s', quantized_run false (map (with_modules quantize) p) variables memory = Ok (e', s')
     /\ read s' (e' 2) = [4].
Proof.
  exists [CallMod 1 (Act 0 true) 9; @CallFn sequences _ 2 add [9; 1]].
  split; [|split; [reflexivity|do 2 eexists; split; reflexivity]].
  intros m (y & x & [H|[H|[]]]); inversion H; subst; exact I.
Qed.
Print Assumptions C145_in_place_refuted.

(** ** C146 *)

(** A quantized module computes the torch function of quantized input, weight and bias, and then the
    output quantizer. Every quantizer is called once for each tensor it is for, with that tensor, in
    the order input, weight, bias, output. Nothing that existed is changed. *)
Theorem C146_quantizers_where_they_belong : forall (F : torch) (m : qmodule F) x s,
  x < next s -> (forall p, In p (qparams m) -> p < next s) -> weights_stay m ->
  exists y s', forward false m x s = Ok (y, s')
  /\ read s' y = fst (ideal m (read s) (read s x))
  /\ calls s' = calls s ++ snd (ideal m (read s) (read s x))
  /\ forall a, a < next s -> mem s' a = mem s a.
Proof.
  intros F m x s L P W. destruct (proj1 (forward_ideal F) m x s (read s) L) as (y & t & E & (N & X) & _ & R & C); auto.
  exists y, t. auto.
Qed.
Print Assumptions C146_quantizers_where_they_belong.

Definition halve (x : list nat) : list nat := map (fun a => 2 * (a / 2)) x.
Definition quantized1 : qmodule sequences :=
  QSequential (QCons (@QConv sequences (@Quant sequences 10 halve) Stub (Some (@Quant sequences 11 halve))
                        (@Quant sequences 12 halve) 1 1 (Some 2) tt 1 0)
              (QCons (@QAct sequences Stub (@Quant sequences 13 halve) 0) QNil)).
Example C146_nonvacuous :
  weights_stay quantized1
  /\ ideal quantized1 (read memory) (read memory 0)
     = ([0; 2; 4; 2], [(10, [1; 2; 3]); (11, [5]); (12, [4; 6; 8; 6]); (13, [0; 2; 4; 2])]).
Proof. split; [cbn; auto|reflexivity]. Qed.

(** After conversion every parameter has its quantizer, which is a stub. *)
Theorem C146_every_parameter_has_a_quantizer : forall (F : torch) (m : module F), well_made m ->
  parameter_quantizers (quantize m) = map (fun a => (a, Stub)) (params m).
Proof. exact converted_parameters. Qed.
Print Assumptions C146_every_parameter_has_a_quantizer.

Example C146_parameters_nonvacuous : well_made chain1 /\ params chain1 = [1; 2].
Proof. cbn. repeat split. Qed.

(** ** C147 *)

(** In strict mode a quantized module does what it does otherwise, or raises QuantizationError. It raises
    exactly if the input or a weight of one of its parts is neither a quantized tensor nor given to a
    quantizer that is no stub. The result is quantized if the last output quantizer is no stub. *)
Theorem C147_strict_mode_only_refuses : forall (F : torch) (m : qmodule F) x s,
  x < next s -> (forall p, In p (qparams m) -> p < next s) ->
  match accepted m (quantized (mem s x)) (fun a => quantized (mem s a)) with
  | None => forward true m x s = Err QuantizationError
  | Some q => exists y s', forward true m x s = Ok (y, s') /\ forward false m x s = Ok (y, s')
              /\ quantized (mem s' y) = q
  end.
Proof.
  intros F m x s L P. pose proof (proj1 (forward_strict F) m x s (fun a => quantized (mem s a)) L (fun p I => conj (P p I) eq_refl)) as H.
  unfold strict_spec in H. destruct (accepted _ _ _); auto. destruct H as (y & t & A & B & C & _). exists y, t. auto.
Qed.
Print Assumptions C147_strict_mode_only_refuses.

(** Right after conversion strict mode refuses every module that computes something, given plain tensors. *)
Theorem C147_stubs_are_refused : forall (F : torch) (m : module F) x s,
  x < next s -> (forall p, In p (params m) -> p < next s) -> quantized (mem s x) = false ->
  (forall p, In p (params m) -> quantized (mem s p) = false) ->
  match m with Sequential _ => False | _ => True end ->
  forward true (quantize m) x s = Err QuantizationError.
Proof.
  intros F m x s L P Qx Qp N.
  assert (E : qparams (quantize m) = params m).
  { destruct m as [w b|d w b c p mode|af w b c|w c|f ip|l]; try reflexivity; [|destruct N]. destruct af; reflexivity. }
  pose proof (C147_strict_mode_only_refuses F (quantize m) x s L) as H. rewrite E in H. specialize (H P).
  assert (A : accepted (quantize m) (quantized (mem s x)) (fun a => quantized (mem s a)) = None).
  { rewrite Qx. destruct m as [w b|d w b c p mode|af w b c|w c|f ip|l]; try reflexivity; [destruct af; reflexivity| |destruct N].
    cbn. rewrite Qp; [reflexivity|left; reflexivity]. }
  rewrite A in H. exact H.
Qed.
Print Assumptions C147_stubs_are_refused.

Definition quantized2 : qmodule sequences :=
  @QLinear sequences (@Quant sequences 10 halve) (@Quant sequences 11 halve) None (@Quant sequences 12 halve) 1 None.
Example C147_nonvacuous :
  accepted quantized2 false (fun _ => false) = Some true
  /\ accepted quantized1 false (fun _ => false) = None
  /\ accepted quantized1 false (fun a => a =? 1) = Some true.
Proof. repeat split. Qed.
