(** Vocabulary for the theorems about annotating quantizers with the operators around them. A
    forward pass is a list of steps over variables; none of this mentions tensor objects. *)
From Coq Require Import String.
From Verif Require Import Prelude AnnModel.
From Verif Require ModulesModel.

(** The number of results of a step, and of variables after some steps; before them there are
    the sample input (variable 0) and the [n] tensors of the model. *)
Definition width (e : step) : nat :=
  match e with
  | Apply _ _ (Ok outs) => length outs
  | Apply _ _ (Err _) => 0
  | Quantize _ _ => 1
  end.
Fixpoint results (es : list step) : nat :=
  match es with [] => 0 | e :: es' => width e + results es' end.
Definition next (n : nat) (es : list step) : nat := S n + results es.

(** [v] is a result of the function [f] applied to [args]. *)
Definition made_by (n : nat) (es : list step) (v : nat) (f : string) (args : list nat) : Prop :=
  exists pre outs post k,
    es = pre ++ Apply f args (Ok outs) :: post /\ k < length outs /\ v = next n pre + k.
(** [v] is the result of quantizer [q] applied to [x]. *)
Definition quantized_by (n : nat) (es : list step) (v q x : nat) : Prop :=
  exists pre post, es = pre ++ Quantize q x :: post /\ v = next n pre.
(** [f] is applied to [v] (perhaps to other tensors too, perhaps it raises). *)
Definition consumed_by (es : list step) (v : nat) (f : string) : Prop :=
  exists pre args outs post, es = pre ++ Apply f args outs :: post /\ In v args.
Definition uses (e : step) (v : nat) : Prop :=
  match e with Apply _ args _ => In v args | Quantize _ x => v = x end.

(** The operators around a quantizer *)
Definition follows (n : nat) (es : list step) (q : nat) (f : string) : Prop :=
  exists v x, quantized_by n es v q x /\ consumed_by es v f.
Definition precedes (n : nat) (es : list step) (q : nat) (f : string) : Prop :=
  exists v x args, quantized_by n es v q x /\ made_by n es x f args.

(** Values that depend on the sample input or have passed through a quantizer *)
Inductive traced (n : nat) (es : list step) : nat -> Prop :=
| traced_input : traced n es 0
| traced_made v f args a : made_by n es v f args -> In a args -> traced n es a -> traced n es v
| traced_quantized v q x : quantized_by n es v q x -> traced n es v.

(** A tag [t] such as "before/add" is on a quantizer when it or one of the tags below it has been
    added: adding "before/add" also adds "before". *)
Definition implied (u t : string) : Prop := In t (ModulesModel.hierarchy u).

(** Forward passes in which every function returns new tensors, and a value that has been
    quantized is from then on used only through the quantizer's result and is quantized once. *)
Definition no_aliases (es : list step) : Prop :=
  forall f args outs, In (Apply f args (Ok outs)) es -> Forall (fun o => o = None) outs.
Definition quantized_once (n : nat) (es : list step) : Prop :=
  forall pre q x post, es = pre ++ Quantize q x :: post -> traced n es x ->
    (forall e, In e post -> ~ uses e x) /\ (forall q' x', ~ quantized_by n es x q' x').
Definition in_scope (n : nat) (es : list step) : Prop :=
  forall pre e post, es = pre ++ e :: post -> forall v, uses e v -> v < next n pre.
(** Every function whose result is quantized is applied to a value that is traced. *)
Definition operands_traced (n : nat) (es : list step) : Prop :=
  forall v q x f args, quantized_by n es v q x -> made_by n es x f args -> exists a, In a args /\ traced n es a.

Definition calls (es : list step) (q : nat) : Prop := exists x, In (Quantize q x) es.
