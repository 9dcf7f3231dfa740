(** C159: contexts of methods. *)
From Coq Require Import List Arith Bool Lia.
From Verif Require Import Prelude MtyModel MtySpec MtyProofs.
Import ListNotations.

(** ** C159 *)

(** The context of a method of a class, or of an object of it, that the class has or inherits: its kind says
    what Python passes first, and the name of the first parameter is the variable of the object or class exactly
    if that is passed.
    Missing: names that are stored as other values in a class before the one with the method, and signatures
    that begin with *args, for which it is false. *)
Theorem C159_kind_and_variables_partial : forall c parents f name e first rest o,
  o = TorchObject c parents \/ o = TorchClass c parents ->
  name <> 0 -> attribute (c :: parents) name e -> passes e <> None -> parameters f = Positional first :: rest ->
  exists k, ctx_kind (from_function_reference (Some f) o (Some name)) = Some k /\ says k = passes e
  /\ instance_var (from_function_reference (Some f) o (Some name)) = (match passes e with Some Object => Some first | _ => None end)
  /\ class_var (from_function_reference (Some f) o (Some name)) = (match passes e with Some Class => Some first | _ => None end)
  /\ ctx_func (from_function_reference (Some f) o (Some name)) = Some f.
Proof.
  intros c parents f name e first rest o Ho Hn A P F.
  assert (E : from_function_reference (Some f) o (Some name) = from_torch_module c parents f (Some name)) by (destruct Ho; subst; reflexivity).
  rewrite E. clear Ho E o. destruct name as [|n]; [congruence|].
  pose proof (torch_kind c parents f (Some (S n))) as K. pose proof (kind_found _ _ _ A P) as SY.
  destruct (torch_vars c parents f (Some (S n)) _ K) as [I C]. rewrite F in I, C. cbn [hd_error option_map parameter_name] in I, C.
  eexists. split; [exact K|]. split; [exact SY|]. rewrite I, C, <- SY.
  destruct (inherited (c :: parents) (S n)); repeat split; reflexivity.
Qed.
Print Assumptions C159_kind_and_variables_partial.

(** Without another name, the name of the function is looked up. *)
Theorem C159_name_of_the_function : forall f o, func_name f <> 0 ->
  from_function_reference (Some f) o None = from_function_reference (Some f) o (Some (func_name f))
  /\ from_function_reference (Some f) o (Some 0) = from_function_reference (Some f) o None.
Proof.
  intros [n p] o H. cbn in *. destruct n as [|n]; [congruence|]. destruct o; split; reflexivity.
Qed.
Print Assumptions C159_name_of_the_function.

(** A name that no class has, or that is only stored as other values, is no method, and a function of a Python module is none. *)
Theorem C159_no_method : forall f c parents name, name <> 0 -> Forall (fun b => forall e, In (name, e) b -> e = Value) (c :: parents) ->
  let here := from_function_reference (Some f) (TorchClass c parents) (Some name) in
  ctx_kind here = Some NO_METHOD /\ instance_var here = None /\ class_var here = None
  /\ forall m, let there := from_function_reference (Some f) PyModule m in
     ctx_kind there = Some NO_METHOD /\ instance_var there = None /\ class_var there = None /\ torch_module there = None.
Proof.
  intros f c parents name Hn F here. destruct name as [|n]; [congruence|].
  assert (K : ctx_kind (from_torch_module c parents f (Some (S n))) = Some (inherited (c :: parents) (S n))) by reflexivity. rewrite (kind_none _ _ F) in K.
  destruct (torch_vars c parents f (Some (S n)) _ K) as [I C]. split; [exact K|]. split; [exact I|]. split; [exact C|].
  intros m. cbn. repeat split.
Qed.
Print Assumptions C159_no_method.

(** A class that hides a method of its parent by a value, as forward = None or a partial function, is said to
    have the method of the parent. *)
Theorem C159_hidden_method_refuted : exists c parents f,
  attribute (c :: parents) 5 Value
  /\ ctx_kind (from_function_reference (Some f) (TorchClass c parents) (Some 5)) = Some METHOD.
Proof.
  exists [(5, Value)], [[(5, Function)]], (mkFunc 5 [Positional 1]). split; [|reflexivity].
  exists [], [(5, Value)], [[(5, Function)]]. split; [reflexivity|]. split; [constructor|].
  exists [], []. split; [reflexivity|]. intros x [].
Qed.
Print Assumptions C159_hidden_method_refuted.

(** In a method with the parameters *args the name args is taken for the object, although it is a tuple. *)
Theorem C159_star_args_refuted : exists c f,
  parameters f = [VarArgs 7] /\ attribute [c] 5 Function
  /\ instance_var (from_function_reference (Some f) (TorchClass c []) (Some 5)) = Some 7.
Proof.
  exists [(5, Function)], (mkFunc 5 [VarArgs 7]). split; [reflexivity|]. split; [|reflexivity].
  exists [], [(5, Function)], []. split; [reflexivity|]. split; [constructor|]. exists [], []. split; [reflexivity|]. intros x [].
Qed.
Print Assumptions C159_star_args_refuted.

(** A class method of the second parent. *)
Example C159_nonvacuous :
  let classes := [[(4, Function)]; [(6, Value)]; [(4, Value); (5, ClassMethod)]; [(5, Function)]] in
  let f := mkFunc 5 [Positional 1; Positional 2] in
  attribute classes 5 ClassMethod
  /\ class_var (from_function_reference (Some f) (TorchClass (hd [] classes) (tl classes)) (Some 5)) = Some 1.
Proof.
  split; [|reflexivity].
  exists [[(4, Function)]; [(6, Value)]], [(4, Value); (5, ClassMethod)], [[(5, Function)]]. split; [reflexivity|]. split.
  - repeat constructor; intros x [H|[]]; discriminate.
  - exists [(4, Value)], []. split; [reflexivity|]. intros x [H|[]]. discriminate.
Qed.
