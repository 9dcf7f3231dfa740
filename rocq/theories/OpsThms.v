(** C104 and C105: quantized operators. *)
From Coq Require Import String.
From Verif Require Import Prelude OpsModel OpsSpec OpsTable OpsProofs.
Local Open Scope nat_scope.
Local Open Scope list_scope.

(** ** C104: what a quantized operator does *)

(** In strict mode an operator without an output quantizer, or with a plain tensor where only quantized tensors may be,
    raises [QuantizationError], and torch is not called: this holds whatever torch does. *)
Theorem C104_refused : forall (T Q O : Type) (dequantize : Q -> T) (iterate : val T Q O -> result (list (val T Q O))) (torch : operator -> list (val T Q O) -> result (val T Q O)),
  (forall vs, iterate (VList vs) = Ok vs) ->
  forall o quantizer args, returns_quantized o = true -> Forall2 (fun p v => supported (p_type p) /\ conforms (p_type p) v) (o_params o) args ->
  quantizer = None \/ (exists i p v, nth_error (o_params o) i = Some p /\ nth_error args i = Some v /\ refuses (p_type p) v) ->
  fallback dequantize iterate torch o quantizer true args = Err QuantizationError.
Proof. intros T Q O d i t H. exact (fallback_refuses d i H t). Qed.
Print Assumptions C104_refused.

(** Otherwise it is the torch function on the dequantized arguments, and then the output quantizer (if there is one). *)
Theorem C104_computed : forall (T Q O : Type) (dequantize : Q -> T) (iterate : val T Q O -> result (list (val T Q O))) (torch : operator -> list (val T Q O) -> result (val T Q O)),
  (forall vs, iterate (VList vs) = Ok vs) ->
  forall o quantizer strict args, returns_quantized o = true -> Forall2 (fun p v => supported (p_type p) /\ conforms (p_type p) v) (o_params o) args ->
  strict = false \/ (quantizer <> None /\ forall i p v, nth_error (o_params o) i = Some p -> nth_error args i = Some v -> ~ refuses (p_type p) v) ->
  fallback dequantize iterate torch o quantizer strict args = result_then (torch o (map (strip dequantize) args)) (match quantizer with Some q => q | None => Ok end).
Proof. intros T Q O d i t H. exact (fallback_computes d i H t). Qed.
Print Assumptions C104_computed.

(** The strictness is that of the call, or else that of the global flag; a kernel found by the dispatcher gets the same. *)
Theorem C104_flag : forall (T Q O : Type) (dequantize : Q -> T) (iterate : val T Q O -> result (list (val T Q O))) (torch : operator -> list (val T Q O) -> result (val T Q O)) kernel flag o quantizer strict args,
  let asked := match strict with Some b => b | None => flag end in
  (forall k, kernel o quantizer asked args = Some k -> call dequantize iterate torch kernel flag o quantizer strict args = k quantizer asked args) /\
  (kernel o quantizer asked args = None -> call dequantize iterate torch kernel flag o quantizer strict args = fallback dequantize iterate torch o quantizer asked args).
Proof. intros. unfold call, asked. split; [intros k -> | intros ->]; reflexivity. Qed.
Print Assumptions C104_flag.

(** All 53 operators of the project are of the kind the theorems above speak of: results are quantized, every type is
    supported, the parameters have different names, and are those of the specification, in its order. *)
Theorem C104_table : Forall (fun row : spec * string * list string => exists o, from_spec (fst (fst row)) = Ok o /\ returns_quantized o = true /\ NoDup (map p_name (o_params o)) /\ Forall (fun p => supported (p_type p)) (o_params o) /\ map p_name (o_params o) = spec_signature (fst (fst row))) operators_yaml.
Proof.
  assert (X : forallb (fun row : spec * string * list string => well_formedb (fst (fst row))) operators_yaml = true) by (vm_compute; reflexivity).
  rewrite forallb_forall in X. apply Forall_forall. intros row I. apply well_formedb_ok, X, I.
Qed.
Print Assumptions C104_table.

(** Annotations mean what they say: names, alternatives, [Optional] and [Union]. *)
Theorem C104_types : forall e t x, type_of e = Ok t -> (has t (Atom x) <-> means e x).
Proof. exact type_means. Qed.
Print Assumptions C104_types.

(** A default survives code generation if it is a string exactly when the type is [str].  Missing: other defaults. *)
Theorem C104_default_partial : forall e d x t p, type_of e = Ok t -> from_params [(x, e, Some d)] = Ok [p] ->
  ((exists s, d = DString s) <-> t = TString) -> generated_default p = Some d.
Proof.
  intros e d x t p T E H. cbn in E. rewrite T in E. injection E as <-. unfold generated_default. cbn. destruct (ty_eqb t TString) eqn:S.
  - apply string_ty in S. apply H in S. destruct S as [s ->]. reflexivity.
  - destruct d as [s|c]; [|reflexivity]. exfalso. assert (X : t = TString) by (apply H; eauto). apply string_ty in X. congruence.
Qed.
Print Assumptions C104_default_partial.

(** Every default of the 53 operators survives, but one: *)
Theorem C104_defaults_partial : Forall (fun row : spec * string * list string => forall o, from_spec (fst (fst row)) = Ok o ->
    Forall2 (fun q p => generated_default p = snd q \/ (s_identifier (fst (fst row)) = "pad"%string /\ p_name p = "mode"%string)) (s_params (fst (fst row))) (o_params o)) operators_yaml.
Proof.
  repeat (apply Forall_cons; [intros o E; cbn in E; injection E as <-; repeat (apply Forall2_cons; [first [left; reflexivity | right; split; reflexivity]|]); apply Forall2_nil|]). apply Forall_nil.
Qed.
Print Assumptions C104_defaults_partial.

(** ... the mode of [pad], which is [...] in the specification, and the string "..." in the generated function. *)
Theorem C104_pad_refuted : exists row o p, In row operators_yaml /\ from_spec (fst (fst row)) = Ok o /\ In p (o_params o) /\
  In ("mode"%string, TName "str", Some (DCode "...")) (s_params (fst (fst row))) /\ p_name p = "mode"%string /\ generated_default p = Some (DString "...").
Proof.
  eexists. eexists. eexists. split; [do 41 (apply in_cons); apply in_eq|]. split; [reflexivity|]. split; [cbn; right; right; left; reflexivity|]. split; [cbn; right; right; left; reflexivity|]. split; reflexivity.
Qed.
Print Assumptions C104_pad_refuted.

(** A string default of an optional string parameter becomes code. *)
Theorem C104_optional_string_refuted : exists p, from_params [("mode"%string, TSub "Optional" [TName "str"], Some (DString "mean"))] = Ok [p] /\ generated_default p = Some (DCode "mean").
Proof. eexists. split; reflexivity. Qed.
Print Assumptions C104_optional_string_refuted.

(** An operator whose result is not quantized cannot be called: its function fails after torch has been called. *)
Theorem C104_unquantized_refuted : forall (T Q O : Type) (dequantize : Q -> T) (iterate : val T Q O -> result (list (val T Q O))) (torch : operator -> list (val T Q O) -> result (val T Q O)) x,
  exists o, from_spec (mkSpec "argmax" [] [("input"%string, TName "Quantized", None)] [] (Some (TName "Tensor"))) = Ok o /\
  (torch o [VPlain (dequantize x)] = Ok (VNone) -> forall quantizer strict, fallback dequantize iterate torch o quantizer strict [VQuant x] = Err NameError).
Proof. intros. eexists. split; [reflexivity|]. intros H quantizer strict. unfold fallback. destruct strict; cbn; cbn in H; rewrite H; reflexivity. Qed.
Print Assumptions C104_unquantized_refuted.

(** Quantized tensors in an optional list go to torch as they are, in strict mode too. *)
Theorem C104_optional_list_refuted : forall (T Q O : Type) (dequantize : Q -> T) (iterate : val T Q O -> result (list (val T Q O))) (torch : operator -> list (val T Q O) -> result (val T Q O)) x q,
  exists o, from_spec (mkSpec "stack" [] [("tensors"%string, TSub "Optional" [TSub "Sequence" [TName "Quantized"]], None)] [] (Some (TName "Quantized"))) = Ok o /\
  fallback dequantize iterate torch o (Some q) true [VList [VQuant x]] = result_then (torch o [VList [VQuant x]]) q.
Proof. intros. eexists. split; [reflexivity|]. unfold fallback. cbn. destruct (torch _ _); reflexivity. Qed.
Print Assumptions C104_optional_list_refuted.

(** ... and so do plain tensors there, where only quantized ones may be. *)
Theorem C104_optional_plain_refuted : forall (T Q O : Type) (dequantize : Q -> T) (iterate : val T Q O -> result (list (val T Q O))) (torch : operator -> list (val T Q O) -> result (val T Q O)) x q,
  exists o, from_spec (mkSpec "stack" [] [("tensors"%string, TSub "Optional" [TSub "Sequence" [TName "Quantized"]], None)] [] (Some (TName "Quantized"))) = Ok o /\
  fallback dequantize iterate torch o (Some q) true [VList [VPlain x]] = result_then (torch o [VList [VPlain x]]) q.
Proof. intros. eexists. split; [reflexivity|]. unfold fallback. cbn. destruct (torch _ _); reflexivity. Qed.
Print Assumptions C104_optional_plain_refuted.

(** [embedding] gives torch a quantized tensor of indices as it is. *)
Theorem C104_indices_refuted : forall (T Q O : Type) (dequantize : Q -> T) (iterate : val T Q O -> result (list (val T Q O))) (torch : operator -> list (val T Q O) -> result (val T Q O)) x w q rest,
  exists row o, In row operators_yaml /\ s_identifier (fst (fst row)) = "embedding"%string /\ from_spec (fst (fst row)) = Ok o /\
  (rest = [VNone; VNone; VNone; VNone; VNone] -> fallback dequantize iterate torch o (Some q) true (VQuant x :: VQuant w :: rest) = result_then (torch o (VQuant x :: VPlain (dequantize w) :: rest)) q).
Proof.
  intros. eexists. eexists. split; [do 13 (apply in_cons); apply in_eq|]. split; [reflexivity|]. split; [reflexivity|]. intros ->. unfold fallback. cbn. destruct (torch _ _); reflexivity.
Qed.
Print Assumptions C104_indices_refuted.

(** [linear] with a quantized input, a plain weight and no bias: refused in strict mode, computed otherwise. *)
Example C104_types_nonvacuous : let e := TOr (TName "number") (TSub "Optional" [TName "torch.Tensor"]) in
  (exists t, type_of e = Ok t /\ map (fun x => contains t (Atom x)) ["Int"; "Float"; "Tensor"; "NoneType"; "Bool"]%string = [true; true; true; true; false]) /\ means e "Float" /\ means e "NoneType".
Proof.
  cbn zeta. split; [eexists; split; reflexivity|]. cbn. split; [|tauto]. left. exists (["number"; "Number"], ["Int"; "Float"])%string. cbn. tauto.
Qed.
Example C104_nonvacuous : exists row o, In row operators_yaml /\ from_spec (fst (fst row)) = Ok o /\ s_identifier (fst (fst row)) = "linear"%string /\
  let args : list (val nat nat nat) := [VQuant 3; VPlain 5; VNone] in
  let iterate (v : val nat nat nat) := match v with VList vs => Ok vs | _ => Err TypeError end in
  let torch (_ : operator) (l : list (val nat nat nat)) := Ok (VList l) in
  Forall2 (fun p v => supported (p_type p) /\ conforms (p_type p) v) (o_params o) args /\
  (exists i p v, nth_error (o_params o) i = Some p /\ nth_error args i = Some v /\ refuses (p_type p) v) /\
  fallback S iterate torch o (Some Ok) true args = Err QuantizationError /\
  fallback S iterate torch o (Some Ok) false args = Ok (VList [VPlain 4; VPlain 5; VNone]).
Proof.
  eexists. eexists. split; [left; reflexivity|]. split; [reflexivity|]. split; [reflexivity|]. cbn zeta. split; [|split; [|split; reflexivity]].
  - repeat (apply Forall2_cons); [| | |apply Forall2_nil]; (split; [apply supportedb_ok; reflexivity|]); right; (split; [intros u; discriminate|]); cbn; [right | left; exact I | left; exact I]. split; [left; reflexivity | eauto].
  - exists 1. eexists. eexists. split; [reflexivity|]. split; [reflexivity|]. cbn. split; [left; reflexivity|]. split; [intros [H|[]]; discriminate H | exact I].
Qed.

(** ** C105: which operator a call is *)

(** [validate_arguments] holds exactly when Python would accept the call. *)
Theorem C105_accepts : forall (A : Type) o (args : list A) kwargs, NoDup (map p_name (o_params o)) -> NoDup (map fst kwargs) ->
  (validate_arguments o args kwargs = true <-> accepts (signature o) (length args) (map fst kwargs)).
Proof. intros A o args kwargs N K. apply valid_iff; assumption. Qed.
Print Assumptions C105_accepts.

(** Each parameter gets the argument that Python would give it. *)
Theorem C105_binds : forall (A : Type) o (args : list A) kwargs bound, NoDup (map p_name (o_params o)) -> NoDup (map fst kwargs) ->
  bind_partial o args kwargs = Ok bound -> forall x a, In (x, a) bound <-> given (signature o) args kwargs x a.
Proof. intros A o args kwargs bound N K. apply bind_gives; assumption. Qed.
Print Assumptions C105_binds.

(** A call is replaced by the newest operator that accepts its arguments, and it is left alone if there is none.
    Missing: [*args] and [**kwargs]. *)
Theorem C105_counterpart_partial : forall overloads args, Forall (fun o => NoDup (map p_name (o_params o))) overloads -> NoDup (map fst (kw_args args)) ->
  (forall a, In a args -> (exists x, a = Pos x) \/ exists k x, a = Kw k x) ->
  let fits o := accepts (signature o) (length (filter (fun a => match a with Pos _ => true | _ => false end) args)) (map fst (kw_args args)) in
  (forall o, counterpart overloads args = Ok o <-> exists newer older, overloads = newer ++ o :: older /\ fits o /\ Forall (fun o' => ~ fits o') newer) /\
  (forall e, counterpart overloads args = Err e <-> e = KeyError /\ Forall (fun o => ~ fits o) overloads).
Proof.
  intros overloads args N K P fits.
  assert (X : forall o, In o overloads -> (validate_arguments o (pos_args args) (kw_args args) = true <-> fits o)).
  { intros o I. unfold fits. rewrite <- (pos_plain args P). apply valid_iff; [|exact K]. rewrite Forall_forall in N. apply N, I. }
  assert (Y : forall o, In o overloads -> (validate_arguments o (pos_args args) (kw_args args) = false <-> ~ fits o)).
  { intros o I. rewrite <- (X o I). destruct (validate_arguments o (pos_args args) (kw_args args)); split; congruence. }
  unfold counterpart. split.
  - intros o. pose proof (find_first (fun o => validate_arguments o (pos_args args) (kw_args args)) overloads o) as F. split.
    + intros E. destruct (find _ overloads) as [o'|]; [|discriminate]. injection E as ->. destruct (proj1 F eq_refl) as (a & b & E & V & W). exists a, b. split; [exact E|]. split; [apply X; [rewrite E; apply in_elt | exact V]|].
      rewrite Forall_forall in *. intros y Iy. apply Y; [rewrite E; apply in_or_app; auto | apply W, Iy].
    + intros (a & b & E & V & W). rewrite (proj2 F); [reflexivity|]. exists a, b. split; [exact E|]. split; [apply X; [rewrite E; apply in_elt | exact V]|].
      rewrite Forall_forall in *. intros y Iy. apply Y; [rewrite E; apply in_or_app; auto | apply W, Iy].
  - intros e. destruct (find _ overloads) as [o'|] eqn:F.
    + split; [discriminate|]. intros [_ W]. exfalso. apply find_some in F. destruct F as [I V]. rewrite Forall_forall in W. apply (W o' I). apply X; assumption.
    + split; [intros E; injection E as <-; split; [reflexivity|] | intros [-> _]; reflexivity]. apply Forall_forall. intros o I. apply Y; [exact I|]. apply (find_none _ _ F o I).
Qed.
Print Assumptions C105_counterpart_partial.

(** The call [add( *pair)] is refused, and [relu( *rest)] accepted, whatever is unpacked. *)
Theorem C105_unpacked_refuted : exists one two, from_spec (mkSpec "relu" [] [("input"%string, TName "Quantized", None)] [] (Some (TName "Quantized"))) = Ok one /\
  from_spec (mkSpec "mul" [] [("input"%string, TName "Quantized", None); ("other"%string, TName "Quantized", None)] [] (Some (TName "Quantized"))) = Ok two /\
  counterpart [two] [Star 0] = Err KeyError /\ accepts (signature two) 2 [] /\ counterpart [one] [StarStar 0] = Ok one /\ ~ accepts (signature one) 1 ["input"%string].
Proof.
  eexists. eexists. split; [reflexivity|]. split; [reflexivity|]. split; [reflexivity|]. split; [|split; [reflexivity|]].
  - split; [cbn; lia|]. split; [intros k []|]. intros [|[|i]] x E; [left; lia | left; lia |]. cbn in E. destruct i; discriminate E.
  - intros (_ & H & _). specialize (H "input"%string (or_introl eq_refl)). cbn in H. contradiction.
Qed.
Print Assumptions C105_unpacked_refuted.

(** Positional-only parameters are put behind the others: [sub(1, 2)] binds its arguments the wrong way round. *)
Theorem C105_posonly_refuted : exists s o, s = mkSpec "sub" [("input"%string, TName "Quantized", None)] [("other"%string, TName "Quantized", None)] [] (Some (TName "Quantized")) /\
  from_spec s = Ok o /\ spec_signature s = ["input"%string; "other"%string] /\ bind_partial o [1; 2] [] = Ok [("other"%string, 1); ("input"%string, 2)].
Proof. eexists. eexists. split; [reflexivity|]. split; [reflexivity|]. split; reflexivity. Qed.
Print Assumptions C105_posonly_refuted.

(** A keyword-only parameter may be given by position. *)
Theorem C105_kwonly_refuted : exists s o, s = mkSpec "sum" [] [("input"%string, TName "Quantized", None)] [("dim"%string, TName "int", None)] (Some (TName "Quantized")) /\
  from_spec s = Ok o /\ validate_arguments o [1; 2] [] = true.
Proof. eexists. eexists. split; [reflexivity|]. split; reflexivity. Qed.
Print Assumptions C105_kwonly_refuted.

(** Two overloads of [add]: the newer one without [alpha] is taken where it fits. *)
Example C105_nonvacuous : exists old new, from_spec (mkSpec "add" [] [("input"%string, TName "Quantized", None); ("other"%string, TOr (TName "Quantized") (TName "float"), None); ("alpha"%string, TName "Number", Some (DCode "1"))] [] (Some (TName "Quantized"))) = Ok old /\
  from_spec (mkSpec "add" [] [("input"%string, TName "Quantized", None); ("other"%string, TName "Quantized", None)] [] (Some (TName "Quantized"))) = Ok new /\
  counterpart [new; old] [Pos 0; Kw "other" 1] = Ok new /\ counterpart [new; old] [Pos 0; Pos 1; Pos 2] = Ok old /\ counterpart [new; old] [Pos 0; Kw "input" 1] = Err KeyError /\
  bind_partial old [10; 11] [("alpha"%string, 12)] = Ok [("input"%string, 10); ("other"%string, 11); ("alpha"%string, 12)].
Proof. eexists. eexists. split; [reflexivity|]. split; [reflexivity|]. repeat split; reflexivity. Qed.
