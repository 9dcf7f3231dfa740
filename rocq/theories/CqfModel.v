(** Models [src/fastforward/quantization/function.py]: quantization functions made from a pair of
    Python functions, their parameter classes, and quantization contexts. *)
From Coq Require Import String.
From Verif Require Import Prelude.
Local Open Scope nat_scope.
Local Open Scope list_scope.

(** Python objects (parameter values, tensors, annotations) are known by their identity. *)
Inductive kind := PositionalOnly | PositionalOrKeyword | VarPositional | KeywordOnly | VarKeyword.
(** A parameter of [inspect.signature]: [None] for no annotation, no default. *)
Record param := mkP { p_name : string; p_annotation : option nat; p_default : option nat; p_kind : kind }.
Definition signature := list param.

(** ** Python's own rules *)
Fixpoint get (x : string) (l : list (string * nat)) : option nat :=
  match l with
  | [] => None
  | (y, v) :: l' => if String.eqb x y then Some v else get x l'
  end.
Definition has (x : string) (l : list string) : bool := existsb (String.eqb x) l.
(** The value of a parameter: the keyword given, or its default *)
Definition bind (kw : list (string * nat)) (x : string) (default : option nat) : result nat :=
  match get x kw with
  | Some v => Ok v
  | None => match default with Some v => Ok v | None => Err TypeError end
  end.
(** Calling a function with one positional argument and keywords, for functions whose other
    parameters can be given by keyword. The body sees the values in the order of the parameters. *)
Definition call (sig : signature) (body : nat -> list nat -> result nat) (data : nat) (kw : list (string * nat)) : result nat :=
  match sig with
  | [] => Err TypeError
  | p0 :: ps =>
      match p_kind p0 with
      | KeywordOnly | VarKeyword => Err TypeError
      | _ =>
          if forallb (fun e => has (fst e) (map p_name ps)) kw then
            let? vs := rmapM (fun p => bind kw (p_name p) (p_default p)) ps in body data vs
          else Err TypeError
      end
  end.

Section Objects.
  (** Python's [==] on objects, and whether the class of an object is unhashable *)
  Variable peq : nat -> nat -> bool.
  Variable mutable_ : nat -> bool.
  (** [typing.Any] *)
  Variable any : nat.

  (** A field: name, annotation, default *)
  Definition field := (string * (nat * option nat))%type.
  Definition f_name (f : field) : string := fst f.
  Definition f_default (f : field) : option nat := snd (snd f).

  (** 306-323 [_parameters_from_function]. [next(params)] on a function without parameters raises
      StopIteration in a generator, which Python turns into RuntimeError. *)
  Definition parameter (p : param) : result field :=
    match p_kind p with
    | KeywordOnly | PositionalOrKeyword =>
        Ok (p_name p, (match p_annotation p with Some a => a | None => any end, p_default p))
    | _ => Err TypeError
    end.
  Definition parameters_from (sig : signature) : result (list field) :=
    match sig with
    | [] => Err RuntimeError
    | _ :: ps => rmapM parameter ps
    end.
  Fixpoint find (x : string) (l : list field) : option (nat * option nat) :=
    match l with
    | [] => None
    | (y, v) :: l' => if String.eqb x y then Some v else find x l'
    end.
  (** [quantize_field.default != dequantize_field.default], MISSING when there is none *)
  Definition default_eqb (a b : option nat) : bool :=
    match a, b with
    | Some x, Some y => peq x y
    | None, None => true
    | _, _ => false
    end.
  (** 270-286: shared parameters must agree. *)
  Fixpoint agree (q d : list field) : result unit :=
    match d with
    | [] => Ok tt
    | (x, (ann, def)) :: d' =>
        match find x q with
        | None => agree q d'
        | Some (ann', def') =>
            if negb (ann' =? ann) then Err TypeError
            else if negb (default_eqb def' def) then Err ValueError
            else agree q d'
        end
    end.
  (** 288-291: [{**quantize_params, **dequantize_params}] *)
  Definition merge (q d : list field) : list field :=
    map (fun f => match find (f_name f) d with Some v => (f_name f, v) | None => f end) q ++
    filter (fun f => negb (has (f_name f) (map f_name q))) d.
  (** [dataclasses.make_dataclass]: mutable defaults are refused, then fields without a default
      after fields with one. *)
  Fixpoint ordered (seen_default : bool) (l : list field) : bool :=
    match l with
    | [] => true
    | f :: l' => match f_default f with
                 | Some _ => ordered true l'
                 | None => negb seen_default && ordered false l'
                 end
    end.
  Definition make_dataclass (l : list field) : result (list field) :=
    if existsb (fun f => match f_default f with Some v => mutable_ v | None => false end) l then Err ValueError
    else if ordered false l then Ok l else Err TypeError.

  (** What [create_quantization_function] (209-252) makes: the fields of the parameter class, the
      names quantize and dequantize take. *)
  Record made := mkMade { m_fields : list field; m_quantize : list string; m_dequantize : list string }.
  (** 255-303 [_make_quantization_parameters_type] *)
  Definition create (q d : signature) : result made :=
    let? fq := parameters_from q in
    let? fd := parameters_from d in
    let? _ := agree fq fd in
    let? fs := make_dataclass (merge fq fd) in
    Ok (mkMade fs (map f_name fq) (map f_name fd)).

  (** The [__init__] of the parameter class: [QuantParams( **kwargs)] *)
  Definition construct (fs : list field) (kw : list (string * nat)) : result (list (string * nat)) :=
    if forallb (fun e => has (fst e) (map f_name fs)) kw
    then rmapM (fun f => let? v := bind kw (f_name f) (f_default f) in Ok (f_name f, v)) fs
    else Err TypeError.
  (** 292-297 [_quantize_params] and [_dequantize_params]. A field of the method's own name hides
      the method: the value is called instead (we take it not to be callable). *)
  Definition params_of (method : string) (names : list string) (ps : list (string * nat)) : result (list (string * nat)) :=
    if has method (map fst ps) then Err TypeError
    else rmapM (fun x => match get x ps with Some v => Ok (x, v) | None => Err AttributeError end) names.
  (** 192-202 [quantize] and [dequantize] of the made function *)
  Definition quantize_with (m : made) (q : signature) (body : nat -> list nat -> result nat) (data : nat)
      (ps : list (string * nat)) : result nat :=
    let? kw := params_of "quantize_params" (m_quantize m) ps in call q body data kw.
  Definition dequantize_with (m : made) (d : signature) (body : nat -> list nat -> result nat) (data : nat)
      (ps : list (string * nat)) : result nat :=
    let? kw := params_of "dequantize_params" (m_dequantize m) ps in call d body data kw.
  (** 248-250 [quantize_func]: the raw data and the parameters of the quantized tensor. *)
  Definition quantize_func (m : made) (q : signature) (body : nat -> list nat -> result nat) (data : nat)
      (kw : list (string * nat)) : result (nat * list (string * nat)) :=
    if has "data" (map fst kw) then Err TypeError
    else
      let? ps := construct (m_fields m) kw in
      let? raw := quantize_with m q body data ps in Ok (raw, ps).
End Objects.

(** ** Contexts *)
(** 76-86: a context is a quantization function and parameters (a dataclass: its fields in order). *)
Record context := mkC { c_fn : nat; c_params : list (string * nat) }.
(** 29-31 [QuantizationParameters.with_changes]: [dataclasses.replace] *)
Definition replace_params (ps changes : list (string * nat)) : result (list (string * nat)) :=
  if forallb (fun e => has (fst e) (map fst ps)) changes
  then Ok (map (fun e => (fst e, match get (fst e) changes with Some v => v | None => snd e end)) ps)
  else Err TypeError.
(** 88-108 [QuantizationContext.with_changes]; a keyword [quantization_fn] is the function. *)
Definition with_changes (c : context) (fn : option nat) (changes : list (string * nat)) : result context :=
  let? ps := replace_params (c_params c) changes in
  Ok (mkC (match fn with Some f => f | None => c_fn c end) ps).
(** 33-39 and 110-116 [_apply] *)
Definition apply_params (c : context) (fn : nat -> nat) : context :=
  mkC (c_fn c) (map (fun e => (fst e, fn (snd e))) (c_params c)).
(** common.py:21-33 [maybe_tensor_apply] *)
Definition maybe_tensor (is_tensor : nat -> bool) (fn : nat -> nat) (v : nat) : nat :=
  if is_tensor v then fn v else v.
(** 118-132, 147-155 [clone_parameters], [detach_parameters], [to]: [fn] is torch's function. *)
Definition tensor_parameters (is_tensor : nat -> bool) (fn : nat -> nat) (c : context) : context :=
  apply_params c (maybe_tensor is_tensor fn).
(** 134-145 [contiguous_parameters]: the context itself ([None]) when no parameter is another
    object afterwards *)
Definition contiguous_parameters (is_tensor : nat -> bool) (contiguous : nat -> nat) (c : context) : option context :=
  let c' := tensor_parameters is_tensor contiguous c in
  if existsb (fun e => match get (fst e) (c_params c'), get (fst e) (c_params c) with
                       | Some a, Some b => negb (b =? a)
                       | _, _ => true
                       end) (c_params c)
  then Some c' else None.
