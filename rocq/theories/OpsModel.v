(** Models quantized operators: fastforward/_quantops/{symtypes,operator,generate}.py, the functions generated from
    quantized_operators.yaml (fastforward/_gen/{fallback,operators}.py), and how autoquant picks one
    (fastforward/_autoquant/cst/node_creation.py:64-109). *)
From Coq Require Import String.
From Verif Require Import Prelude.
Local Open Scope nat_scope.
Local Open Scope list_scope.

(** ** symtypes.py *)
(** 18-124: types with a name; lists and sequences differ in their Python text only.  The order of the variants of a
    union is that of a Python set; here it is the order of the text, and nothing below depends on it. *)
Inductive ty := Atom (name : string) | ListOf (t : ty) | TupleOf (ts : list ty) | Union (ts : list ty).
Definition TNone := Atom "NoneType".
Definition Tensor := Atom "Tensor".
Definition Quantized := Atom "QuantizedTensor".
Definition TString := Atom "String".

(** 18-23 (dataclass), 113-121; [a == b] *)
Fixpoint ty_eqb (a b : ty) : bool :=
  match a, b with
  | Atom x, Atom y => String.eqb x y
  | ListOf t, ListOf u => ty_eqb t u
  | TupleOf ts, TupleOf us => (fix all2 ts us := match ts, us with [], [] => true | t :: ts', u :: us' => ty_eqb t u && all2 ts' us' | _, _ => false end) ts us
  | Union ts, Union us => forallb (fun u => existsb (fun t => ty_eqb t u) ts) us
  | _, _ => false
  end.
(** 33-37 and 95-96 *)
Definition variants (t : ty) : list ty := match t with Union ts => ts | _ => [t] end.
(** 39-40 and 98-101: [b in a] *)
Definition contains (a b : ty) : bool :=
  match a with
  | Union ts => forallb (fun u => existsb (fun t => ty_eqb t u) ts) (variants b)
  | _ => ty_eqb b a
  end.
Fixpoint dedup (l : list ty) : list ty :=
  match l with [] => [] | t :: l' => t :: filter (fun u => negb (ty_eqb t u)) (dedup l') end.
(** 154-165 *)
Definition union (ts : list ty) : ty := Union (dedup (flat_map variants ts)).
Definition optional (t : ty) : ty := union [t; TNone].
(** 168-177 *)
Definition unwrap_optional (t : ty) : ty :=
  match t with
  | Union ts =>
      if contains t TNone then
        match filter (fun u => negb (ty_eqb u TNone)) ts with [u] => u | us => Union us end
      else t
  | _ => t
  end.
Definition MaybeQuantized : ty := union [Tensor; Quantized].
Definition Number : ty := union [Atom "Int"; Atom "Float"].
Definition Size : ty := union [Atom "torch.Size"; TupleOf [Atom "Int"; Atom "EllipsisType"]].
(** 215-254, the names that the operators use *)
Definition str_to_type (x : string) : result ty :=
  let is l := existsb (String.eqb x) l in
  if is ["None"%string] then Ok TNone else if is ["Tensor"%string; "torch.Tensor"%string] then Ok Tensor
  else if is ["Quantized"%string; "QuantizedTensor"%string] then Ok Quantized else if is ["MaybeQuantized"%string] then Ok MaybeQuantized
  else if is ["int"%string; "Int"%string] then Ok (Atom "Int") else if is ["float"%string; "Float"%string] then Ok (Atom "Float")
  else if is ["bool"%string; "Bool"%string] then Ok (Atom "Bool") else if is ["str"%string; "String"%string; "string"%string] then Ok TString
  else if is ["number"%string; "Number"%string] then Ok Number else if is ["size"%string; "Size"%string] then Ok Size
  else if is ["..."%string; "Ellipsis"%string] then Ok (Atom "EllipsisType") else if is ["dtype"%string; "DType"%string; "torch.dtype"%string] then Ok (Atom "DType")
  else if is ["device"%string; "Device"%string; "torch.device"%string] then Ok (Atom "Device") else if is ["layout"%string; "Layout"%string; "torch.layout"%string] then Ok (Atom "Layout")
  else if is ["memory_format"%string; "MemoryFormat"%string; "torch.memory_format"%string] then Ok (Atom "MemoryFormat")
  else if is ["Quantizer"%string] then Ok (Atom "Quantizer") else if is ["object"%string] then Ok (Atom "Object") else Err ValueError.
(** 261-296: annotations *)
Inductive texpr := TName (x : string) | TOr (a b : texpr) | TSub (generic : string) (args : list texpr).
Fixpoint type_of (e : texpr) : result ty :=
  match e with
  | TName x => str_to_type x
  | TOr a b => let? t := type_of a in let? u := type_of b in Ok (union [t; u])
  | TSub generic args =>
      let? ts := (fix go l := match l with [] => Ok [] | a :: l' => let? t := type_of a in let? ts := go l' in Ok (t :: ts) end) args in
      let is l := existsb (String.eqb generic) l in
      if is ["Optional"%string; "optional"%string] then match ts with [t] => Ok (optional t) | _ => Err ValueError end
      else if is ["Union"%string; "union"%string] then Ok (union ts)
      else if is ["Tuple"%string; "tuple"%string] then Ok (TupleOf ts)
      else if is ["List"%string; "list"%string; "Sequence"%string] then match ts with [t] => Ok (ListOf t) | _ => Err ValueError end
      else Err ValueError
  end.

(** ** operator.py *)
(** 242-249: a default is a text, and it is forgotten whether it was a string *)
Inductive default := DString (s : string) | DCode (c : string).
Definition default_value (d : default) : string := match d with DString s => s | DCode c => c end.
Record parameter := mkParam { p_type : ty; p_name : string; p_default : option string }.
Record operator := mkOp { o_identifier : string; o_params : list parameter; o_returns : option ty }.
(** 62-116: positional-only parameters come last *)
Record spec := mkSpec { s_identifier : string; s_posonly : list (string * texpr * option default); s_params : list (string * texpr * option default); s_kwonly : list (string * texpr * option default); s_returns : option texpr }.
Fixpoint from_params (l : list (string * texpr * option default)) : result (list parameter) :=
  match l with
  | [] => Ok []
  | (x, e, d) :: l' => let? t := type_of e in let? ps := from_params l' in Ok (mkParam t x (option_map default_value d) :: ps)
  end.
Definition from_spec (s : spec) : result operator :=
  let? ret := match s_returns s with Some e => let? t := type_of e in Ok (Some t) | None => Ok None end in
  let? ps := from_params (s_params s ++ s_kwonly s ++ s_posonly s) in
  Ok (mkOp (s_identifier s) ps ret).
(** 133-140 *)
Definition returns_quantized (o : operator) : bool := match o_returns o with Some t => contains t Quantized | None => false end.

(** 146-206 [_bind_partial] without quantization parameters: [params] is a dictionary in reverse order, and [popitem]
    takes the last, that is, the first parameter.  A dictionary keeps the place of the first of several equal keys. *)
Fixpoint set_item {A} (k : string) (a : A) (l : list (string * A)) : list (string * A) :=
  match l with [] => [(k, a)] | (x, b) :: l' => if String.eqb x k then (x, a) :: l' else (x, b) :: set_item k a l' end.
Fixpoint del_item {A} (k : string) (l : list (string * A)) : list (string * A) :=
  match l with [] => [] | (x, b) :: l' => if String.eqb x k then l' else (x, b) :: del_item k l' end.
Definition has_key {A} (k : string) (l : list (string * A)) : bool := existsb (fun p => String.eqb (fst p) k) l.
Fixpoint popitem {A} (l : list (string * A)) : option (list (string * A) * (string * A)) :=
  match l with
  | [] => None
  | [p] => Some ([], p)
  | p :: l' => match popitem l' with Some (r, q) => Some (p :: r, q) | None => None end
  end.
Section Bind.
  Context {A : Type}.
  Fixpoint bind_positional (args : list A) (params : list (string * parameter)) (bound : list (string * A)) : result (list (string * parameter) * list (string * A)) :=
    match args with
    | [] => Ok (params, bound)
    | a :: args' => match popitem params with Some (params', (name, _)) => bind_positional args' params' (set_item name a bound) | None => Err KeyError end
    end.
  Fixpoint bind_keywords (names : list string) (kwargs : list (string * A)) (params : list (string * parameter)) (bound : list (string * A)) : result (list (string * A)) :=
    match kwargs with
    | [] => Ok bound
    | (k, a) :: kwargs' =>
        if negb (existsb (String.eqb k) names) then Err TypeError
        else if negb (has_key k params) then Err TypeError
        else bind_keywords names kwargs' (del_item k params) (set_item k a bound)
    end.
  Definition bind_partial (o : operator) (args : list A) (kwargs : list (string * A)) : result (list (string * A)) :=
    let params := fold_left (fun d p => set_item (p_name p) p d) (rev (o_params o)) [] in
    if length params <? length args + length kwargs then Err ValueError
    else
      let? r := bind_positional args params [] in
      bind_keywords (map fst params) kwargs (fst r) (snd r).
  (** 208-239 *)
  Definition validate_arguments (o : operator) (args : list A) (kwargs : list (string * A)) : bool :=
    match bind_partial o args kwargs with
    | Err _ => false
    | Ok bound =>
        (length bound =? length args + length kwargs) &&
        forallb (fun p => has_key (p_name p) bound || match p_default p with Some _ => true | None => false end) (o_params o)
    end.
End Bind.

(** ** node_creation.py:64-109 *)
(** Arguments of a call in the source: [f(a)], [f(k=a)], [f( *a)] and [f( **a)] *)
Inductive arg := Pos (a : nat) | Kw (k : string) (a : nat) | Star (a : nat) | StarStar (a : nat).
Definition pos_args (l : list arg) : list nat := flat_map (fun a => match a with Pos x | Star x | StarStar x => [x] | Kw _ _ => [] end) l.
Definition kw_args (l : list arg) : list (string * nat) := fold_left (fun d a => match a with Kw k x => set_item k x d | _ => d end) l [].
(** [overloads]: what the operator table has for the function, newest first *)
Definition counterpart (overloads : list operator) (args : list arg) : result operator :=
  match find (fun o => validate_arguments o (pos_args args) (kw_args args)) overloads with Some o => Ok o | None => Err KeyError end.

(** ** generate.py *)
(** 166-182: the text of a default in generated code: quoted if the type is [str] itself *)
Definition generated_default (p : parameter) : option default :=
  match p_default p with
  | None => None
  | Some text => Some (if ty_eqb (p_type p) TString then DString text else DCode text)
  end.

(** Values: [None], plain and quantized tensors, other objects, lists *)
Section Run.
  Context {T Q O : Type}.
  Inductive val := VNone | VPlain (t : T) | VQuant (q : Q) | VObj (o : O) | VList (vs : list val).
  Variable dequantize : Q -> T.
  (** [for x in v]; fails for objects one cannot iterate over *)
  Variable iterate : val -> result (list val).
  Definition is_quantized (v : val) : bool := match v with VQuant _ => true | _ => false end.
  Definition is_tensor (v : val) : bool := match v with VQuant _ | VPlain _ => true | _ => false end.
  Definition dequantized (v : val) : val := match v with VQuant q => VPlain (dequantize q) | _ => v end.
  (** 315-369: what the generated statements do *)
  Definition single_guard (t : ty) (strict : bool) (v : val) : result val :=
    let is_optional := contains t TNone && (1 <? length (variants t)) in
    let t' := unwrap_optional t in
    let always := ty_eqb t' Quantized in
    let maybe := contains t' Quantized in
    if negb maybe then Ok v
    else if is_optional && match v with VNone => true | _ => false end then Ok v
    else
      let wrong := if always then negb (is_quantized v) else is_tensor v && negb (is_quantized v) in
      if negb (contains t' Tensor) && strict && wrong then Err QuantizationError
      else Ok (dequantized v).
  Fixpoint guard_all (t : ty) (strict : bool) (vs : list val) : result (list val) :=
    match vs with [] => Ok [] | v :: vs' => let? x := single_guard t strict v in let? xs := guard_all t strict vs' in Ok (x :: xs) end.
  Definition quant_list : ty := union [ListOf MaybeQuantized; ListOf Quantized].
  (** 269-312 *)
  Definition param_guard (t : ty) (strict : bool) (v : val) : result val :=
    if contains quant_list t then
      let elem := match t with ListOf u => u | TupleOf (u :: _) | Union (u :: _) => u | _ => t end in
      let? vs := iterate v in
      let? xs := guard_all elem strict vs in
      Ok (VList xs)
    else single_guard t strict v.
  Fixpoint guards (ps : list parameter) (strict : bool) (args : list val) : result (list val) :=
    match ps, args with
    | p :: ps', v :: args' => let? x := param_guard (p_type p) strict v in let? xs := guards ps' strict args' in Ok (x :: xs)
    | _, _ => Ok []
    end.
  (** 372-436: the fallback of an operator, called with a value for each parameter; [torch]: the torch function.
      Without a quantized result there is no parameter [output_quantizer], but the body mentions it. *)
  Variable torch : operator -> list val -> result val.
  Definition fallback (o : operator) (quantizer : option (val -> result val)) (strict : bool) (args : list val) : result val :=
    if returns_quantized o && strict && match quantizer with None => true | Some _ => false end then Err QuantizationError
    else
      let? args := guards (o_params o) strict args in
      let? output := torch o args in
      if returns_quantized o then match quantizer with Some q => q output | None => Ok output end
      else Err NameError.
  (** 439-490: [flag]: the value of the global flag; [kernel]: what the dispatcher finds for these arguments *)
  Variable kernel : operator -> option (val -> result val) -> bool -> list val -> option (option (val -> result val) -> bool -> list val -> result val).
  Definition call (flag : bool) (o : operator) (quantizer : option (val -> result val)) (strict : option bool) (args : list val) : result val :=
    let strict := match strict with Some b => b | None => flag end in
    match kernel o quantizer strict args with
    | Some k => k quantizer strict args
    | None => fallback o quantizer strict args
    end.
End Run.
Arguments val : clear implicits.
