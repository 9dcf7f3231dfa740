(** Contexts of functions: kinds of methods and the names of their first parameters.

    Modelled code: src/fastforward/type_common.py:24-64 MethodType and method_type, and
    src/fastforward/_autoquant/function_context.py:18-111 FunctionContext. Names are numbers and 0 is the empty
    name; a class is its own dict. The argument of method_type is a class or module, as the types say. Signatures
    are lists of parameters; functions that are wrapped are not modelled. *)
From Coq Require Import List Arith Bool.
From Verif Require Import Prelude.
Import ListNotations.

(** What a class stores under a name: functions, class and static methods, and other values. *)
Inductive entry := Function | ClassMethod | StaticMethod | Value.
Definition class := list (nat * entry).
Fixpoint get (name : nat) (c : class) : option entry :=
  match c with [] => None | (n, e) :: r => if name =? n then Some e else get name r end.

Inductive kind := METHOD | CLASS_METHOD | STATIC_METHOD | NO_METHOD.

(** type_common.py:43-64 method_type, for classes; for modules the answer is NO_METHOD. *)
Definition method_type (c : class) (name : nat) : kind :=
  match get name c with
  | Some ClassMethod => CLASS_METHOD
  | Some StaticMethod => STATIC_METHOD
  | Some Function => METHOD
  | _ => NO_METHOD
  end.
Definition is_no_method (k : kind) : bool := match k with NO_METHOD => true | _ => false end.

Inductive parameter := Positional (name : nat) | VarArgs (name : nat) | KeywordOnly (name : nat) | VarKeywords (name : nat).
Definition parameter_name (p : parameter) : nat :=
  match p with Positional n | VarArgs n | KeywordOnly n | VarKeywords n => n end.
Record func := mkFunc { func_name : nat; parameters : list parameter }.

(** function_context.py:18-39 FunctionContext; [torch_module]: the classes of the module, it and its parents. *)
Record context := mkContext {
  torch_module : option (list class); ctx_func : option func; ctx_kind : option kind;
  instance_var : option nat; class_var : option nat; in_py_module : bool }.

(** function_context.py:70-77: the first parent with a method of the name. *)
Fixpoint inherited (parents : list class) (name : nat) : kind :=
  match parents with
  | [] => NO_METHOD
  | c :: r => let k := method_type c name in if is_no_method k then inherited r name else k
  end.

(** function_context.py:60-93 _from_torch_module; [c] is the class and [parents] the rest of its __mro__. *)
Definition from_torch_module (c : class) (parents : list class) (f : func) (member_name : option nat) : context :=
  let lookup_name := match member_name with Some (S n) => S n | _ => func_name f end in
  let own := method_type c lookup_name in
  let k := if is_no_method own then inherited parents lookup_name else own in
  let param := option_map parameter_name (hd_error (parameters f)) in
  mkContext (Some (c :: parents)) (Some f) (Some k)
    (match k with METHOD => param | _ => None end)
    (match k with CLASS_METHOD => param | _ => None end) false.

(** The module of a function: a module object or a class (with its parents), a Python module, nothing, or
    something else. *)
Inductive owner := TorchObject (c : class) (parents : list class) | TorchClass (c : class) (parents : list class)
  | PyModule | NoModule | Else.

(** function_context.py:41-58 from_function_reference and :96-107 _from_py_module *)
Definition from_function_reference (f : option func) (o : owner) (member_name : option nat) : context :=
  match f with
  | None => mkContext None None None None None false
  | Some g =>
      match o with
      | NoModule => mkContext None (Some g) None None None false
      | TorchObject c parents | TorchClass c parents => from_torch_module c parents g member_name
      | PyModule => mkContext None (Some g) (Some NO_METHOD) None None true
      | Else => mkContext None None None None None false
      end
  end.
