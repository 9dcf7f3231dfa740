(** Vocabulary for C104 and C105: which arguments an operator refuses, what it computes, and how Python binds
    arguments to parameters. *)
From Coq Require Import String.
From Verif Require Import Prelude OpsModel.
Local Open Scope nat_scope.
Local Open Scope list_scope.

Definition has (t u : ty) : Prop := In u (variants t).
(** Types of the elements of lists of tensors: quantized ones, or any. *)
Definition element (u : ty) : Prop := u = Quantized \/ (exists us, u = Union us /\ NoDup us /\ incl us [Tensor; Quantized] /\ In Quantized us /\ In Tensor us).
Definition quiet (u : ty) : Prop := (exists x, u = Atom x) \/ (exists ts, u = TupleOf ts) \/ (exists x, u = ListOf (Atom x) /\ x <> "QuantizedTensor"%string).
(** Types of parameters: lists of tensors, or different alternatives that are not lists of quantized tensors. *)
Definition supported (t : ty) : Prop := (exists u, t = ListOf u /\ element u) \/ (variants t <> [] /\ NoDup (variants t) /\ (forall u, t <> Union [u]) /\ Forall quiet (variants t)).

Section Values.
  Context {T Q O : Type} (dequantize : Q -> T).
  Notation val := (val T Q O).
  (** The value with every quantized tensor in it dequantized. *)
  Fixpoint strip (v : val) : val :=
    match v with VQuant q => VPlain (dequantize q) | VList vs => VList (map strip vs) | _ => v end.
  Fixpoint no_quantized (v : val) : Prop :=
    match v with VQuant _ => False | VList vs => (fix all l := match l with [] => True | w :: l' => no_quantized w /\ all l' end) vs | _ => True end.
  (** Quantized tensors are given only where they may be. *)
  Definition conforms (t : ty) (v : val) : Prop :=
    (exists u vs, t = ListOf u /\ element u /\ v = VList vs /\ Forall (fun w => forall l, w <> VList l) vs) \/
    ((forall u, t = ListOf u -> ~ element u) /\ (no_quantized v \/ has t Quantized /\ exists q, v = VQuant q)).
  (** A plain tensor where only quantized ones may be; anything else where only quantized tensors (or nothing) may be. *)
  Definition refuses_one (t : ty) (v : val) : Prop :=
    has t Quantized /\ ~ has t Tensor /\
    match v with
    | VQuant _ => False
    | VPlain _ => True
    | VNone => forall u, has t u -> u = Quantized
    | VObj _ | VList _ => forall u, has t u -> u = Quantized \/ u = TNone
    end.
  Definition refuses (t : ty) (v : val) : Prop :=
    match t with
    | ListOf u => element u /\ exists vs w, v = VList vs /\ In w vs /\ refuses_one u w
    | _ => refuses_one t v
    end.
End Values.
Definition result_then {A} (r : result A) (f : A -> result A) : result A := match r with Ok a => f a | Err e => Err e end.

(** ** Calls *)
(** A Python function with parameters [sig] (names, and whether there is a default) accepts [npos] positional
    arguments and keyword arguments [kws]. *)
Definition accepts (sig : list (string * bool)) (npos : nat) (kws : list string) : Prop :=
  npos <= length sig /\ (forall k, In k kws -> In k (skipn npos (map fst sig))) /\
  (forall i x, nth_error sig i = Some (x, false) -> i < npos \/ In x kws).
(** ... and parameter [x] gets [a]. *)
Definition given {A} (sig : list (string * bool)) (args : list A) (kwargs : list (string * A)) (x : string) (a : A) : Prop :=
  (exists i, nth_error (map fst sig) i = Some x /\ nth_error args i = Some a) \/ In (x, a) kwargs.
Definition signature (o : operator) : list (string * bool) := map (fun p => (p_name p, match p_default p with Some _ => true | None => false end)) (o_params o).
(** The signature a specification says: positional-only parameters first. *)
Definition spec_signature (s : spec) : list string := map (fun q => fst (fst q)) (s_posonly s ++ s_params s ++ s_kwonly s).

(** What annotations allow, leaving lists and tuples aside. *)
Definition names : list (list string * list string) :=

  [(["None"], ["NoneType"]); (["Tensor"; "torch.Tensor"], ["Tensor"]); (["Quantized"; "QuantizedTensor"], ["QuantizedTensor"]);
   (["MaybeQuantized"], ["Tensor"; "QuantizedTensor"]); (["int"; "Int"], ["Int"]); (["float"; "Float"], ["Float"]); (["bool"; "Bool"], ["Bool"]);
   (["str"; "String"; "string"], ["String"]); (["number"; "Number"], ["Int"; "Float"]); (["size"; "Size"], ["torch.Size"]);
   (["..."; "Ellipsis"], ["EllipsisType"]); (["dtype"; "DType"; "torch.dtype"], ["DType"]); (["device"; "Device"; "torch.device"], ["Device"]);
   (["layout"; "Layout"; "torch.layout"], ["Layout"]); (["memory_format"; "MemoryFormat"; "torch.memory_format"], ["MemoryFormat"]);
   (["Quantizer"], ["Quantizer"]); (["object"], ["Object"])]%string.
Fixpoint means (e : texpr) (a : string) : Prop :=
  match e with
  | TName x => exists row, In row names /\ In x (fst row) /\ In a (snd row)
  | TOr b c => means b a \/ means c a
  | TSub generic args =>
      let any := (fix any l := match l with [] => False | b :: l' => means b a \/ any l' end) args in
      (In generic ["Optional"; "optional"]%string /\ (any \/ a = "NoneType"%string)) \/ (In generic ["Union"; "union"]%string /\ any)
  end.
