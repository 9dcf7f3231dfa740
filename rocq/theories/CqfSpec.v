(** Vocabulary for the theorems about quantization functions made from two functions. *)
From Coq Require Import String.
From Verif Require Import Prelude CqfModel.
Local Open Scope nat_scope.
Local Open Scope list_scope.

(** What Python guarantees of signatures: no name twice *)
Definition valid (sig : signature) : Prop := NoDup (map p_name sig).
(** The parameters after the data *)
Definition others (sig : signature) : list param := tl sig.
Definition other_names (sig : signature) : list string := map p_name (others sig).
(** A parameter that can be given by keyword *)
Definition by_keyword (p : param) : Prop := p_kind p = KeywordOnly \/ p_kind p = PositionalOrKeyword.
(** The annotation, [Any] without one *)
Definition annotation (any : nat) (p : param) : nat := match p_annotation p with Some a => a | None => any end.
(** Two defaults that Python's == does not tell apart, or none on both sides *)
Definition same_default (peq : nat -> nat -> bool) (p p' : param) : Prop :=
  match p_default p, p_default p' with
  | Some a, Some b => peq a b = true
  | None, None => True
  | _, _ => False
  end.
(** The parameters of both, those of quantize first, a shared one as dequantize has it *)
Definition together (q d : signature) : list param :=
  map (fun p => match List.find (fun p' => String.eqb (p_name p) (p_name p')) (others d) with Some p' => p' | None => p end) (others q) ++
  filter (fun p => negb (existsb (String.eqb (p_name p)) (other_names q))) (others d).
(** No parameter without a default comes after one with a default. *)
Definition required_first (l : list param) : Prop :=
  forall l1 p l2 p' l3, l = l1 ++ p :: l2 ++ p' :: l3 -> p_default p <> None -> p_default p' <> None.
(** The keywords that are parameters of a function *)
Definition only (names : list string) (kw : list (string * nat)) : list (string * nat) :=
  filter (fun e => existsb (String.eqb (fst e)) names) kw.
(** Keywords that are parameters of a list, with a value for each one without a default *)
Definition complete_of (l : list param) (kw : list (string * nat)) : Prop :=
  (forall x, In x (map fst kw) -> In x (map p_name l)) /\
  (forall p, In p l -> p_default p = None -> In (p_name p) (map fst kw)).
Definition complete (q d : signature) (kw : list (string * nat)) : Prop := complete_of (others q ++ others d) kw.
(** A parameter name that means something else in the made code *)
Definition reserved (x : string) : Prop := x = "data"%string \/ x = "quantize_params"%string \/ x = "dequantize_params"%string.
