(** Specification vocabulary for the algorithm registry and flow declarations. *)
From Coq Require Import String.
From Verif Require Import Prelude RegModel.
Local Open Scope nat_scope.
Local Open Scope list_scope.

(** Regions a selector stands for. *)
Inductive selects (m : model) : selector -> nat -> Prop :=
| sel_type ts t x : In t ts -> In x (modules m) -> isinst m x t = true -> selects m (STypes ts) x
| sel_module ms x : In x ms -> selects m (SModules ms) x
| sel_query q l x : search m q = Ok l -> In x l -> selects m (SQuery q) x
| sel_part l s x : In s l -> selects m s x -> selects m (SComposite l) x
| sel_custom k l x : custom m k = Ok l -> In x l -> selects m (SCustom k) x.

(** Regions a target stands for. *)
Inductive matches (m : model) : target -> nat -> Prop :=
| m_selector s x : selects m s x -> matches m (TSelector s) x
| m_type t x : In x (modules m) -> isinst m x t = true -> matches m (TType t true) x
| m_query q l x : search m q = Ok l -> In x l -> matches m (TQuery q) x
| m_module x : matches m (TModule x) x
| m_item l t x : In t l -> matches m t x -> matches m (TIter l) x.

(** Targets that mean something: nonempty nested collections of selectors, module types,
    queries and modules. *)
Inductive valid : target -> Prop :=
| v_selector s : valid (TSelector s)
| v_type t : valid (TType t true)
| v_query q : valid (TQuery q)
| v_module m : valid (TModule m)
| v_iter l : l <> [] -> (forall t, In t l -> valid t) -> valid (TIter l).

(** The modules a target names one by one. *)
Inductive names : target -> nat -> Prop :=
| n_module m : names (TModule m) m
| n_item l t m : In t l -> names t m -> names (TIter l) m.

(** No selector objects inside. *)
Inductive plain : target -> Prop :=
| p_type t b : plain (TType t b)
| p_query q : plain (TQuery q)
| p_module m : plain (TModule m)
| p_iter l : (forall t, In t l -> plain t) -> plain (TIter l).

(** The queries of a target. *)
Inductive queries : target -> nat -> Prop :=
| q_query q : queries (TQuery q) q
| q_item l t q : In t l -> queries t q -> queries (TIter l) q.

(** Program [p] registers the algorithm with key [k] outside an override of it. *)
Inductive rebinds (k : nat) : prog -> Prop :=
| rb_first p q : rebinds k p -> rebinds k (PSeq p q)
| rb_second p q : rebinds k q -> rebinds k (PSeq p q)
| rb_register a t f : algorithm_key a = k -> rebinds k (PRegister a t f)
| rb_other a t p : algorithm_key a <> k -> rebinds k p -> rebinds k (POverride a (Some t) p)
| rb_none a p : rebinds k p -> rebinds k (POverride a None p)
| rb_try p : rebinds k p -> rebinds k (PTry p).

(** The history binds key [k] of the flow generators. *)
Definition binds_key (k : string) (op : flow_op) : Prop :=
  match op with
  | RegisterGen x => ge_key x = k
  | Declare (DManager _ q) => q = k
  | Declare _ => False
  end.
