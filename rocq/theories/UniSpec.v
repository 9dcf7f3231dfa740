(** Specification vocabulary for what tracing does to modules. *)
From Coq Require Import String Ascii.
From Verif Require Import Prelude UniModel.
Local Open Scope nat_scope.
Local Open Scope list_scope.

(** No attribute is there twice; transient buffers (those that are no part of the state dictionary) are buffers. *)
Definition module_ok (u : umod) : Prop :=
  NoDup (map fst (u_params u) ++ map fst (u_buffers u) ++ u_other u) /\ incl (u_transient u) (map fst (u_buffers u)).
Definition uninitialised (e : string * option tensor) : bool := match snd e with Some t => t_uninit t | None => false end.
(** No uninitialised tensor has two names. *)
Definition one_name (l : table) : Prop :=
  forall k k' t t', In (k, Some t) l -> In (k', Some t') l -> t_id t = t_id t' -> t_uninit t = true -> k = k'.
Definition untied (u : umod) : Prop := one_name (u_params u) /\ one_name (u_buffers u).
(** Nothing is uninitialised. *)
Definition initialised (u : umod) : Prop := forall e, In e (u_params u ++ u_buffers u) -> uninitialised e = false.
(** The same names for the same objects. *)
Definition same_entries (a b : table) : Prop := forall e, In e a <-> In e b.
Definition same_tensors (u u' : umod) : Prop := same_entries (u_params u) (u_params u') /\ same_entries (u_buffers u) (u_buffers u') /\ u_other u' = u_other u.
(** The same names, and the same objects under those whose tensors are initialised. *)
Definition stands_for (a b : table) : Prop :=
  (forall k, In k (map fst a) <-> In k (map fst b)) /\ forall e, uninitialised e = false -> In e a -> In e b.
(** Initialised tensors first. *)
Definition moved (l : table) : table := filter (fun e => negb (uninitialised e)) l ++ filter uninitialised l.
(** Uninitialised tensors last. *)
Definition last_ones (l : table) : Prop := exists l1 l2, l = l1 ++ l2 /\ (forall e, In e l1 -> uninitialised e = false) /\ (forall e, In e l2 -> uninitialised e = true).

(** What is run in between leaves the modules as it finds them. *)
Definition leaves_modules {A} (body : heap -> nat -> result A * (heap * nat)) : Prop := forall w next m, fst (snd (body w next)) m = w m.

(** The first graph there is for a module, in a history of calls, since it was made. *)
Fixpoint first_graph {G} (m : nat) (l : list (nat * result G)) : option G :=
  match l with
  | [] => None
  | (m', Ok g) :: l' => if m' =? m then Some g else first_graph m l'
  | _ :: l' => first_graph m l'
  end.
