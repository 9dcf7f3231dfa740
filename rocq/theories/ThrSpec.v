(** Vocabulary for C95 and C96: calls, and what quantizer a parameter is bound to when generated code runs. *)
From Verif Require Import Prelude ThrModel.
Local Open Scope nat_scope.
Local Open Scope list_scope.

(** Functions that are no instance methods take their quantizers as arguments. *)
Definition helper (p : list fn) (g : nat) : Prop := exists d, nth_error p g = Some d /\ f_method d = false.
Definition calls (p : list fn) (f g : nat) : Prop := exists d, nth_error p f = Some d /\ In g (f_refs d) /\ helper p g.
Definition called (p : list fn) (f : nat) : Prop := exists e, calls p e f.
Definition acyclic (p : list fn) : Prop := exists rank : nat -> nat, forall f g, calls p f g -> rank g < rank f.
(** [g] calls no helper twice. *)
Definition calls_once (p : list fn) (g : nat) : Prop :=
  forall d i j h, nth_error p g = Some d -> nth_error (f_refs d) i = Some h -> nth_error (f_refs d) j = Some h -> helper p h -> i = j.
(** Quantizers of a function are different ones. *)
Definition well_made (p : list fn) : Prop := forall d, In d p -> NoDup (f_made d).

(** A quantizer on an instance: made in method [m] for argument [j] of its call [i]. *)
Inductive object := Object (m i j : nat).
Definition env := param -> option object.
Definition param_eqb (x y : param) : bool :=
  match x, y with Own r, Own s => r =? s | For i j, For k l => (i =? k) && (j =? l) | _, _ => false end.
(** What a call binds the callee's parameters to. *)
Definition bound (f : nat) (e : env) (args : list (param * value)) : env := fun x =>
  match find (fun a => param_eqb x (fst a)) args with
  | Some (_, FromParam y) => e y
  | Some (_, OnInstance i j) => Some (Object f i j)
  | None => None
  end.
(** Running the calls [path] from [f] on. *)
Fixpoint run_path (p : list fn) (st : state) (f : nat) (e : env) (path : list nat) : option (nat * env) :=
  match path with
  | [] => Some (f, e)
  | i :: path' =>
      match nth_error (callees p (fn_at p f)) i with
      | Some g => run_path p st g (bound f e (passed p st f i g)) path'
      | None => None
      end
  end.
Definition method (p : list fn) (m : nat) : Prop := exists d, nth_error p m = Some d /\ f_method d = true.
Definition no_env : env := fun _ => None.
