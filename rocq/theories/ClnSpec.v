(** What captured graphs compute, and what they depend on. *)
From Coq Require Import List Arith Bool.
From Verif Require Import Prelude ClnModel.
Import ListNotations.

(** [q] is [p] or something inside [p]. *)
Definition inside (p q : path) : Prop := exists r, q = p ++ r.

(** Submodules of submodules are submodules, and parameters belong to submodules. *)
Definition is_tree (m : gmodule) : Prop :=
  (forall p q, p <> [] -> inside p q -> In q (gm_modules m) -> In p (gm_modules m))
  /\ (forall p q, p <> [] -> p <> q -> inside p q -> In q (gm_attrs m) -> In p (gm_modules m))
  /\ ~ In [] (gm_modules m)
  /\ (forall p, In p (gm_attrs m) -> ~ In p (gm_modules m) /\ p <> []).

(** Every argument is an earlier node and names are unique; what is read or called exists. *)
Fixpoint in_order (seen : list nat) (g : graph) : Prop :=
  match g with
  | [] => True
  | n :: r => incl (nargs n) seen /\ ~ In (nname n) seen /\ in_order (nname n :: seen) r
  end.
Definition valid (m : gmodule) : Prop :=
  is_tree m /\ in_order [] (gm_graph m)
  /\ forall n, In n (gm_graph m) ->
     match nop n with
     | CallModule p => In p (gm_modules m)
     | GetAttr p => In p (gm_modules m) \/ In p (gm_attrs m)
     | _ => True
     end.

(** Nodes with side effects, inputs and outputs. *)
Definition effectful (w : purity) (n : node) : Prop :=
  match nop n with
  | Placeholder | Output => True
  | GetAttr _ => False
  | CallModule p => impure_mod w p = true
  | CallFunction f => impure_fn w f = true
  end.

(** What outputs and side effects depend on. *)
Inductive needed (w : purity) (g : graph) : node -> Prop :=
| needed_effect n : In n g -> effectful w n -> needed w g n
| needed_arg n m : In n g -> needed w g m -> In (nname n) (nargs m) -> needed w g n.

(** The node reads or calls the module at [p] or something inside it. *)
Definition refers_to (n : node) (p : path) : Prop :=
  match nop n with
  | CallModule q | GetAttr q => inside p q
  | _ => False
  end.

(** The meaning of functions, modules and parameters. A call may raise (None). What a module computes
    depends on the modules inside it. *)
Record meaning := mkMeaning {
  val : Type;
  call_fn : nat -> list val -> option val;
  call_mod : path -> list path -> list val -> option val;
  attr_val : path -> val;
  mod_val : path -> list path -> val
}.

Fixpoint is_prefix_of (p q : path) : bool :=
  match p, q with
  | [], _ => true
  | a :: p', b :: q' => Nat.eqb a b && is_prefix_of p' q'
  | _, [] => false
  end.
Definition submodules (m : gmodule) (p : path) : list path := filter (is_prefix_of p) (gm_modules m).

Section Run.
  Variable M : meaning.
  Variable w : purity.
  Variable m : gmodule.

  Fixpoint look (env : list (nat * val M)) (a : nat) : option (val M) :=
    match env with
    | [] => None
    | (b, v) :: r => if b =? a then Some v else look r a
    end.
  Fixpoint look_all (env : list (nat * val M)) (l : list nat) : option (list (val M)) :=
    match l with
    | [] => Some []
    | a :: r => match look env a, look_all env r with
                | Some v, Some vs => Some (v :: vs)
                | _, _ => None
                end
    end.

  Definition exists_in (l : list path) (p : path) : bool := if in_dec (list_eq_dec Nat.eq_dec) p l then true else false.

  (** A run: the inputs that are left, the values of nodes, the calls with side effects that were made
      with their arguments, and the outputs. *)
  Record state := mkState {
    inputs : list (val M);
    env : list (nat * val M);
    effects : list (op * list (val M));
    outputs : list (val M)
  }.

  Definition log (s : state) (n : node) (vs : list (val M)) : list (op * list (val M)) :=
    match nop n with
    | CallModule p => if impure_mod w p then effects s ++ [(nop n, vs)] else effects s
    | CallFunction f => if impure_fn w f then effects s ++ [(nop n, vs)] else effects s
    | _ => effects s
    end.

  Definition step (s : state) (n : node) : option state :=
    match look_all (env s) (nargs n) with
    | None => None
    | Some vs =>
        match nop n with
        | Placeholder =>
            match inputs s with
            | [] => None
            | v :: r => Some (mkState r ((nname n, v) :: env s) (effects s) (outputs s))
            end
        | GetAttr p =>
            if exists_in (gm_modules m) p
            then Some (mkState (inputs s) ((nname n, mod_val M p (submodules m p)) :: env s) (effects s) (outputs s))
            else if exists_in (gm_attrs m) p
            then Some (mkState (inputs s) ((nname n, attr_val M p) :: env s) (effects s) (outputs s))
            else None
        | CallModule p =>
            if exists_in (gm_modules m) p
            then match call_mod M p (submodules m p) vs with
                 | Some v => Some (mkState (inputs s) ((nname n, v) :: env s) (log s n vs) (outputs s))
                 | None => None
                 end
            else None
        | CallFunction f =>
            match call_fn M f vs with
            | Some v => Some (mkState (inputs s) ((nname n, v) :: env s) (log s n vs) (outputs s))
            | None => None
            end
        | Output => Some (mkState (inputs s) (env s) (effects s) (outputs s ++ vs))
        end
    end.

  Fixpoint steps (s : state) (g : graph) : option state :=
    match g with
    | [] => Some s
    | n :: r => match step s n with Some s' => steps s' r | None => None end
    end.

  (** Outputs and side effects of a call of the graph module, if it does not raise. *)
  Definition run (ins : list (val M)) : option (list (val M) * list (op * list (val M))) :=
    match steps (mkState ins [] [] []) (gm_graph m) with
    | Some s => Some (outputs s, effects s)
    | None => None
    end.
End Run.
