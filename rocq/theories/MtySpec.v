(** How Python finds an attribute of a class. *)
From Coq Require Import List Arith.
From Verif Require Import Prelude MtyModel.
Import ListNotations.

(** The class stores [e] under the name. *)
Definition stores (c : class) (name : nat) (e : entry) : Prop :=
  exists before after, c = before ++ (name, e) :: after /\ forall x, ~ In (name, x) before.
Definition lacks (c : class) (name : nat) : Prop := forall x, ~ In (name, x) c.

(** The first class of the list that stores the name stores [e] under it. *)
Definition attribute (classes : list class) (name : nat) (e : entry) : Prop :=
  exists before c after, classes = before ++ c :: after /\ Forall (fun b => lacks b name) before /\ stores c name e.

(** What a call on an object passes first to a function stored this way. *)
Inductive first_argument := Object | Class | Nothing.
Definition passes (e : entry) : option first_argument :=
  match e with Function => Some Object | ClassMethod => Some Class | StaticMethod => Some Nothing | Value => None end.
(** What the kind of a method says about it. *)
Definition says (k : kind) : option first_argument :=
  match k with METHOD => Some Object | CLASS_METHOD => Some Class | STATIC_METHOD => Some Nothing | NO_METHOD => None end.
