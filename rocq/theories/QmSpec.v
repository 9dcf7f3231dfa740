(** Vocabulary for surrogates, registered quantizers and summaries. *)
From Coq Require Import String Ascii Sorted.
From Verif Require Import Prelude ModulesModel ModulesSpec QmModel.
Local Open Scope nat_scope.
Local Open Scope list_scope.

(** ** Surrogates *)
(** Class [c] occurs in the model that starts at [root]. *)
Definition in_model (h : heap) (root c : nat) : Prop :=
  exists p x m, leads h root p x /\ nth_error h x = Some m /\ mcls m = c.

(** ** Registered quantizers *)
Definition no_world : world := mkW [] [] [].
(** Module [m] remembers metadata object [r] for its attribute [n]. *)
Definition remembers (w : world) (m : nat) (n : string) (r : nat) : Prop :=
  exists x d, nth_error (qmods w) m = Some x /\ qstore x = Some d /\ slookup n d = Some r.
(** The metadata object of quantizer [q] is [r]. *)
Definition described_by (w : world) (q r : nat) : Prop := nth_error (quants w) q = Some (Some r).
Definition tagged (w : world) (r : nat) (t : string) : Prop := exists md, nth_error (metas w) r = Some md /\ In t (fst md).
Definition attribute_tag (w : world) (m : nat) (n t : string) : Prop := exists r, remembers w m n r /\ tagged w r t.
Definition carries (w : world) (q : nat) (t : string) : Prop := exists r, described_by w q r /\ tagged w r t.
(** Attribute [n] of module [m] is quantizer [q]. *)
Definition attribute_is (w : world) (m : nat) (n : string) (q : nat) : Prop :=
  exists x, nth_error (qmods w) m = Some x /\ slookup n (qattrs x) = Some (Some q).
(** The step puts quantizer [q] somewhere. *)
Definition places (s : step) (q : nat) : Prop :=
  match s with Assign _ _ q' => q' = q | Register _ _ (Some q') => q' = q | _ => False end.
(** [b] has the tags of [a], and its attributes where [a] has any (an unset shape is none). *)
Definition extends (b a : meta) : Prop :=
  (forall t, In t (fst a) -> In t (fst b)) /\
  forall k v, In (k, v) (snd a) -> (k = "shape"%string /\ v = None) \/ slookup k (snd b) = Some v.

(** ** Summaries *)
(** The elements of a list that satisfy [P], in order. *)
Inductive selects {A} (P : A -> Prop) : list A -> list A -> Prop :=
| sel_nil : selects P [] []
| sel_in x l l' : P x -> selects P l l' -> selects P (x :: l) (x :: l')
| sel_out x l l' : ~ P x -> selects P l l' -> selects P (x :: l) l'.
(** A dotted name and its parts. *)
Definition parts (name : string) (ps : list string) : Prop :=
  ps <> [] /\ name = String.concat "." ps /\ Forall (fun p => ~ In "."%char (list_ascii_of_string p)) ps.
Definition is_digit (c : ascii) : Prop := In c (list_ascii_of_string "0123456789").
Definition number (p : string) : Prop := p <> EmptyString /\ Forall is_digit (list_ascii_of_string p).
(** Two names that differ only in numbers. *)
Definition alike (a b : string) : Prop :=
  exists ps qs, parts a ps /\ parts b qs /\ Forall2 (fun p q => p = q \/ (number p /\ number q)) ps qs.
(** The name with every number replaced. *)
Definition pattern (a s : string) : Prop :=
  exists ps qs, parts a ps /\ Forall2 (fun p q => (number p /\ q = "[]"%string) \/ (~ number p /\ q = p)) ps qs /\
    s = String.concat "." qs.
(** In [l], something with key [a] comes before everything with key [b]. *)
Definition appears_before {A K} (key : A -> K) (l : list A) (a b : K) : Prop :=
  exists pre x post, l = pre ++ x :: post /\ key x = a /\ forall y, In y pre -> key y <> b.
