(** Shared imports, arithmetic set-up and the error monad used by the models. *)
From Coq Require Export List Arith ZArith NArith Bool Lia.
From Coq Require Export ZifyBool ZifyNat ZifyN.
Export ListNotations.

Ltac Zify.zify_post_hook ::= Z.div_mod_to_equations.

(** Python exceptions are values: [Err] carries the exception class. *)
Inductive exn : Type :=
| ValueError | TypeError | KeyError | RuntimeError | QuantizationError
| ZeroDivisionError | ExportError | NotImplementedError | AttributeError
| IndexError | UserException | RecursionError | AssertionError | MPathQueryError | OutOfMemory
| MPathParseError | NameError | OSError | UnboundLocalError | StopIteration | GraphError | NoTargetsFound.

Inductive result (A : Type) : Type :=
| Ok (a : A)
| Err (e : exn).
Arguments Ok {A} a.
Arguments Err {A} e.

Definition rbind {A B} (r : result A) (f : A -> result B) : result B :=
  match r with Ok a => f a | Err e => Err e end.

Definition rmap {A B} (f : A -> B) (r : result A) : result B :=
  match r with Ok a => Ok (f a) | Err e => Err e end.

Notation "'let?' x := r 'in' k" := (rbind r (fun x => k))
  (at level 200, x pattern, r at level 100, k at level 200, right associativity).

Fixpoint rmapM {A B} (f : A -> result B) (l : list A) : result (list B) :=
  match l with
  | [] => Ok []
  | a :: l' => let? b := f a in let? bs := rmapM f l' in Ok (b :: bs)
  end.

Fixpoint omapM {A B} (f : A -> option B) (l : list A) : option (list B) :=
  match l with
  | [] => Some []
  | a :: l' =>
      match f a with
      | None => None
      | Some b => match omapM f l' with None => None | Some bs => Some (b :: bs) end
      end
  end.

Lemma omapM_length {A B} (f : A -> option B) l l' :
  omapM f l = Some l' -> length l' = length l.
Proof.
  revert l'; induction l as [|a l IH]; simpl; intros l' H.
  - injection H as <-; reflexivity.
  - destruct (f a); [|discriminate]. destruct (omapM f l); [|discriminate].
    injection H as <-. simpl. f_equal. now apply IH.
Qed.

Lemma omapM_nth {A B} (f : A -> option B) l l' i a :
  omapM f l = Some l' -> nth_error l i = Some a -> nth_error l' i = f a.
Proof.
  revert l' i; induction l as [|x l IH]; simpl; intros l' i H Hi.
  - destruct i; discriminate.
  - destruct (f x) eqn:E; [|discriminate]. destruct (omapM f l) eqn:E2; [|discriminate].
    injection H as <-. destruct i; simpl in *.
    + injection Hi as <-. now rewrite E.
    + now apply IH.
Qed.

Lemma omapM_total {A B} (f : A -> option B) l :
  (forall a, In a l -> exists b, f a = Some b) -> exists l', omapM f l = Some l'.
Proof.
  induction l as [|x l IH]; simpl; intros H.
  - now exists [].
  - destruct (H x) as [b Hb]; [now left|]. rewrite Hb.
    destruct IH as [l' Hl']; [intros; apply H; now right|]. rewrite Hl'. eauto.
Qed.

Lemma omapM_ext {A B} (f g : A -> option B) l :
  (forall a, In a l -> f a = g a) -> omapM f l = omapM g l.
Proof.
  induction l as [|x l IH]; simpl; intros H; [reflexivity|].
  rewrite (H x) by now left. rewrite IH; [reflexivity|]. intros; apply H; now right.
Qed.

Lemma omapM_map {A B C} (f : B -> option C) (g : A -> B) l :
  omapM f (map g l) = omapM (fun a => f (g a)) l.
Proof. induction l as [|x l IH]; simpl; [reflexivity|]. now rewrite IH. Qed.

Lemma omapM_some {A} (l : list A) : omapM Some l = Some l.
Proof. induction l as [|x l IH]; simpl; [reflexivity|]. now rewrite IH. Qed.

Lemma nth_error_ext {A} (l l' : list A) :
  length l = length l' ->
  (forall i, i < length l -> nth_error l i = nth_error l' i) -> l = l'.
Proof.
  revert l'; induction l as [|a l IH]; intros [|b l'] HL H; simpl in *; try discriminate; [reflexivity|].
  f_equal.
  - specialize (H 0 ltac:(lia)). simpl in H. congruence.
  - apply IH; [lia|]. intros i Hi. apply (H (S i)). lia.
Qed.

Lemma nth_error_lt_some {A} (l : list A) i :
  i < length l -> exists a, nth_error l i = Some a.
Proof.
  intros H. destruct (nth_error l i) eqn:E; [eauto|].
  apply nth_error_None in E. lia.
Qed.

Lemma Forall2_length {A B} (R : A -> B -> Prop) l l' : Forall2 R l l' -> length l = length l'.
Proof. induction 1; simpl; congruence. Qed.

Lemma Forall2_app {A B} (R : A -> B -> Prop) l1 l2 l1' l2' :
  Forall2 R l1 l1' -> Forall2 R l2 l2' -> Forall2 R (l1 ++ l2) (l1' ++ l2').
Proof. induction 1; simpl; auto. Qed.

Fixpoint list_eqb {A} (eqb : A -> A -> bool) (l l' : list A) : bool :=
  match l, l' with
  | [], [] => true
  | a :: l, b :: l' => eqb a b && list_eqb eqb l l'
  | _, _ => false
  end.
Arguments list_eqb : simpl never.

Lemma list_eqb_eq {A} (eqb : A -> A -> bool) (Heqb : forall a b, eqb a b = true <-> a = b) l l' :
  list_eqb eqb l l' = true <-> l = l'.
Proof.
  revert l'; induction l as [|a l IH]; intros [|b l']; unfold list_eqb; fold (@list_eqb A); try easy.
  rewrite andb_true_iff, Heqb, IH. split; [intros [-> ->]; auto | intros E; injection E; auto].
Qed.

Lemma list_eqb_refl {A} (eqb : A -> A -> bool) (Heqb : forall a b, eqb a b = true <-> a = b) l :
  list_eqb eqb l l = true.
Proof. now apply list_eqb_eq. Qed.

Definition size_eqb : list nat -> list nat -> bool := list_eqb Nat.eqb.
Lemma size_eqb_eq l l' : size_eqb l l' = true <-> l = l'.
Proof. apply list_eqb_eq. apply Nat.eqb_eq. Qed.
Lemma size_eqb_refl l : size_eqb l l = true.
Proof. now apply size_eqb_eq. Qed.

#[global] Arguments Nat.div : simpl never.
#[global] Arguments Nat.modulo : simpl never.
