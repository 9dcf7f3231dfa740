(** Proofs about super() in generated methods. *)
From Coq Require Import List Arith Bool Lia.
From Verif Require Import Prelude SupModel SupSpec.
Import ListNotations.

Section Ind.
  Variable P : expr -> Prop.
  Hypothesis HN : forall x, P (Name x).
  Hypothesis HA : forall e a, P e -> P (Attr e a).
  Hypothesis HC : forall f args, P f -> Forall P args -> P (Call f args).
  Hypothesis HO : forall o args, Forall P args -> P (Op o args).
  Fixpoint expr_ind2 (e : expr) : P e :=
    let fix all (l : list expr) : Forall P l :=
      match l with [] => Forall_nil _ | x :: r => Forall_cons x (expr_ind2 x) (all r) end in
    match e with
    | Name x => HN x
    | Attr e' a => HA e' a (expr_ind2 e')
    | Call f args => HC f args (expr_ind2 f) (all args)
    | Op o args => HO o args (all args)
    end.
End Ind.

(** The function of a call of a method on super(). *)
Definition is_bare (e : expr) : bool := match e with Call (Name 0) [] => true | _ => false end.
Definition on_bare (f : expr) : bool := match f with Attr e _ => is_bare e | _ => false end.

Lemma is_bare_eq : forall e, is_bare e = true -> e = Call (Name 0) [].
Proof. intros [x|e a|[[|n]|e a|g l|o l] [|y r]|o l]; cbn; congruence. Qed.
Lemma bare_dec : forall e, e = Call (Name 0) [] \/ is_bare e = false.
Proof. intro e. destruct (is_bare e) eqn:E; auto. left. now apply is_bare_eq. Qed.
Lemma on_bare_eq : forall f, on_bare f = true -> exists m, f = Attr (Call (Name 0) []) m.
Proof. intros [x|e a|g l|o l] H; try discriminate. apply is_bare_eq in H. subst. eauto. Qed.

Lemma leave_other : forall o s f args, on_bare f = false -> leave_call o s f args = Call f args.
Proof.
  intros o s [x|e a|g l|k l] args H; try reflexivity. cbn in *. destruct e as [y|e b|g l|k l]; try reflexivity.
  destruct g as [[|y]|g b|g l'|k l']; try reflexivity; destruct l; try reflexivity. discriminate.
Qed.
Lemma anchor_not_bare : forall o s e, is_bare e = false -> is_bare (anchor o s e) = false.
Proof.
  intros o s [x|e a|f args|k l] H; try reflexivity. cbn [anchor].
  destruct (on_bare (anchor o s f)) eqn:B.
  - apply on_bare_eq in B as [m ->]. reflexivity.
  - rewrite leave_other by exact B. destruct f as [[|x]|g a|g l|k l]; try reflexivity.
    + destruct args; [discriminate|reflexivity].
    + cbn. destruct (on_bare (anchor o s g)) eqn:B2; [apply on_bare_eq in B2 as [m ->]; reflexivity|now rewrite leave_other].
Qed.
Lemma anchor_bare : forall o s e, is_bare (anchor o s e) = is_bare e.
Proof.
  intros o s e. destruct (bare_dec e) as [->|H]; [reflexivity|]. rewrite H. now apply anchor_not_bare.
Qed.
Lemma on_bare_attr : forall o s f, on_bare (anchor o s f) = on_bare f.
Proof.
  intros o s [x|e a|g l|k l]; try reflexivity; cbn [on_bare anchor].
  - apply anchor_bare.
  - destruct (on_bare (anchor o s g)) eqn:B; [apply on_bare_eq in B as [m ->]; reflexivity|now rewrite leave_other].
Qed.

Section Meaning.
  Variables value cls : Type.
  Variable attr : value -> nat -> value.
  Variable call : value -> list value -> value.
  Variable op : nat -> list value -> value.
  Variable super_of : cls -> value -> value.
  Variable env : nat -> value.
  Notation mean := (meaning attr call op super_of env).

  Lemma meaning_call : forall c v f args, is_bare (Call f args) = false ->
    mean c v (Call f args) = call (mean c v f) (map (mean c v) args).
  Proof. intros c v [[|x]|e a|g l|k l] args H; try reflexivity. destruct args; [discriminate|reflexivity]. Qed.

  Variables (owner self : nat) (c q : cls) (v k : value).
  Hypothesis Hself : env self = v.
  Hypothesis Howner : env owner = k.
  Hypothesis Hsuper : call (env super_name) [k; v] = super_of c v.

  Lemma calls_parts : forall f args, only_calls_methods (Call f args) = true ->
    is_bare (Call f args) = false /\ forallb only_calls_methods args = true
    /\ (on_bare f = false -> only_calls_methods f = true).
  Proof.
    intros f args H. cbn [only_calls_methods] in H.
    destruct f as [[|x]|e a|g l|o l].
    - destruct args; [discriminate|]. auto.
    - cbn in H. auto.
    - destruct (bare_dec e) as [->|B].
      + split; [reflexivity|]. split; [exact H|]. discriminate.
      + assert (E : only_calls_methods e && forallb only_calls_methods args = true).
        { destruct e as [y|e b|[[|y]|g b|g l'|o l'] l|o l]; try exact H. destruct l; [discriminate|exact H]. }
        apply andb_prop in E as [E1 E2]. auto.
    - apply andb_prop in H as [E1 E2]. auto.
    - apply andb_prop in H as [E1 E2]. auto.
  Qed.

  Lemma map_meaning : forall args, Forall (fun e => only_calls_methods e = true -> mean q v (anchor owner self e) = mean c v e) args ->
    forallb only_calls_methods args = true -> map (mean q v) (map (anchor owner self) args) = map (mean c v) args.
  Proof.
    induction 1 as [|e l H F IH]; intro T; [reflexivity|]. cbn in *. apply andb_prop in T as [T1 T2]. f_equal; auto.
  Qed.

  Lemma anchored_meaning : forall e, only_calls_methods e = true -> mean q v (anchor owner self e) = mean c v e.
  Proof.
    induction e as [x|e a IH|f args IHf IHargs|o args IHargs] using expr_ind2; intro T.
    - reflexivity.
    - cbn. f_equal. apply IH. exact T.
    - apply calls_parts in T as (B & Ta & Tf). cbn [anchor]. rewrite (meaning_call c v f args B).
      destruct (on_bare f) eqn:O.
      + apply on_bare_eq in O as [m ->]. cbn [anchor leave_call map].
        change (0 =? super_name) with true. cbv iota. rewrite meaning_call by reflexivity.
        rewrite (map_meaning args IHargs Ta). f_equal. cbn [meaning map].
        f_equal. rewrite Hself, Howner. exact Hsuper.
      + rewrite leave_other by (now rewrite on_bare_attr).
        rewrite meaning_call.
        * rewrite (map_meaning args IHargs Ta). f_equal. apply IHf. now apply Tf.
        * destruct f as [[|x]|e a|g l|o l]; try reflexivity.
          -- destruct args; [discriminate|reflexivity].
          -- cbn. destruct (on_bare (anchor owner self g)) eqn:B2; [apply on_bare_eq in B2 as [m ->]; reflexivity|now rewrite leave_other].
    - cbn. f_equal. now apply map_meaning.
  Qed.
End Meaning.

(** Nothing else changes. *)
Lemma anchor_plain : forall o s e, no_bare_super e = true -> anchor o s e = e.
Proof.
  intros o s. induction e as [x|e a IH|f args IHf IHargs|k args IHargs] using expr_ind2; intro T.
  - reflexivity.
  - cbn. f_equal. now apply IH.
  - cbn [anchor].
    assert (M : forallb no_bare_super args = true -> map (anchor o s) args = args).
    { clear -IHargs. induction IHargs as [|e l H F IH]; intro T; [reflexivity|]. cbn in *. apply andb_prop in T as [T1 T2]. f_equal; auto. }
    cbn [no_bare_super] in T.
    assert (N : on_bare f = false).
    { destruct (on_bare f) eqn:O; auto. apply on_bare_eq in O as [m ->]. cbn in T. discriminate. }
    destruct f as [[|x]|e a|g l|k l].
    + destruct args as [|y r]; [discriminate|]. rewrite leave_other by reflexivity. rewrite M by exact T. reflexivity.
    + rewrite leave_other by reflexivity. rewrite M by exact T. reflexivity.
    + apply andb_prop in T as [T1 T2]. rewrite (IHf T1), (M T2). now apply leave_other.
    + apply andb_prop in T as [T1 T2]. rewrite (IHf T1), (M T2). now apply leave_other.
    + apply andb_prop in T as [T1 T2]. rewrite (IHf T1), (M T2). now apply leave_other.
  - cbn. f_equal. clear -IHargs T. induction IHargs as [|e l H F IH]; [reflexivity|]. cbn in *. apply andb_prop in T as [T1 T2]. f_equal; auto.
Qed.
