(** C165: resolution of names. *)
From Coq Require Import List Arith Bool Lia.
From Verif Require Import Prelude RsvModel.
Import ListNotations.

Section Rsv.
  Variable object : Type.
  Variable is_module : nat -> bool.
  Variable object_at : nat -> result object.
  Variable qualified_name : object -> nat.
  Variable is_function : object -> bool.
  Variable captured : object -> list object.
  Notation res := (resolve is_module object_at qualified_name is_function captured).

  Definition home_of (name : nat) : Prop :=
    is_module name = true
    \/ exists o, object_at name = Ok o
         /\ (qualified_name o = name \/ is_function o = true /\ exists c, In c (captured o) /\ qualified_name c = name).

  Lemma resolved_cases : forall name o,
    (resolved_name qualified_name is_function captured name o = name
       /\ (qualified_name o = name \/ is_function o = true /\ exists c, In c (captured o) /\ qualified_name c = name))
    \/ (resolved_name qualified_name is_function captured name o = qualified_name o /\ qualified_name o <> name
       /\ ~ (is_function o = true /\ exists c, In c (captured o) /\ qualified_name c = name)).
  Proof.
    intros name o. unfold resolved_name. destruct (Nat.eqb_spec (qualified_name o) name) as [E|E]; cbn [negb andb]; [left; auto|].
    destruct (is_function o) eqn:F; [|right; split; [reflexivity|]; split; [exact E|]; intros [X _]; discriminate].
    destruct (existsb _ (captured o)) eqn:X.
    - left. split; [reflexivity|]. right. split; [reflexivity|]. apply existsb_exists in X as (c & Hc & X). apply Nat.eqb_eq in X. eauto.
    - right. split; [reflexivity|]. split; [exact E|]. intros [_ (c & Hc & Q)].
      assert (Y : existsb (fun c => qualified_name c =? name) (captured o) = true) by (apply existsb_exists; exists c; split; [exact Hc|now apply Nat.eqb_eq]).
      congruence.
  Qed.

  Lemma res_home : forall depth name r, res depth name = Ok r -> home_of r.
  Proof.
    induction depth as [|d IH]; intros name r H; cbn in H; [discriminate|].
    destruct (is_module name) eqn:M; [injection H as <-; now left|].
    destruct (object_at name) as [o|e] eqn:O; cbn in H; [|discriminate].
    destruct (resolved_cases name o) as [[E C]|(E & N & _)]; rewrite E in H.
    - rewrite Nat.eqb_refl in H. injection H as <-. right. eauto.
    - destruct (Nat.eqb_spec (qualified_name o) name); [contradiction|]. eauto.
  Qed.
  Lemma res_at_home : forall depth name, home_of name -> res (S depth) name = Ok name.
  Proof.
    intros depth name H. cbn. destruct (is_module name) eqn:M; [reflexivity|]. destruct H as [H|(o & O & C)]; [congruence|].
    rewrite O. cbn. destruct (resolved_cases name o) as [[E _]|(E & N & X)]; rewrite E; [now rewrite Nat.eqb_refl|].
    destruct C as [C|C]; [congruence|now destruct X].
  Qed.
End Rsv.

(** ** C165 *)

(** A name is at home if it is a module, or if the object there has this name, or is a function that wraps one of
    this name. What a name is resolved to is at home, and resolving it again gives it again. *)
Theorem C165_resolved_names_are_at_home : forall (object : Type) is_module (object_at : nat -> result object)
    qualified_name is_function captured depth name r,
  resolve is_module object_at qualified_name is_function captured depth name = Ok r ->
  (is_module r = true
   \/ exists o, object_at r = Ok o
        /\ (qualified_name o = r \/ is_function o = true /\ exists c, In c (captured o) /\ qualified_name c = r))
  /\ forall depth', resolve is_module object_at qualified_name is_function captured (S depth') r = Ok r.
Proof.
  intros object is_module object_at qualified_name is_function captured depth name r H. split.
  - eapply res_home; eauto.
  - intro d. apply res_at_home. eapply res_home; eauto.
Qed.
Print Assumptions C165_resolved_names_are_at_home.

(** If the qualified names of objects lead back to them, every name of an object is resolved in at most two
    calls, to a name of the same object.
    Missing: objects whose names lead elsewhere, for which the resolution may not end. *)
Theorem C165_same_object_partial : forall (object : Type) is_module (object_at : nat -> result object)
    qualified_name is_function captured depth name o,
  (forall n o', object_at n = Ok o' -> object_at (qualified_name o') = Ok o') ->
  object_at name = Ok o ->
  exists r, resolve is_module object_at qualified_name is_function captured (S (S depth)) name = Ok r /\ object_at r = Ok o.
Proof.
  intros object is_module object_at qualified_name is_function captured depth name o L H.
  cbn [resolve]. destruct (is_module name); [eauto|]. rewrite H. cbn [rbind].
  destruct (resolved_cases object qualified_name is_function captured name o) as [[E _]|(E & N & _)]; rewrite E.
  - rewrite Nat.eqb_refl. eauto.
  - destruct (Nat.eqb_spec (qualified_name o) name); [contradiction|]. exists (qualified_name o). split; [|eapply L; eauto].
    change (resolve is_module object_at qualified_name is_function captured (S depth) (qualified_name o) = Ok (qualified_name o)).
    apply res_at_home. right. exists o. split; [eapply L; eauto|now left].
Qed.
Print Assumptions C165_same_object_partial.

(** The exception of an import is passed on. *)
Theorem C165_errors_pass : forall (object : Type) is_module (object_at : nat -> result object)
    qualified_name is_function captured depth name e,
  is_module name = false -> object_at name = Err e ->
  resolve is_module object_at qualified_name is_function captured (S depth) name = Err e.
Proof. intros object is_module object_at q f c depth name e M H. cbn. now rewrite M, H. Qed.
Print Assumptions C165_errors_pass.

(** Two functions that have the names of each other are never resolved, however many calls are allowed. *)
Theorem C165_swapped_names_refuted : forall depth,
  resolve (fun _ => false) (fun n => Ok n) (fun o => 1 - o) (fun _ => true) (fun _ => []) depth 0 = Err RecursionError
  /\ resolve (fun _ => false) (fun n => Ok n) (fun o => 1 - o) (fun _ => true) (fun _ => []) depth 1 = Err RecursionError.
Proof. induction depth as [|d [A B]]; [split; reflexivity|]. split; [exact B|exact A]. Qed.
Print Assumptions C165_swapped_names_refuted.

(** Name 3 is an alias of 2; 5 is a wrapper, with another name, of a function 5. *)
Example C165_nonvacuous :
  let at_ := fun n => match n with 2 | 3 => Ok 20 | 5 => Ok 50 | 6 => Ok 51 | _ => Err AttributeError end in
  let q := fun o => match o with 20 => 2 | 50 => 6 | 51 => 6 | _ => 5 end in
  let run := resolve (Nat.eqb 0) at_ q (Nat.eqb 50) (fun o => if o =? 50 then [52] else []) 10 in
  run 3 = Ok 2 /\ run 2 = Ok 2 /\ run 5 = Ok 5 /\ run 0 = Ok 0 /\ run 4 = Err AttributeError
  /\ forall n o, (fun n => match n with 2 | 3 => Ok 20 | _ => Err AttributeError end) n = Ok o ->
                 (fun n => match n with 2 | 3 => Ok 20 | _ => Err AttributeError end) (q o) = Ok o.
Proof.
  repeat split. intros n o H. destruct n as [|[|[|[|n]]]]; try discriminate; injection H as <-; reflexivity.
Qed.
