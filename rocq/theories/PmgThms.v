(** C150: running passes. *)
From Coq Require Import List Arith Bool Lia.
From Verif Require Import Prelude PmgModel PmgSpec PmgProofs.
Import ListNotations.

(** Passes whose visitors never answer with several statements are applied one after the other: the
    result is what the chain of visitors makes of the statement, each turning it into one statement of
    the same class; there is a result exactly if each does. *)
Theorem C150_passes_are_chained_partial : forall (node cls : Type) (class_of : node -> cls) below l n r,
  (forall p, In p l -> single_pass p) ->
  (run class_of below l n = Done r <-> chain class_of below l n r).
Proof. intros. apply run_chain. assumption. Qed.
Print Assumptions C150_passes_are_chained_partial.

(** The result is of the class of the statement that was given, for all passes. *)
Theorem C150_class_is_kept : forall (node cls : Type) (class_of : node -> cls) below l n r,
  (forall c, below c c = true) -> (forall a b c, below a b = true -> below b c = true -> below a c = true) ->
  run class_of below l n = Done r -> below (class_of r) (class_of n) = true.
Proof. intros node cls class_of below l n r Rf Tr H. eapply run_class; eauto. Qed.
Print Assumptions C150_class_is_kept.

(** An error names the first pass that fails: those before it succeed, and it fails on what they made,
    with the exception that is given as cause. *)
Theorem C150_errors_name_the_pass : forall (node cls : Type) (class_of : node -> cls) below l n k e,
  run class_of below l n = PassManagerError k e <->
  exists before p after m, l = before ++ p :: after /\ length before = k
  /\ run class_of below before n = Done m /\ run class_of below [p] m = PassManagerError 0 e.
Proof.
  intros. unfold run at 1. rewrite run_error.
  split; intros (b & p & a & m & E & L & R & F); exists b, p, a, m; (split; [exact E|]).
  - split; [cbn in L; auto|]. split; [exact R|]. now apply run_one.
  - split; [cbn; auto|]. split; [exact R|]. now apply run_one in F.
Qed.
Print Assumptions C150_errors_name_the_pass.

(** Running passes is running the first of them and then the others on the result. *)
Theorem C150_in_two_steps : forall (node cls : Type) (class_of : node -> cls) below a b n m,
  run class_of below a n = Done m ->
  run class_of below (a ++ b) n =
  match run class_of below b m with Done r => Done r | PassManagerError k e => PassManagerError (length a + k) e end.
Proof.
  intros node cls class_of below a b n m H. unfold run at 1. rewrite (run_app _ _ _ _ _ _ _ _ _ H). apply run_from_shift.
Qed.
Print Assumptions C150_in_two_steps.

(** Statements are numbers: odd numbers are functions, even numbers other statements. *)
Definition number_class (n : nat) : bool := Nat.odd n.
Definition same_class (a b : bool) : bool := Bool.eqb a b.
Definition keep_module (l : list nat) : result (module_outcome nat) := Ok (Module l).
Definition add_two : visitor nat := mkVisitor false (fun n => Ok (Node (n + 2))) keep_module.
Definition triple : visitor nat := mkVisitor true (fun n => Ok (Node (3 * n))) keep_module.
Definition double : visitor nat := mkVisitor false (fun n => Ok (Node (2 * n))) keep_module.
Definition twins (metadata : bool) : visitor nat := mkVisitor metadata (fun n => Ok (Flattened [n; n + 2])) keep_module.

Lemma keep_single : forall meta f, single (mkVisitor meta (fun n => Ok (Node (f n))) (fun l : list nat => match l with [a] => Ok (Module [a]) | _ => Err ValueError end)).
Proof.
  intros meta f. split; [cbn; discriminate|]. cbn. intros [|a [|b c]] l H; try discriminate. injection H as <-. cbn. lia.
Qed.
Definition careful (meta : bool) (f : nat -> nat) : visitor nat :=
  mkVisitor meta (fun n => Ok (Node (f n))) (fun l => match l with [a] => Ok (Module [a]) | _ => Err ValueError end).
Definition passes : list (pass nat) := [Visitor (careful false (plus 2)); Class (Ok (Visitor (careful true (mult 3))))].
Example C150_nonvacuous :
  (forall p, In p passes -> single_pass p)
  /\ run number_class same_class passes 5 = Done 21
  /\ run number_class same_class [Visitor add_two; Visitor triple; Visitor double; Visitor add_two] 5 = PassManagerError 2 ValueError
  /\ run number_class same_class [Visitor add_two; Other] 5 = PassManagerError 1 NotImplementedError
  /\ run number_class same_class [] 5 = Done 5.
Proof.
  split; [|repeat split]. intros p [<-|[<-|[]]] v w M.
  - inversion M; subst; apply keep_single.
  - inversion M as [| | |p' v' w' M']; subst. inversion M'; subst; apply keep_single.
Qed.

(** A pass that needs metadata and leaves two statements in place of one: the second is dropped without
    an error. Without metadata this is an error. *)
Theorem C150_statements_dropped_refuted :
  on_statement (twins true) 5 = Ok (Flattened [5; 7])
  /\ run number_class same_class [Visitor (twins true)] 5 = Done 5
  /\ run number_class same_class [Visitor (twins false)] 5 = PassManagerError 0 ValueError.
Proof. repeat split. Qed.
Print Assumptions C150_statements_dropped_refuted.
