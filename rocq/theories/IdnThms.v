(** C148 and C149: names and numbers of quantizers for expressions. *)
From Coq Require Import String Ascii List Arith Bool Lia.
From Verif Require Import Prelude IdnModel IdnSpec IdnProofs.
Import ListNotations.

Definition code (s : string) : list ascii := list_ascii_of_string s.

(** ** C148 *)

(** The name made from the code of an expression is an identifier and no reserved word. It has no two
    underscores in a row and none at the end. *)
Theorem C148_names_are_identifiers : forall s n, expr_to_ident s = Ok n -> identifier n /\ no_double n /\ no_trailing n.
Proof. exact ident_valid. Qed.
Print Assumptions C148_names_are_identifiers.

(** A name is made exactly if the code has a letter, a digit or one of the symbols + - * /. *)
Theorem C148_names_exist_partial : forall s,
  match expr_to_ident s with
  | Ok _ => exists c, In c s /\ (In c letters \/ In c digits \/ In c symbols)
  | Err e => e = AssertionError /\ forall c, In c s -> ~ (In c letters \/ In c digits \/ In c symbols)
  end.
Proof.
  intro s. destruct (expr_to_ident s) as [n|e] eqn:E.
  - apply ident_exists. eauto.
  - split; [eapply ident_fails; eauto|]. intros c I H.
    destruct (proj2 (ident_exists s)) as [n N]; [eauto|]. congruence.
Qed.
Print Assumptions C148_names_exist_partial.

(** The letters and digits of a name are those of the code with arithmetic symbols written out, in order. *)
Theorem C148_names_resemble_the_code : forall s n, expr_to_ident s = Ok n ->
  filter letter_or_digit n = filter letter_or_digit (spell s).
Proof. exact ident_spelled. Qed.
Print Assumptions C148_names_resemble_the_code.

(** Identifiers without double or trailing underscores are their own names. *)
Theorem C148_plain_names_are_kept : forall s, identifier s -> no_double s -> no_trailing s -> expr_to_ident s = Ok s.
Proof. exact ident_plain. Qed.
Print Assumptions C148_plain_names_are_kept.

Example C148_nonvacuous :
  expr_to_ident (code "self.x[0] // (a+b)") = Ok (code "self_x_0_div_a_plus_b")
  /\ expr_to_ident (code "2 * x") = Ok (code "_2_mul_x")
  /\ expr_to_ident (code "(lambda)") = Ok (code "_lambda")
  /\ expr_to_ident (code "if") = Ok (code "_if")
  /\ expr_to_ident (code "hidden_state") = Ok (code "hidden_state")
  /\ expr_to_ident (code "a///b") = Ok (code "a_div_div_b").
Proof. repeat split. Qed.

(** For an expression such as [...] or () there is no name: an assertion fails. *)
Theorem C148_no_name_refuted : expr_to_ident (code "...") = Err AssertionError /\ expr_to_ident (code "()") = Err AssertionError.
Proof. split; reflexivity. Qed.
Print Assumptions C148_no_name_refuted.

(** ** C149 *)

(** Uses of an expression in blocks of branches get the same quantizer number exactly if their code is
    the same; each gets the name made from its code. *)
Theorem C149_numbers_go_by_code : forall codes l, annotate [] codes = Ok l ->
  length l = length codes
  /\ (forall i c k n, nth_error codes i = Some c -> nth_error l i = Some (k, n) -> expr_to_ident c = Ok n)
  /\ forall i j c d k m n n', nth_error codes i = Some c -> nth_error codes j = Some d ->
     nth_error l i = Some (k, n) -> nth_error l j = Some (m, n') -> (k = m <-> c = d).
Proof. exact annotate_numbers. Qed.
Print Assumptions C149_numbers_go_by_code.

(** All expressions are numbered if each has a letter, a digit or an arithmetic symbol. *)
Theorem C149_all_are_numbered : forall codes,
  (exists l, annotate [] codes = Ok l)
  <-> forall s, In s codes -> exists c, In c s /\ (In c letters \/ In c digits \/ In c symbols).
Proof.
  intro codes. rewrite annotate_total. split; intros H s I; apply ident_exists; auto.
Qed.
Print Assumptions C149_all_are_numbered.

(** Different plain names stay different. *)
Theorem C149_plain_names_differ_partial : forall s t n,
  identifier s -> no_double s -> no_trailing s -> identifier t -> no_double t -> no_trailing t ->
  expr_to_ident s = Ok n -> expr_to_ident t = Ok n -> s = t.
Proof. intros s t n A B C A' B' C' E F. rewrite ident_plain in E, F by auto. congruence. Qed.
Print Assumptions C149_plain_names_differ_partial.

(** Different expressions may have the same name, with different numbers. *)
Theorem C149_same_name_refuted :
  annotate [] [code "self.a.b"; code "self.a_b"; code "x[0]"; code "x_0"; code "self.a.b"; code "x__0"]
  = Ok [(0, code "self_a_b"); (1, code "self_a_b"); (2, code "x_0"); (3, code "x_0"); (0, code "self_a_b"); (4, code "x_0")].
Proof. reflexivity. Qed.
Print Assumptions C149_same_name_refuted.

Example C149_nonvacuous : exists l, annotate [] [code "a.b"; code "c + d"; code "a.b"] = Ok l /\ map fst l = [0; 1; 0].
Proof. eexists. split; reflexivity. Qed.
