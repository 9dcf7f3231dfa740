(** C100 and C101. *)
From Verif Require Import Prelude WrkModel WrkSpec WrkProofs.
Local Open Scope nat_scope.
Local Open Scope list_scope.

(** Conversion starts from exactly the types of the modules of a model that have no quantized version, each once. *)
Theorem C100_types : forall known types, NoDup (unquantized known types) /\ forall t, In t (unquantized known types) <-> In t types /\ ~ In t known.
Proof. intros known types. split; [apply unquantized_nodup | intros t; apply unquantized_in]. Qed.
Print Assumptions C100_types.

(** If finitely many functions are used, whatever they call and whatever conversions fail, conversion ends. *)
Theorem C100_ends : forall member convert first, finite convert first -> exists fuel done, work member convert fuel first [] = Some done.
Proof. exact queue_ends. Qed.
Print Assumptions C100_ends.

(** Nothing is converted twice; what is converted is used. *)
Theorem C100_once : forall member convert first fuel done, work member convert fuel first [] = Some done ->
  NoDup done /\ forall t, In t done -> used convert first t /\ converted convert t.
Proof.
  intros member convert first fuel done E. destruct (queue_done member convert first fuel done E) as (N & _ & D & _). split; [exact N|].
  intros t I. destruct (D t I) as [U C]. split; [exact U|]. destruct (convert t) as [l|] eqn:X; [exists l; exact X | contradiction].
Qed.
Print Assumptions C100_once.

(** Everything the start or a converted function uses is converted, or its function is converted as a helper, or its
    conversion fails. *)
Theorem C100_complete : forall member convert first fuel done, work member convert fuel first [] = Some done ->
  forall t, In t first \/ (exists u found, In u done /\ convert u = Some found /\ In t found) ->
  In t done \/ In (Helper (function member t)) done \/ ~ converted convert t.
Proof.
  intros member convert first fuel done E t H. destruct (queue_done member convert first fuel done E) as (_ & _ & _ & F & G).
  assert (S : settled member convert [] done t) by (destruct H as [I|(u & found & I & C & J)]; [apply F, I | apply (G u found t I C J)]).
  destruct S as [[]|[S|[S|S]]]; auto. right. right. intros [l C]. congruence.
Qed.
Print Assumptions C100_complete.

(** Where no member of a class is also called as a function of a module, converted is exactly what is used and can be
    converted. *)
Theorem C100_exact : forall member convert first fuel done, separate member convert first -> work member convert fuel first [] = Some done ->
  forall t, In t done <-> used convert first t /\ converted convert t.
Proof. exact queue_exact. Qed.
Print Assumptions C100_exact.
Definition sample_convert (t : task) : option (list task) :=
  match t with
  | Method 0 0 => Some [Method 0 1; Helper 7; Helper 8]
  | Method 0 1 => Some [Method 0 0; Helper 7]
  | Helper 7 => Some [Helper 7; Helper 9]
  | Method 1 0 => Some [Helper 9]
  | Helper 9 => Some []
  | _ => None
  end.
Example C100_nonvacuous : work (fun c n => 10 * c + n) sample_convert 20 (first_tasks 0 (unquantized [5] [0; 1; 0; 5; 1])) [] =
  Some [Method 0 0; Method 1 0; Method 0 1; Helper 7; Helper 9] /\ finite sample_convert [Method 0 0; Method 1 0] /\
  separate (fun c n => 100 + 10 * c + n) sample_convert [Method 0 0; Method 1 0].
Proof.
  split; [vm_compute; reflexivity|].
  assert (U : forall t, used sample_convert [Method 0 0; Method 1 0] t -> In t [Method 0 0; Method 1 0; Method 0 1; Helper 7; Helper 8; Helper 9]).
  { intros t H. induction H as [t I|t found u H IH C I]; [cbn in *; intuition|]. cbn in IH. decompose [or] IH; try contradiction; subst t; cbn in C; try discriminate; injection C as <-; cbn in I; cbn; intuition. }
  split; [eexists; exact U|]. intros c n f _ H. apply U in H. cbn in H. assert (f < 10) by (intuition; try discriminate; match goal with E : Helper _ = Helper f |- _ => injection E as <-; lia end). lia.
Qed.

(** Partial: if different tasks have different function objects, the calls of every converted function are
    resolved. *)
Theorem C101_all_partial : forall member convert first fuel done, work member convert fuel first [] = Some done ->
  (forall t u, In t done -> In u done -> function member t = function member u -> t = u) -> forall t, In t (resolved member done) <-> In t done.
Proof. intros member convert first fuel done E. destruct (queue_done member convert first fuel done E) as (N & _). intros U t. eapply resolved_all; eassumption. Qed.
Print Assumptions C101_all_partial.
Example C101_nonvacuous : let member c n := 10 * c + n in exists done, work member sample_convert 20 (first_tasks 0 [0; 1]) [] = Some done /\
  (forall t u, In t done -> In u done -> function member t = function member u -> t = u).
Proof.
  cbn zeta. eexists. split; [vm_compute; reflexivity|]. intros t u I J. cbn in I, J. decompose [or] I; decompose [or] J; subst; cbn; try contradiction; try reflexivity; discriminate.
Qed.

(** The claim fails for inherited methods: a class and its subclass that share the function [forward] are both
    converted, but only the calls of the second are resolved. *)
Theorem C101_inherited_refuted : exists member convert types done, NoDup types /\ work member convert 9 (first_tasks 0 types) [] = Some done /\
  (forall t, In t types -> In (Method t 0) done) /\ exists t found, In t done /\ convert t = Some found /\ found <> [] /\ ~ In t (resolved member done).
Proof.
  exists (fun _ _ => 4), (fun t => match t with Method _ _ => Some [Helper 7] | Helper _ => Some [] end), [0; 1]. eexists.
  split; [constructor; [intros [H|[]]; discriminate | constructor; [intros [] | constructor]]|]. split; [vm_compute; reflexivity|].
  split; [intros t I; cbn in I; destruct I as [<-|[<-|[]]]; cbn; auto|]. exists (Method 0 0), [Helper 7]. split; [left; reflexivity|]. split; [reflexivity|]. split; [discriminate|].
  vm_compute. intros [H|[H|[]]]; discriminate.
Qed.
Print Assumptions C101_inherited_refuted.
