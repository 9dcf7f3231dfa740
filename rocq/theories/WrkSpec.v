(** Vocabulary for C100 and C101. *)
From Verif Require Import Prelude WrkModel.
Local Open Scope nat_scope.
Local Open Scope list_scope.

Section Spec.
  Variable member : nat -> nat -> nat.
  Variable convert : task -> option (list task).
  Variable first : list task.
  (** What the start and the sources of convertible functions use, directly or not. *)
  Inductive used : task -> Prop :=
  | used_first t : In t first -> used t
  | used_by t found u : used t -> convert t = Some found -> In u found -> used u.
  (** Finitely many functions are involved. *)
  Definition finite : Prop := exists universe, forall t, used t -> In t universe.
  (** No function is a member of a class and also called as a function of a module. *)
  Definition separate : Prop := forall c n f, used (Method c n) -> used (Helper f) -> member c n <> f.
  Definition converted (t : task) : Prop := exists found, convert t = Some found.
End Spec.
