(** Specification vocabulary for collections of search results. *)
From Coq Require Import String Ascii Permutation.
From Verif Require Import Prelude ModulesModel MpathModel MpathSpec MpathCollModel.
Local Open Scope nat_scope.
Local Open Scope list_scope.

(** What identifies an entry of a collection: name, module, parent and attribute. *)
Definition entry (r : fres) : string * nat * nat * string := (r_name r, r_mod r, r_parent r, r_attr r).
(** [l] lists exactly the elements of the set [P], each once. *)
Definition lists {A} (l : list A) (P : A -> Prop) : Prop := NoDup l /\ forall x, In x l <-> P x.
(** Entries of the same module are the same entry. *)
Definition one_entry_per_module (l : list fres) : Prop :=
  forall r r', In r l -> In r' l -> r_mod r = r_mod r' -> entry r = entry r'.
(** Every module below [root] is reached in one way only, as in a tree. *)
Definition single_ways (h : heap) (root : nat) : Prop :=
  forall p p' z, goes h root p z -> goes h root p' z -> p = p'.
