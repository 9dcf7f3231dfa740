(** Names that mean the same, and contexts as tables. *)
From Coq Require Import Ascii String List Arith Bool.
From Verif Require Import Prelude OrcModel.
Import ListNotations.

(** White space of ASCII. *)
Definition white : list ascii := map ascii_of_nat [9; 10; 11; 12; 13; 28; 29; 30; 31; 32].
Definition all_white (s : list ascii) : Prop := forall c, In c s -> In c white.
Definition not_white_at_ends (s : list ascii) : Prop :=
  (forall c r, s = c :: r -> ~ In c white) /\ (forall c r, s = r ++ [c] -> ~ In c white).
Definition trimmed (s t : list ascii) : Prop :=
  exists a b, s = a ++ t ++ b /\ all_white a /\ all_white b /\ not_white_at_ends t.

(** Letters in upper and lower case. *)
Definition upper_case : list ascii := list_ascii_of_string "ABCDEFGHIJKLMNOPQRSTUVWXYZ".
Definition lower_case : list ascii := list_ascii_of_string "abcdefghijklmnopqrstuvwxyz".
Definition same_letter (c d : ascii) : Prop :=
  c = d \/ In (c, d) (combine upper_case lower_case) \/ In (d, c) (combine upper_case lower_case).
(** Two names mean the same if they differ in case and in white space around them. *)
Definition same_name (s t : list ascii) : Prop :=
  exists s' t', trimmed s s' /\ trimmed t t' /\ Forall2 same_letter s' t'.

Section Registrations.
  Variable factory : Type.
  Definition same_entry (o : registration factory) (t f : list ascii) : Prop := same_name (target o) t /\ same_name (format o) f.
  (** The last call of register that counts: after it no call for the same names asks for replacement; it
      does, or is the first for these names. *)
  Definition counts (l : list (registration factory)) (t f : list ascii) (x : factory) : Prop :=
    exists before o after, l = before ++ o :: after /\ same_entry o t f /\ made o = x
    /\ (replace o = true \/ forall o', In o' before -> ~ same_entry o' t f)
    /\ forall o', In o' after -> same_entry o' t f -> replace o' = false.
End Registrations.
Arguments same_entry {factory}. Arguments counts {factory}.

(** Contexts as tables. *)
Definition entry (k : list ascii) (c : context) : option value :=
  option_map snd (find (fun p => if list_eq_dec ascii_dec (fst p) k then true else false) c).
Definition output_dir_name : list ascii := list_ascii_of_string "output_dir".
Definition model_name_name : list ascii := list_ascii_of_string "model_name".
