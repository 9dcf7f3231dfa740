(** Identifiers of Python, within ASCII. *)
From Coq Require Import String Ascii List Arith Bool.
Import ListNotations.

Definition letters : list ascii := list_ascii_of_string "abcdefghijklmnopqrstuvwxyzABCDEFGHIJKLMNOPQRSTUVWXYZ".
Definition digits : list ascii := list_ascii_of_string "0123456789".
Definition underscore : ascii := "_"%char.
Definition symbols : list ascii := list_ascii_of_string "+-*/".

(** The reserved words of the language. *)
Definition reserved : list string :=
  ["False"; "None"; "True"; "and"; "as"; "assert"; "async"; "await"; "break"; "class"; "continue"; "def";
   "del"; "elif"; "else"; "except"; "finally"; "for"; "from"; "global"; "if"; "import"; "in"; "is";
   "lambda"; "nonlocal"; "not"; "or"; "pass"; "raise"; "return"; "try"; "while"; "with"; "yield"]%string.

Definition identifier (s : list ascii) : Prop :=
  (exists c r, s = c :: r /\ (In c letters \/ c = underscore))
  /\ (forall c, In c s -> In c letters \/ In c digits \/ c = underscore)
  /\ ~ In (string_of_list_ascii s) reserved.

(** No two underscores in a row: so the name is not changed in classes, and not that of a special method. *)
Definition no_double (s : list ascii) : Prop := forall a b, s <> a ++ underscore :: underscore :: b.
(** No underscore at the end. *)
Definition no_trailing (s : list ascii) : Prop := forall a, s <> a ++ [underscore].

(** Letters and digits, as they are. *)
Definition letter_or_digit (c : ascii) : bool := existsb (Ascii.eqb c) (letters ++ digits).
(** Arithmetic symbols written out; two slashes are one symbol. *)
Definition spell_one (c : ascii) : list ascii :=
  if Ascii.eqb c "+" then list_ascii_of_string "plus"
  else if Ascii.eqb c "-" then list_ascii_of_string "minus"
  else if Ascii.eqb c "*" then list_ascii_of_string "mul"
  else if Ascii.eqb c "/" then list_ascii_of_string "div"
  else [c].
Fixpoint spell (s : list ascii) : list ascii :=
  match s with
  | [] => []
  | c :: s' =>
      match s' with
      | d :: s'' => if Ascii.eqb c "/" && Ascii.eqb d "/" then list_ascii_of_string "div" ++ spell s'' else spell_one c ++ spell s'
      | [] => spell_one c
      end
  end.
