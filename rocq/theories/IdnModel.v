(** Names for expressions.

    Modelled code: src/fastforward/_autoquant/cst/node_processing.py:221-251 expr_to_ident, from the code
    of the expression on. Strings are lists of bytes: a character outside ASCII is several bytes, all of
    which become underscores that are merged, as the underscore that the character becomes in Python. *)
From Coq Require Import String Ascii List Arith Bool.
From Verif Require Import Prelude.
Import ListNotations.
Local Open Scope char_scope.

Definition text := list ascii.

(** str.replace for one character. *)
Definition replace (c : ascii) (r : text) (s : text) : text :=
  flat_map (fun d => if Ascii.eqb d c then r else [d]) s.
(** str.replace for two times the same character, from the left, without overlaps. *)
Fixpoint replace_double (c : ascii) (r : text) (s : text) : text :=
  match s with
  | [] => []
  | d :: s' =>
      match s' with
      | e :: s'' => if Ascii.eqb d c && Ascii.eqb e c then r ++ replace_double c r s'' else d :: replace_double c r s'
      | [] => [d]
      end
  end.

Definition word (s : string) : text := list_ascii_of_string s.

(** node_processing.py:232-241: the replacements, in the order of the dictionary. *)
Definition replace_symbols (s : text) : text :=
  replace "/" (word "_div_")
    (replace_double "/" (word "_div_")
       (replace "*" (word "_mul_")
          (replace "-" (word "_minus_")
             (replace "+" (word "_plus_") s)))).

(** node_processing.py:242: characters other than letters, digits and underscores become underscores. *)
Definition between (a b c : ascii) : bool := Nat.leb (nat_of_ascii a) (nat_of_ascii c) && Nat.leb (nat_of_ascii c) (nat_of_ascii b).
Definition is_digit (c : ascii) : bool := between "0" "9" c.
Definition keeps (c : ascii) : bool :=
  between "a" "z" c || between "A" "Z" c || is_digit c || Ascii.eqb c "_".
Definition replace_others (s : text) : text := map (fun c => if keeps c then c else "_") s.

(** node_processing.py:243: runs of underscores become one. *)
Fixpoint merge (s : text) : text :=
  match s with
  | [] => []
  | c :: s' =>
      if Ascii.eqb c "_"
      then match s' with
           | d :: _ => if Ascii.eqb d "_" then merge s' else c :: merge s'
           | [] => [c]
           end
      else c :: merge s'
  end.

(** node_processing.py:244: rstrip *)
Fixpoint strip_end (s : text) : text :=
  match s with
  | [] => []
  | c :: s' => match strip_end s' with
               | [] => if Ascii.eqb c "_" then [] else [c]
               | r => c :: r
               end
  end.

(** keyword.kwlist of Python 3.10 to 3.13 *)
Definition kwlist : list text := map word
  ["False"; "None"; "True"; "and"; "as"; "assert"; "async"; "await"; "break"; "class"; "continue"; "def";
   "del"; "elif"; "else"; "except"; "finally"; "for"; "from"; "global"; "if"; "import"; "in"; "is";
   "lambda"; "nonlocal"; "not"; "or"; "pass"; "raise"; "return"; "try"; "while"; "with"; "yield"]%string.
Fixpoint same (a b : text) : bool :=
  match a, b with
  | [], [] => true
  | c :: a', d :: b' => Ascii.eqb c d && same a' b'
  | _, _ => false
  end.
Definition is_keyword (s : text) : bool := existsb (same s) kwlist.

(** node_processing.py:221-251 expr_to_ident *)
Definition expr_to_ident (code : text) : result text :=
  match strip_end (merge (replace_others (replace_symbols code))) with
  | [] => Err AssertionError
  | c :: s => Ok (if is_digit c || is_keyword (c :: s) then "_" :: c :: s else c :: s)
  end.

(** annotator.py:117-143 add_annotation_for_block: the quantizers of expressions from outside a block. The
    number goes by the code of the expression and the name is made from it: returns, for the codes in
    the order in which they come, number and name. *)
Fixpoint index_of (x : text) (l : list text) : option nat :=
  match l with
  | [] => None
  | y :: r => if same x y then Some 0 else option_map S (index_of x r)
  end.
Fixpoint annotate (ids : list text) (codes : list text) : result (list (nat * text)) :=
  match codes with
  | [] => Ok []
  | c :: r =>
      let (i, ids') := match index_of c ids with Some i => (i, ids) | None => (length ids, ids ++ [c]) end in
      let? n := expr_to_ident c in
      let? l := annotate ids' r in
      Ok ((i, n) :: l)
  end.
