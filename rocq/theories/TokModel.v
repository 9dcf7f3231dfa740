(** Data sets of token sequences and progress bars for tests.

    Modelled code: src/fastforward/testing/data.py:20-81 tokenize_dataset and :84-100 sliced_tqdm. Tokens, column
    names and the tokenizer are arbitrary; the length of sequences and limits are natural numbers. [dataset.map]
    with [batched] and no batch size is modelled by one call on all rows. *)
From Coq Require Import Ascii List Arith Bool.
From Verif Require Import Prelude.
Import ListNotations.

Notation text := (list ascii).
Definition newline : ascii := ascii_of_nat 10.

(** data.py:40-41: ["\n\n".join(examples["text"])] *)
Fixpoint join_nn (l : list text) : text :=
  match l with
  | [] => []
  | [t] => t
  | t :: r => t ++ [newline; newline] ++ join_nn r
  end.

Section Tok.
  Variable token : Type.
  Variable key : Type.
  Variable key_eqb : key -> key -> bool.
  (** The names of the columns "input_ids" and "label". *)
  Variables input_ids label : key.

  Fixpoint lookup {A : Type} (k : key) (d : list (key * A)) : option A :=
    match d with [] => None | (k', v) :: r => if key_eqb k k' then Some v else lookup k r end.
  (** Assignment to a key of a dict. *)
  Fixpoint put {A : Type} (k : key) (v : A) (d : list (key * A)) : list (key * A) :=
    match d with
    | [] => [(k, v)]
    | (k', v') :: r => if key_eqb k k' then (k', v) :: r else (k', v') :: put k v r
    end.

  (** data.py:56-60: [[t[i : i + length] for i in range(0, total, length)]], for positive lengths. *)
  Definition pieces (length total : nat) (t : list token) : list (list token) :=
    map (fun j => firstn length (skipn (j * length) t)) (seq 0 ((total + length - 1) / length)).

  (** data.py:43-62 _group_texts *)
  Definition group_texts (sequence_length : nat) (examples : list (key * list (list token)))
    : result (list (key * list (list token))) :=
    let concatenated := map (fun kv => (fst kv, concat (snd kv))) examples in
    match concatenated with
    | [] => Err IndexError
    | (_, first) :: _ =>
        let total_length := length first in
        if sequence_length <=? total_length then
          if sequence_length =? 0 then Err ZeroDivisionError
          else
            let total := (total_length / sequence_length) * sequence_length in
            let out := map (fun kv => (fst kv, pieces sequence_length total (snd kv))) concatenated in
            match lookup input_ids out with Some v => Ok (put label v out) | None => Err KeyError end
        else
          let out := map (fun kv => (fst kv, pieces sequence_length 0 (snd kv))) concatenated in
          match lookup input_ids out with Some v => Ok (put label v out) | None => Err KeyError end
    end.

  (** data.py:64-81: all texts are one row for the tokenizer, and its columns are grouped. *)
  Definition tokenize_dataset (tokenizer : text -> list (key * list token)) (texts : list text)
      (sequence_length : nat) : result (list (key * list (list token))) :=
    group_texts sequence_length (map (fun kv => (fst kv, [snd kv])) (tokenizer (join_nn texts))).
End Tok.
Arguments lookup {key} key_eqb {A}. Arguments put {key} key_eqb {A}.
Arguments pieces {token}. Arguments group_texts {token key}. Arguments tokenize_dataset {token key}.

(** data.py:99-100 sliced_tqdm: the items and the total of the bar. *)
Definition sliced_tqdm {A : Type} (items : list A) (limit : option nat) : list A * nat :=
  let numel := match limit with Some (S l) => S l | _ => length items end in
  (match limit with Some l => firstn l items | None => items end, numel).
