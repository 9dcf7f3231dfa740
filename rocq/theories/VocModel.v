(** The vocabulary in GGUF files.

    Modelled code: src/fastforward/export/stages/gguf/_vocab.py:22-67, the first part of write_vocab: the lists of
    tokens and of their types. Tokens are any type with a decidable equality; [pad i] stands for the text
    [PADi]. The merges and special tokens that other libraries read from disk are not modelled. *)
From Coq Require Import List Arith Bool.
From Verif Require Import Prelude.
Import ListNotations.

Inductive token_type := CONTROL | USER_DEFINED | NORMAL | UNUSED.

Section Voc.
  Variable token : Type.
  Variable token_eqb : token -> token -> bool.
  Variable pad : nat -> token.

  (** _vocab.py:48: the dict from ids to tokens; of several tokens with one id the last one is kept. *)
  Fixpoint id_to_token (vocab : list (token * nat)) (i : nat) : option token :=
    match vocab with
    | [] => None
    | (t, k) :: r => match id_to_token r i with Some u => Some u | None => if k =? i then Some t else None end
    end.

  (** _vocab.py:43-46: the ids of special tokens; [decoder] has the ids of added tokens and whether they are
      special. *)
  Definition special_token_ids (decoder : list (nat * bool)) : list nat := map fst (filter snd decoder).

  (** _vocab.py:51-63: one step of the loop. *)
  Definition token_at (vocab : list (token * nat)) (added : list token) (special : list nat) (i : nat) : token * token_type :=
    match id_to_token vocab i with
    | Some t =>
        if existsb (Nat.eqb i) special then (t, CONTROL)
        else if existsb (token_eqb t) added then (t, USER_DEFINED)
        else (t, NORMAL)
    | None => (pad i, UNUSED)
    end.
  (** _vocab.py:38-67: what is given to the writer. *)
  Definition write_vocab (vocab : list (token * nat)) (added : list token) (decoder : list (nat * bool)) (vocab_size : nat)
    : list (token * token_type) :=
    map (token_at vocab added (special_token_ids decoder)) (seq 0 vocab_size).
End Voc.
Arguments id_to_token {token}. Arguments token_at {token}. Arguments write_vocab {token}.
