(** C162: vocabularies in GGUF files. *)
From Coq Require Import List Arith Bool Lia.
From Verif Require Import Prelude VocModel VocProofs.
Import ListNotations.

(** ** C162 *)

(** The list has as many tokens as the model says. The token of an id is at that place, and ids without token
    are filled with unused ones. Special tokens are of type CONTROL, other added ones USER_DEFINED and all
    others NORMAL.
    Missing: tokens with larger ids, which are left out. *)
Theorem C162_tokens_at_their_ids_partial : forall (token : Type) (token_eqb : token -> token -> bool) pad vocab added decoder size,
  (forall a b, token_eqb a b = true <-> a = b) -> NoDup (map snd vocab) ->
  let out := write_vocab token_eqb pad vocab added decoder size in
  length out = size
  /\ (forall t i, In (t, i) vocab -> i < size -> exists ty, nth_error out i = Some (t, ty)
        /\ (ty = CONTROL <-> In (i, true) decoder)
        /\ (ty = USER_DEFINED <-> In t added /\ ~ In (i, true) decoder)
        /\ (ty = NORMAL <-> ~ In t added /\ ~ In (i, true) decoder))
  /\ (forall i, i < size -> (forall t, ~ In (t, i) vocab) -> nth_error out i = Some (pad i, UNUSED)).
Proof.
  intros token token_eqb pad vocab added decoder size E N out. split; [|split].
  - unfold out, write_vocab. now rewrite map_length, seq_length.
  - intros t i H L. unfold out. rewrite at_index by exact L. unfold token_at. rewrite (id_of_token _ _ _ _ N H).
    pose proof (mem_nat i (special_token_ids decoder)) as S. rewrite special_in in S.
    pose proof (mem_token _ _ E t added) as A.
    destruct (existsb (Nat.eqb i) (special_token_ids decoder)) eqn:B.
    + exists CONTROL. split; [reflexivity|]. assert (In (i, true) decoder) by (now apply S).
      repeat split; intros; try tauto; try discriminate.
    + assert (~ In (i, true) decoder) by (intro X; apply S in X; discriminate).
      destruct (existsb (token_eqb t) added) eqn:C.
      * exists USER_DEFINED. split; [reflexivity|]. assert (In t added) by (now apply A). repeat split; intros; try tauto; try discriminate.
      * exists NORMAL. split; [reflexivity|]. assert (~ In t added) by (intro X; apply A in X; discriminate). repeat split; intros; try tauto; try discriminate.
  - intros i L H. unfold out. rewrite at_index by exact L. unfold token_at. destruct (id_to_token vocab i) as [t|] eqn:X; [|reflexivity].
    apply id_in in X. now apply H in X.
Qed.
Print Assumptions C162_tokens_at_their_ids_partial.

(** No token is twice in the list, if no token looks like a filling. *)
Theorem C162_distinct_partial : forall (token : Type) (token_eqb : token -> token -> bool) pad vocab added decoder size,
  NoDup (map fst vocab) -> (forall i j, pad i = pad j -> i = j) -> (forall i (k : nat), ~ In (pad i, k) vocab) ->
  NoDup (map fst (write_vocab token_eqb pad vocab added decoder size)).
Proof. intros. now apply distinct. Qed.
Print Assumptions C162_distinct_partial.

(** A token whose id is not below the size of the model is left out, without an error. *)
Theorem C162_larger_ids_refuted : exists vocab : list (nat * nat),
  NoDup (map snd vocab) /\ In (7, 2) vocab /\ ~ In 7 (map fst (write_vocab Nat.eqb (fun i => 100 + i) vocab [] [] 2)).
Proof.
  exists [(5, 0); (6, 1); (7, 2)]. split; [repeat constructor; cbn; intuition discriminate|]. split; [cbn; tauto|]. cbn. intuition discriminate.
Qed.
Print Assumptions C162_larger_ids_refuted.

(** A token that looks like the filling of another id is twice in the list. *)
Theorem C162_filling_twice_refuted : exists vocab : list (nat * nat),
  NoDup (map fst vocab) /\ ~ NoDup (map fst (write_vocab Nat.eqb (fun i => 100 + i) vocab [] [] 2)).
Proof.
  exists [(101, 0)]. split; [repeat constructor; cbn; tauto|]. cbn. intro N. inversion N as [|? ? N1 N2]. apply N1. now left.
Qed.
Print Assumptions C162_filling_twice_refuted.

(** A vocabulary with a gap, an added token and a special one. *)
Example C162_nonvacuous :
  NoDup (map snd [(5, 3); (6, 0); (7, 1)])
  /\ write_vocab Nat.eqb (fun i => 100 + i) [(5, 3); (6, 0); (7, 1)] [5; 7] [(3, false); (1, true)] 4
     = [(6, NORMAL); (7, CONTROL); (102, UNUSED); (5, USER_DEFINED)].
Proof. split; [repeat constructor; cbn; intuition discriminate|reflexivity]. Qed.
