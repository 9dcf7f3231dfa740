(** Proofs about vocabularies. *)
From Coq Require Import List Arith Bool Lia.
From Verif Require Import Prelude VocModel.
Import ListNotations.

Section Voc.
  Variable token : Type.
  Variable token_eqb : token -> token -> bool.
  Hypothesis eqb_spec : forall a b, token_eqb a b = true <-> a = b.
  Variable pad : nat -> token.

  Lemma id_in : forall (vocab : list (token * nat)) i t, id_to_token vocab i = Some t -> In (t, i) vocab.
  Proof.
    induction vocab as [|[u k] r IH]; cbn; intros i t H; [discriminate|].
    destruct (id_to_token r i) eqn:E; [injection H as ->; right; now apply IH|].
    destruct (Nat.eqb_spec k i) as [->|]; [|discriminate]. injection H as ->. now left.
  Qed.
  Lemma id_none : forall (vocab : list (token * nat)) i t, id_to_token vocab i = None -> ~ In (t, i) vocab.
  Proof.
    induction vocab as [|[u k] r IH]; cbn; intros i t H; [tauto|].
    destruct (id_to_token r i) eqn:E; [discriminate|]. destruct (Nat.eqb_spec k i); [discriminate|].
    intros [X|X]; [congruence|]. now apply (IH i t).
  Qed.
  Lemma id_of_token : forall (vocab : list (token * nat)) i t, NoDup (map snd vocab) -> In (t, i) vocab -> id_to_token vocab i = Some t.
  Proof.
    induction vocab as [|[u k] r IH]; cbn; intros i t N H; [contradiction|]. inversion N as [|? ? N1 N2]; subst.
    destruct H as [H|H].
    - injection H as -> ->. destruct (id_to_token r i) eqn:E.
      + apply id_in in E. exfalso. apply N1. change i with (snd (t0, i)). now apply in_map.
      + now rewrite Nat.eqb_refl.
    - now rewrite (IH _ _ N2 H).
  Qed.

  Lemma at_index : forall vocab added decoder size i, i < size ->
    nth_error (write_vocab token_eqb pad vocab added decoder size) i
    = Some (token_at token_eqb pad vocab added (special_token_ids decoder) i).
  Proof.
    intros. unfold write_vocab. rewrite nth_error_map.
    assert (E : nth_error (seq 0 size) i = Some i).
    { rewrite (nth_error_nth' _ 0) by (now rewrite seq_length). now rewrite seq_nth. }
    now rewrite E.
  Qed.

  Lemma special_in : forall decoder i, In i (special_token_ids decoder) <-> In (i, true) decoder.
  Proof.
    intros decoder i. unfold special_token_ids. rewrite in_map_iff. split.
    - intros ([k b] & E & H). apply filter_In in H as [H B]. cbn in *. now subst.
    - intro H. exists (i, true). split; [reflexivity|]. now apply filter_In.
  Qed.
  Lemma mem_nat : forall i l, existsb (Nat.eqb i) l = true <-> In i l.
  Proof.
    intros i l. rewrite existsb_exists. split; [intros (x & H & E); apply Nat.eqb_eq in E; now subst|].
    intro H. exists i. split; [exact H|apply Nat.eqb_refl].
  Qed.
  Lemma mem_token : forall t l, existsb (token_eqb t) l = true <-> In t l.
  Proof.
    intros t l. rewrite existsb_exists. split; [intros (x & H & E); apply eqb_spec in E; now subst|].
    intro H. exists t. split; [exact H|now apply eqb_spec].
  Qed.

  Lemma fst_at : forall vocab added special i,
    fst (token_at token_eqb pad vocab added special i) = match id_to_token vocab i with Some t => t | None => pad i end.
  Proof.
    intros. unfold token_at. destruct (id_to_token vocab i); [|reflexivity]. destruct (existsb _ special); [reflexivity|]. now destruct (existsb _ added).
  Qed.
  Lemma distinct : forall vocab added decoder size, NoDup (map fst vocab) ->
    (forall i j, pad i = pad j -> i = j) -> (forall i (k : nat), ~ In (pad i, k) vocab) ->
    NoDup (map fst (write_vocab token_eqb pad vocab added decoder size)).
  Proof.
    intros vocab added decoder size N I P. unfold write_vocab. rewrite map_map.
    assert (INJ : forall i j, fst (token_at token_eqb pad vocab added (special_token_ids decoder) i) = fst (token_at token_eqb pad vocab added (special_token_ids decoder) j) -> i = j).
    { intros i j. rewrite !fst_at. destruct (id_to_token vocab i) as [t|] eqn:Ei; destruct (id_to_token vocab j) as [u|] eqn:Ej; intro H.
      - subst u. apply id_in in Ei, Ej. clear -N Ei Ej. induction vocab as [|[x k] r IH]; [contradiction|]. cbn in N. inversion N as [|? ? N1 N2]; subst.
        destruct Ei as [Ei|Ei], Ej as [Ej|Ej].
        + congruence.
        + injection Ei as -> ->. exfalso. apply N1. change t with (fst (t, j)). now apply in_map.
        + injection Ej as -> ->. exfalso. apply N1. change t with (fst (t, i)). now apply in_map.
        + now apply IH.
      - subst t. apply id_in in Ei. now apply P in Ei.
      - rewrite <- H in Ej. apply id_in in Ej. now apply P in Ej.
      - now apply I. }
    generalize (seq_NoDup size 0). generalize (seq 0 size). induction l as [|x l IH]; cbn; intro ND; [constructor|].
    inversion ND as [|? ? N1 N2]; subst. constructor; [|auto]. intro H. apply in_map_iff in H as (y & E & Hy). apply INJ in E. now subst.
  Qed.
End Voc.
