(** C157 and C158: data for tests. *)
From Coq Require Import Ascii List Arith Bool Lia.
From Verif Require Import Prelude TokModel TokSpec TokProofs.
Import ListNotations.

(** ** C157 *)

(** For every tokenizer whose columns have one length: each column of the tokens of the joined texts is cut in
    pieces of the given length, in order and without gaps, and only a rest shorter than that is dropped. The
    label column is the column of the ids, and there are no other new columns. *)
Theorem C157_columns_are_cut : forall (key token : Type) (key_eqb : key -> key -> bool),
  (forall a b, key_eqb a b = true <-> a = b) ->
  forall input_ids label n (tokenizer : list ascii -> list (key * list token)) texts s N v,
  0 < n -> with_empty_lines texts s -> NoDup (map fst (tokenizer s)) ->
  (forall k c, In (k, c) (tokenizer s) -> length c = N) -> In (input_ids, v) (tokenizer s) ->
  exists out ids, tokenize_dataset key_eqb input_ids label tokenizer texts n = Ok out
    /\ NoDup (map fst out) /\ cut n v ids /\ In (label, ids) out
    /\ (forall k c, In (k, c) (tokenizer s) -> k <> label -> exists p, In (k, p) out /\ cut n c p)
    /\ (forall k p, In (k, p) out -> k = label \/ exists c, In (k, c) (tokenizer s)).
Proof.
  intros key token key_eqb E input_ids label n tokenizer texts s N v. now apply tokenize_spec.
Qed.
Print Assumptions C157_columns_are_cut.

(** There is one way to cut, and one way to join. *)
Theorem C157_unique : (forall (A : Type) n (t : list A) p p', cut n t p -> cut n t p' -> p = p')
  /\ forall texts, exists s, with_empty_lines texts s /\ forall s', with_empty_lines texts s' -> s' = s.
Proof.
  split; [exact cut_unique|]. intro texts. exists (join_nn texts). split; [apply join_spec|apply wel_unique].
Qed.
Print Assumptions C157_unique.

(** Length 0 fails, for every text, if there are columns. *)
Theorem C157_length_zero : forall (key token : Type) (key_eqb : key -> key -> bool) input_ids label
    (tokenizer : list ascii -> list (key * list token)) texts,
  (forall s, tokenizer s <> []) ->
  tokenize_dataset key_eqb input_ids label tokenizer texts 0 = Err ZeroDivisionError.
Proof.
  intros key token key_eqb i l tok texts H. unfold tokenize_dataset, group_texts.
  destruct (tok (join_nn texts)) as [|[k c] r] eqn:E; [now apply H in E|]. reflexivity.
Qed.
Print Assumptions C157_length_zero.

(** Columns of different lengths are cut as the first one: a shorter one gets pieces that are too short. *)
Theorem C157_uneven_columns_refuted : exists tokenizer : list ascii -> list (nat * list nat),
  exists out p, tokenize_dataset Nat.eqb 0 9 tokenizer [] 2 = Ok out /\ In (1, p) out
    /\ ~ forall x, In x p -> length x = 2.
Proof.
  exists (fun _ => [(0, [1; 2; 3; 4]); (1, [5; 6; 7])]). do 2 eexists. split; [reflexivity|]. split; [right; left; reflexivity|].
  intro H. specialize (H [7] (or_intror (or_introl eq_refl))). discriminate.
Qed.
Print Assumptions C157_uneven_columns_refuted.

Example C157_nonvacuous :
  let tok := fun s : list ascii => [(0, map nat_of_ascii s); (1, map (fun _ => 1) s)] in
  let texts := [[ascii_of_nat 65; ascii_of_nat 66]; [ascii_of_nat 67]] in
  with_empty_lines texts (map ascii_of_nat [65; 66; 10; 10; 67])
  /\ tokenize_dataset Nat.eqb 0 9 tok texts 2
     = Ok [(0, [[65; 66]; [10; 10]]); (1, [[1; 1]; [1; 1]]); (9, [[65; 66]; [10; 10]])].
Proof.
  split; [|reflexivity]. apply (wel_more [ascii_of_nat 65; ascii_of_nat 66] [[ascii_of_nat 67]] [ascii_of_nat 67]); [discriminate|constructor].
Qed.

(** ** C158 *)

(** The bar goes over the first [limit] items, and its total is their number if the limit is positive and not
    larger than the number of all items.
    Missing: other limits, for which the total is wrong. *)
Theorem C158_total_partial : forall (A : Type) (items : list A) limit,
  let '(shown, total) := sliced_tqdm items limit in
  (exists hidden, items = shown ++ hidden)
  /\ (forall l, limit = Some l -> length shown = Nat.min l (length items))
  /\ (limit = None -> shown = items)
  /\ ((forall l, limit = Some l -> 0 < l <= length items) -> total = length shown).
Proof.
  intros A items [l|]; cbn.
  - split; [exists (skipn l items); symmetry; apply firstn_skipn|]. split; [intros l' H; injection H as <-; apply firstn_length|].
    split; [discriminate|]. intro H. specialize (H l eq_refl). rewrite firstn_length. destruct l; lia.
  - split; [exists []; symmetry; apply app_nil_r|]. repeat split; auto; discriminate.
Qed.
Print Assumptions C158_total_partial.

(** With limit 0 no item is shown, but the total is the number of all. *)
Theorem C158_limit_zero_refuted : exists items : list nat, sliced_tqdm items (Some 0) = ([], 3).
Proof. exists [4; 5; 6]. reflexivity. Qed.
Print Assumptions C158_limit_zero_refuted.

(** A limit beyond the end is the total, which is not reached. *)
Theorem C158_large_limit_refuted : exists items : list nat, sliced_tqdm items (Some 5) = (items, 5) /\ length items = 1.
Proof. exists [4]. split; reflexivity. Qed.
Print Assumptions C158_large_limit_refuted.

Example C158_nonvacuous : sliced_tqdm [4; 5; 6] (Some 2) = ([4; 5], 2) /\ 0 < 2 <= length [4; 5; 6].
Proof. split; [reflexivity|cbn; lia]. Qed.
