(** Proofs about tracing: names of placeholders. *)
From Coq Require Import String Ascii Lia Decimal DecimalNat DecimalString.
From Verif Require Import Prelude GraphModel EngineModel NamModel NamProofs TrcModel.
From Verif Require OnxProofs.
Local Open Scope nat_scope.
Local Open Scope list_scope.

Lemma substring_front p k : substring 0 (String.length p) (p ++ k) = p.
Proof. induction p; cbn; [now destruct k|]. now rewrite IHp. Qed.
Lemma substring_back p k : substring (String.length p) (String.length k) (p ++ k) = k.
Proof. induction p; cbn; [|assumption]. induction k; cbn; [reflexivity|]. now rewrite IHk. Qed.
Lemma substring_cut s : forall n, n <= String.length s -> (substring 0 n s ++ substring n (String.length s - n) s)%string = s.
Proof.
  induction s as [|c s IH]; intros [|n] L; cbn in *; try reflexivity; try lia.
  - f_equal. specialize (IH 0 ltac:(lia)). rewrite Nat.sub_0_r in IH. destruct s; exact IH.
  - f_equal. apply IH. lia.
Qed.
Lemma prefix_split p t : String.prefix p t = true <-> exists r, t = (p ++ r)%string.
Proof.
  rewrite prefix_correct. split.
  - intros E. exists (substring (String.length p) (String.length t - String.length p) t). rewrite <- E at 1. symmetry. apply substring_cut.
    destruct (Nat.le_gt_cases (String.length p) (String.length t)) as [L|L]; [exact L|]. exfalso.
    assert (Q : forall (s : string) n m, String.length (substring n m s) <= String.length s) by (clear; induction s as [|c s IH]; intros [|n] [|m]; cbn; try lia; [specialize (IH 0 m)|specialize (IH n 0)|specialize (IH n (S m))]; lia).
    specialize (Q t 0 (String.length p)). rewrite E in Q. lia.
  - intros (r & ->). apply substring_front.
Qed.
Lemma between_spec pre t k : between pre t = Some k <-> k <> ""%string /\ t = (pre ++ k ++ "_")%string.
Proof.
  unfold between. split.
  - destruct (String.prefix pre t) eqn:P; [|discriminate]. apply prefix_split in P. destruct P as (r & ->). rewrite OnxProofs.append_length. replace (String.length pre + String.length r - String.length pre) with (String.length r) by lia. rewrite substring_back.
    destruct (Nat.leb_spec 2 (String.length r)) as [L|]; [|discriminate]. cbn [andb]. destruct (String.eqb_spec (substring (String.length r - 1) 1 r) "_") as [E|]; [|discriminate]. intros Q. injection Q as <-.
    assert (C := substring_cut r (String.length r - 1) ltac:(lia)). replace (String.length r - (String.length r - 1)) with 1 in C by lia. rewrite E in C. split; [|now rewrite C]. intros K. rewrite K in C. rewrite <- C in L. cbn in L. lia.
  - intros [N ->]. assert (P : String.prefix pre (pre ++ k ++ "_") = true) by (apply prefix_split; eauto). rewrite P, OnxProofs.append_length. replace (String.length pre + String.length (k ++ "_") - String.length pre) with (String.length (k ++ "_")) by lia. rewrite substring_back, OnxProofs.append_length. cbn [String.length].
    assert (L : 1 <= String.length k) by (destruct k; [contradiction|cbn; lia]). destruct (Nat.leb_spec 2 (String.length k + 1)); [|lia]. cbn [andb]. replace (String.length k + 1 - 1) with (String.length k) by lia.
    assert (Q := substring_back k "_"). cbn [String.length] in Q. rewrite Q. cbn. now rewrite substring_front.
Qed.
Lemma uint_int u : forall acc, int_of acc (NilEmpty.string_of_uint u) = Nat.of_uint_acc u acc.
Proof. induction u; intros acc; [reflexivity|..]; cbn [NilEmpty.string_of_uint int_of Nat.of_uint_acc]; rewrite IHu, Nat.tail_mul_spec; f_equal; cbn [nat_of_ascii]; vm_compute (nat_of_ascii _ - 48); lia. Qed.
Lemma uint_all u : all_digits (NilEmpty.string_of_uint u) = true.
Proof. induction u; cbn; auto. Qed.
Lemma decimal_int i : int_of 0 (decimal i) = i /\ all_digits (decimal i) = true /\ decimal i <> ""%string.
Proof.
  assert (E := Unsigned.of_to i). unfold decimal. destruct (Nat.to_uint i) as [|u|u|u|u|u|u|u|u|u|u] eqn:Eu; cbn [NilZero.string_of_uint]; [cbn in E; subst i; repeat split; discriminate|..];
    (split; [rewrite uint_int; exact E|]; split; [apply uint_all|discriminate]).
Qed.
Lemma prefixes_differ k r : ("l_kw_" ++ k)%string <> ("l_a_" ++ r)%string.
Proof. discriminate. Qed.
Lemma unmangle_keyword k positional : k <> ""%string -> unmangle ("l_kw_" ++ k ++ "_") positional = k.
Proof. intros N. unfold unmangle. assert (between "l_kw_" ("l_kw_" ++ k ++ "_") = Some k) as -> by (now apply between_spec). reflexivity. Qed.
Lemma unmangle_positional i positional : unmangle ("l_a_" ++ decimal i ++ "_") positional = match nth_error positional i with Some p => p | None => ("arg_" ++ decimal i)%string end.
Proof.
  destruct (decimal_int i) as (E1 & E2 & E3). unfold unmangle. destruct (between "l_kw_" _) as [k|] eqn:B; [apply between_spec in B; destruct B as [_ B]; discriminate|].
  assert (between "l_a_" ("l_a_" ++ decimal i ++ "_") = Some (decimal i)) as -> by (now apply between_spec). now rewrite E2, E1.
Qed.
Lemma unmangle_other name positional : (forall k, k <> ""%string -> name <> ("l_kw_" ++ k ++ "_")%string) -> (forall d, all_digits d = true -> name <> ("l_a_" ++ d ++ "_")%string) -> unmangle name positional = name.
Proof.
  intros H1 H2. unfold unmangle. destruct (between "l_kw_" name) as [k|] eqn:B; [apply between_spec in B; destruct B as [N B]; now destruct (H1 k N)|].
  destruct (between "l_a_" name) as [d|] eqn:B2; [|reflexivity]. apply between_spec in B2. destruct B2 as [N2 B2]. destruct (all_digits d) eqn:D; [now destruct (H2 d D)|reflexivity].
Qed.
