(** Proofs about written files. *)
From Coq Require Import Ascii String List Arith Bool Lia.
From Verif Require Import Prelude FwrModel FwrSpec.
Import ListNotations.
Local Open Scope list_scope.

Lemma same_spec : forall a b, same a b = true <-> a = b.
Proof. intros a b. unfold same. destruct (path_eq_dec a b); split; congruence. Qed.
Lemma same_text_spec : forall a b, same_text a b = true <-> a = b.
Proof. intros a b. unfold same_text. destruct (text_eq_dec a b); split; congruence. Qed.

Lemma cut_eq : forall n a b, cut_last_dot n = Some (a, b) -> n = a ++ b /\ exists r, b = dot :: r /\ ~ In dot r.
Proof.
  assert (N : forall n, cut_last_dot n = None -> ~ In dot n).
  { induction n as [|c r IH]; cbn; intros H; [tauto|]. destruct (cut_last_dot r) as [[a b]|]; [discriminate|].
    destruct (ascii_dec c dot); [discriminate|]. intros [E|E]; [congruence|]. now apply IH. }
  induction n as [|c r IH]; intros a b H; cbn in H; [discriminate|].
  destruct (cut_last_dot r) as [[a' b']|] eqn:E.
  - injection H as <- <-. destruct (IH _ _ eq_refl) as (-> & X). split; [reflexivity|exact X].
  - destruct (ascii_dec c dot) as [->|]; [|discriminate]. injection H as <- <-. split; [reflexivity|]. exists r. split; [reflexivity|]. now apply N.
Qed.
Lemma cut_complete : forall a r, ~ In dot r -> cut_last_dot (a ++ dot :: r) = Some (a, dot :: r).
Proof.
  intros a r H.
  assert (N : cut_last_dot r = None).
  { clear a. induction r as [|c r IH]; [reflexivity|]. cbn in *. rewrite IH by tauto. destruct (ascii_dec c dot); [|reflexivity]. subst. tauto. }
  induction a as [|c a IH]; cbn.
  - rewrite N. destruct (ascii_dec dot dot); [reflexivity|congruence].
  - now rewrite IH.
Qed.

Lemma suffix_py : forall n stem, stem <> [] -> (n = stem ++ dot_py <-> stem_and_suffix n = (stem, dot_py)).
Proof.
  intros n stem S. split.
  - intros ->. unfold stem_and_suffix. change dot_py with (dot :: list_ascii_of_string "py").
    rewrite cut_complete; [destruct stem; [congruence|reflexivity]|]. cbn. intuition discriminate.
  - unfold stem_and_suffix. destruct (cut_last_dot n) as [[a b]|] eqn:E.
    + apply cut_eq in E as (-> & r & -> & _). destruct a as [|c a]; [discriminate|]. destruct r as [|d r]; [discriminate|].
      intro H. injection H as <- H. subst. reflexivity.
    + discriminate.
Qed.
Lemma suffix_py_any : forall n, snd (stem_and_suffix n) = dot_py -> exists stem, stem <> [] /\ n = stem ++ dot_py.
Proof.
  intros n H. destruct (stem_and_suffix n) as [st su] eqn:E. cbn in H. subst su.
  assert (N : st <> []).
  { unfold stem_and_suffix in E. destruct (cut_last_dot n) as [[[|c a] [|d [|e b]]]|]; try discriminate; injection E as <-; discriminate. }
  exists st. split; [exact N|]. now apply suffix_py.
Qed.

Lemma writer_target : forall p f w, file_writer p f = Some w -> target p (output_file w) /\ force w = f
  /\ exists n, output_file w = output_dir w ++ [n].
Proof.
  intros p f w H. unfold file_writer in H. destruct (rev p) as [|last front] eqn:R; [discriminate|].
  assert (P : p = rev front ++ [last]) by (rewrite <- (rev_involutive p), R; reflexivity).
  destruct (stem_and_suffix last) as [stem suffix] eqn:E. destruct (same_text suffix dot_py) eqn:S; injection H as <-; cbn.
  - apply same_text_spec in S. subst suffix. destruct (suffix_py_any last) as (st & N & ->); [now rewrite E|].
    split; [|split; [reflexivity|eauto]]. subst p. now constructor.
  - split; [|split; [reflexivity|eauto]]. subst p. rewrite <- app_assoc. cbn. constructor. intros st N ->.
    apply (suffix_py _ _ N) in E || (assert (X : stem_and_suffix (st ++ dot_py) = (st, dot_py)) by (now apply suffix_py);
      change (list_ascii_of_string ".py") with dot_py in E; rewrite X in E; injection E as <- <-;
      rewrite (proj2 (same_text_spec _ _) eq_refl) in S; discriminate).
Qed.
Lemma writer_some : forall p f, p <> [] -> exists w, file_writer p f = Some w.
Proof.
  intros p f H. unfold file_writer. destruct (rev p) as [|last front] eqn:R.
  - apply (f_equal (@rev text)) in R. rewrite rev_involutive in R. contradiction.
  - destruct (stem_and_suffix last) as [a b]. destruct (same_text b dot_py); eauto.
Qed.

Lemma parts_states : forall parts s p have t, In t (write_parts s p have parts) ->
  exists k, file t p = Some (have ++ concat (firstn k parts)) /\ (forall q, q <> p -> file t q = file s q) /\ is_dir t = is_dir s.
Proof.
  assert (ONE : forall s p c, file (set_file s p c) p = Some c /\ (forall q, q <> p -> file (set_file s p c) q = file s q) /\ is_dir (set_file s p c) = is_dir s).
  { intros s p c. cbn. split; [now rewrite (proj2 (same_spec p p) eq_refl)|]. split; [|reflexivity].
    intros q Hq. destruct (same q p) eqn:E; [apply same_spec in E; contradiction|reflexivity]. }
  induction parts as [|x r IH]; intros s p have t H; cbn in H.
  - destruct H as [<-|[]]. exists 0. cbn [firstn concat]. rewrite app_nil_r. apply ONE.
  - destruct H as [<-|H].
    + exists 0. cbn [firstn concat]. rewrite app_nil_r. apply ONE.
    + apply IH in H as (k & A & B). exists (S k). cbn [firstn concat]. rewrite app_assoc. split; [exact A|exact B].
Qed.
Lemma parts_final : forall parts s p have, exists before, write_parts s p have parts = before ++ [set_file s p (have ++ concat parts)].
Proof.
  induction parts as [|x r IH]; intros s p have; cbn.
  - exists []. now rewrite app_nil_r.
  - destruct (IH s p (have ++ x)) as [b E]. exists (set_file s p have :: b). rewrite E, <- app_assoc. reflexivity.
Qed.

Lemma mkdir_files : forall s p s', mkdir s p = Some s' -> file s' = file s.
Proof. intros s p s'. unfold mkdir. destruct (existsb _ _); [discriminate|]. intro H. now injection H as <-. Qed.

Lemma beginnings_length : forall p b, In b (beginnings p) -> length b <= length p.
Proof.
  induction p as [|n r IH]; cbn; intros b H; [destruct H as [<-|[]]; cbn; lia|]. destruct H as [<-|H]; [cbn; lia|].
  apply in_map_iff in H as (x & <- & H). apply IH in H. cbn. lia.
Qed.
Lemma mkdir_dirs : forall s p s' n, mkdir s p = Some s' -> is_dir s' (p ++ [n]) = is_dir s (p ++ [n]).
Proof.
  intros s p s' n. unfold mkdir. destruct (existsb _ _); [discriminate|]. intro H. injection H as <-. cbn.
  destruct (existsb (same (p ++ [n])) (beginnings p)) eqn:E; [|reflexivity]. exfalso.
  apply existsb_exists in E as (b & Hb & E). apply same_spec in E. subst b. apply beginnings_length in Hb. rewrite app_length in Hb. cbn in Hb. lia.
Qed.

Lemma write_cases : forall split w s code states o n, output_file w = output_dir w ++ [n] ->
  write split w s code = (states, o) ->
  match o with
  | Written => (exists t, final states t /\ file t (output_file w) = Some (concat (split code)))
      /\ (force w = false -> file s (output_file w) = None /\ is_dir s (output_file w) = false)
      /\ forall t, In t states -> (forall q, q <> output_file w -> file t q = file s q)
           /\ (file t (output_file w) = file s (output_file w) \/ exists k, file t (output_file w) = Some (concat (firstn k (split code))))
  | FileExists => force w = false /\ (file s (output_file w) <> None \/ is_dir s (output_file w) = true)
      /\ forall t, In t states -> file t = file s
  | OtherError => forall t, In t states -> file t = file s
  end.
Proof.
  intros split w s code states o n W H. unfold write in H. destruct (mkdir s (output_dir w)) as [s1|] eqn:M.
  2: { injection H as <- <-. intros t [<-|[]]. reflexivity. }
  pose proof (mkdir_files _ _ _ M) as MF. pose proof (mkdir_dirs _ _ _ n M) as MD. rewrite <- W in MD.
  assert (IF : is_file s1 (output_file w) = is_file s (output_file w)) by (unfold is_file; now rewrite MF).
  rewrite IF, MD in H.
  destruct ((is_file s (output_file w) || is_dir s (output_file w)) && negb (force w)) eqn:B.
  - injection H as <- <-. apply andb_prop in B as [B1 B2]. apply negb_true_iff in B2. split; [exact B2|]. split.
    + apply orb_prop in B1 as [B1|B1]; [left|now right]. unfold is_file in B1. destruct (file s (output_file w)); congruence.
    + intros t [<-|[<-|[]]]; auto.
  - destruct (is_dir s (output_file w)) eqn:D.
    + injection H as <- <-. intros t [<-|[<-|[]]]; auto.
    + injection H as <- <-. split; [|split].
      * destruct (parts_final (split code) s1 (output_file w) []) as [b E]. rewrite E.
        eexists. split; [exists (s :: s1 :: b); reflexivity|]. cbn. now rewrite (proj2 (same_spec _ _) eq_refl).
      * intro F. rewrite F in B. rewrite orb_false_r, andb_true_r in B. unfold is_file in B. destruct (file s (output_file w)); [discriminate|auto].
      * intros t [<-|[<-|Ht]].
        -- split; auto.
        -- rewrite MF. split; auto.
        -- apply parts_states in Ht as (k & A & Q & _). cbn in A. split; [intros q Hq; now rewrite Q, MF|]. right. exists k. exact A.
Qed.
