(** C160 and C161: generated code in files. *)
From Coq Require Import Ascii String List Arith Bool Lia.
From Verif Require Import Prelude FwrModel FwrSpec FwrProofs.
Import ListNotations.
Local Open Scope list_scope.

(** ** C160 *)

(** Without being told to overwrite, no file that exists is changed, at the end and at any time on the way. *)
Theorem C160_existing_files_are_kept : forall split p w s code states o q c,
  file_writer p false = Some w -> write split w s code = (states, o) -> file s q = Some c ->
  forall t, In t states -> file t q = Some c.
Proof.
  intros split p w s code states o q c Hw H Hq t Ht. destruct (writer_target _ _ _ Hw) as (_ & F & n & E).
  pose proof (write_cases _ _ _ _ _ _ _ E H) as C. destruct o.
  - destruct C as (_ & C & K). destruct (C F) as [N _]. destruct (K t Ht) as [K1 _]. rewrite K1; [exact Hq|]. intros ->. congruence.
  - destruct C as (_ & _ & K). now rewrite (K t Ht).
  - now rewrite (C t Ht).
Qed.
Print Assumptions C160_existing_files_are_kept.

(** The code is in the file for the path if it is written, all other files are as before, and if it is not
    written all files are as before. FileExistsError means that the file exists. *)
Theorem C160_one_file_is_written : forall split p f w s code states o,
  (forall x, concat (split x) = x) -> file_writer p f = Some w -> write split w s code = (states, o) ->
  exists t out, final states t /\ target p out
  /\ (forall q, q <> out -> file t q = file s q)
  /\ match o with
     | Written => file t out = Some code
     | FileExists => file t out = file s out /\ f = false /\ (file s out <> None \/ is_dir s out = true)
     | OtherError => file t out = file s out
     end.
Proof.
  intros split p f w s code states o HS Hw H. destruct (writer_target _ _ _ Hw) as (T & F & n & E).
  pose proof (write_cases _ _ _ _ _ _ _ E H) as C.
  assert (NE : exists t, final states t /\ In t states).
  { assert (states <> []) by (unfold write in H; destruct (mkdir s (output_dir w)); [destruct (_ && _); [|destruct (is_dir _ _)]|]; injection H as <- <-; discriminate).
    destruct (exists_last H0) as (b & t & ->). exists t. split; [now exists b|]. apply in_app_iff. right. now left. }
  destruct o.
  - destruct C as ((t & L & X) & _ & K). exists t, (output_file w). split; [exact L|]. split; [exact T|].
    assert (In t states) by (destruct L as [b ->]; apply in_app_iff; right; now left).
    split; [now apply K|]. now rewrite X, HS.
  - destruct C as (C1 & C2 & K). destruct NE as (t & L & I). exists t, (output_file w). split; [exact L|]. split; [exact T|].
    rewrite (K t I). split; [reflexivity|]. split; [reflexivity|]. split; [congruence|exact C2].
  - destruct NE as (t & L & I). exists t, (output_file w). split; [exact L|]. split; [exact T|]. rewrite (C t I). split; reflexivity.
Qed.
Print Assumptions C160_one_file_is_written.

(** Every path but the empty one has a writer. *)
Theorem C160_every_path : forall p f, (exists w, file_writer p f = Some w) <-> p <> [].
Proof.
  intros p f. split; [|apply writer_some]. intros [w H] ->. discriminate.
Qed.
Print Assumptions C160_every_path.

Definition str (s : string) : list ascii := list_ascii_of_string s.
Definition ex_fs : fs := mkFs (fun q => if same q [str "d"; str "a.py"] then Some (str "old") else None) (fun q => same q [str "d"] || same q []).
Definition one_part (x : list ascii) : list (list ascii) := [x].

(** A package in a directory is written, and a file that exists is kept. *)
Example C160_nonvacuous :
  (exists w, file_writer [str "d"; str "e"] false = Some w /\ snd (write one_part w ex_fs (str "x = 1")) = Written
     /\ output_file w = [str "d"; str "e"; str "__init__.py"])
  /\ exists w, file_writer [str "d"; str "a.py"] false = Some w /\ snd (write one_part w ex_fs (str "x = 1")) = FileExists
     /\ module_name w = str "a".
Proof. split; eexists; (split; [reflexivity|]); split; reflexivity. Qed.

(** ** C161 *)

(** At every time while code is written the file is as before or has a beginning of the code, and all other
    files are as before.
    Missing: that it has the old or the new code, which is false. *)
Theorem C161_interrupted_write_partial : forall split p f w s code states o,
  (forall x, concat (split x) = x) -> file_writer p f = Some w -> write split w s code = (states, o) ->
  exists out, target p out /\ forall t, In t states ->
    (forall q, q <> out -> file t q = file s q)
    /\ (file t out = file s out \/ exists a b, file t out = Some a /\ code = a ++ b).
Proof.
  intros split p f w s code states o HS Hw H. destruct (writer_target _ _ _ Hw) as (T & _ & n & E).
  pose proof (write_cases _ _ _ _ _ _ _ E H) as C. exists (output_file w). split; [exact T|]. intros t Ht. destruct o.
  - destruct C as (_ & _ & K). destruct (K t Ht) as [K1 [K2|[k K2]]]; (split; [exact K1|]); [now left|right].
    exists (concat (firstn k (split code))), (concat (skipn k (split code))). split; [exact K2|].
    rewrite <- concat_app, firstn_skipn. symmetry. apply HS.
  - destruct C as (_ & _ & K). rewrite (K t Ht). split; [reflexivity|now left].
  - rewrite (C t Ht). split; [reflexivity|now left].
Qed.
Print Assumptions C161_interrupted_write_partial.

(** When a file is overwritten there is a time when it is empty: if the process ends then, the old code and the
    new code are lost. *)
Theorem C161_old_code_is_lost_refuted : exists w states,
  file_writer [str "d"; str "a.py"] true = Some w /\ write one_part w ex_fs (str "new") = (states, Written)
  /\ file ex_fs (output_file w) = Some (str "old") /\ exists t, In t states /\ file t (output_file w) = Some [].
Proof.
  eexists. eexists. split; [reflexivity|]. split; [reflexivity|]. split; [reflexivity|].
  eexists. split; [right; right; left; reflexivity|]. reflexivity.
Qed.
Print Assumptions C161_old_code_is_lost_refuted.

(** Writing in two parts shows a beginning of the code. *)
Example C161_nonvacuous : exists w states t,
  file_writer [str "d"; str "a.py"] true = Some w
  /\ write (fun x => [firstn 2 x; skipn 2 x]) w ex_fs (str "new") = (states, Written)
  /\ (forall x : list ascii, concat [firstn 2 x; skipn 2 x] = x)
  /\ In t states /\ file t (output_file w) = Some (str "ne").
Proof.
  do 3 eexists. split; [reflexivity|]. split; [reflexivity|]. split; [|split; [right; right; right; left; reflexivity|reflexivity]].
  intro x. unfold concat. rewrite app_nil_r. apply firstn_skipn.
Qed.
