(** C164: definitions in source files. *)
From Coq Require Import List Arith Bool Lia.
From Verif Require Import Prelude MemModel MemSpec MemProofs.
Import ListNotations.

(** ** C164 *)

(** In a module without conditions, in which no class is followed by another definition of its name, a dotted
    name has the source of the definition that it refers to when the module is executed, and no source exactly if
    it refers to none. Functions may be defined several times, as for overloads: the last one is found.
    Missing: conditions and classes that are defined again, for which it is false. Assignments are not
    modelled. *)
Theorem C164_source_of_a_name_partial : forall taken module_id m p, plain m -> p <> [] ->
  member module_id m p = refers (run taken m) p.
Proof.
  intros taken module_id m p H N. unfold member, run. cbn [get].
  rewrite (members_run taken m H p). destruct (refers _ p); [reflexivity|].
  destruct p; [congruence|reflexivity].
Qed.
Print Assumptions C164_source_of_a_name_partial.

(** The empty name is the module, in every module. *)
Theorem C164_module : forall module_id m, member module_id m [] = Some module_id.
Proof. intros. unfold member. cbn [get]. now rewrite list_nonempty. Qed.
Print Assumptions C164_module.

(** Of two definitions in the parts of a condition the second is taken, also if the first is executed. *)
Theorem C164_condition_refuted : exists m, exists taken, member 0 m [5] = Some 2 /\ refers (run taken m) [5] = Some 1.
Proof. exists [If 9 [Def 5 1 []] [Def 5 2 []]], (fun _ => true). split; reflexivity. Qed.
Print Assumptions C164_condition_refuted.

(** A method of a class that is defined again without it still has a source. *)
Theorem C164_class_again_refuted : exists m, exists taken, member 0 m [5; 6] = Some 2 /\ refers (run taken m) [5; 6] = None.
Proof. exists [Class 5 1 [Def 6 2 []]; Class 5 3 []], (fun _ => true). split; reflexivity. Qed.
Print Assumptions C164_class_again_refuted.

(** Nested classes, and a method that is defined twice; the function in a function is no member. *)
Example C164_nonvacuous :
  let m := [Other; Def 4 1 [Def 9 2 []]; Class 5 3 [Def 6 4 []; Class 7 5 [Def 6 6 []]; Def 6 8 []]] in
  plain m /\ member 0 m [5; 7; 6] = Some 6 /\ member 0 m [4; 9] = None /\ member 0 m [5; 6] = Some 8.
Proof.
  split; [|repeat split].
  assert (NC : forall l, (forall n i body, ~ In (Class n i body) l) -> (forall c a b, ~ In (If c a b) l) -> plain l).
  { intros l H I. constructor; [|exact I|intros n i body X; now apply H in X].
    intros bf n i body af ->. exfalso. apply (H n i body). apply in_app_iff. right. now left. }
  constructor.
  - intros bf n i body af E. destruct bf as [|x [|y [|z [|w bf]]]]; cbn in E; try discriminate.
    injection E as _ _ _ _ _ <-. intros [].
  - intros c a b H. cbn in H. intuition discriminate.
  - intros n i body [H|[H|[H|[]]]]; try discriminate. injection H as <- <- <-. constructor.
    + intros bf n i body af E. destruct bf as [|x [|y [|z [|w bf]]]]; cbn in E; try discriminate.
      injection E as _ <- _ _ <-. cbn. intuition discriminate.
    + intros c a b H. cbn in H. intuition discriminate.
    + intros n i body [H|[H|[H|[]]]]; try discriminate. injection H as <- <- <-.
      apply NC; intros; cbn; intuition discriminate.
Qed.
