(** C140 and C141: splitting assignments into their parts. *)
From Coq Require Import List Arith Bool Lia.
From Verif Require Import Prelude NrmModel NrmSpec NrmProofs.
Import ListNotations.

(** Numbers, which cannot be iterated over, tuples and lists. *)
Inductive value := VNum (n : nat) | VSeq (k : kind) (l : list value).
Definition plain : world :=
  mkWorld value (fun v => match v with VNum _ => None | VSeq _ l => Some l end) VSeq (fun _ _ => eq_refl).

Definition seq_of (l : list (bool * expr)) : expr := Seq KTuple (of_list l).
Definition tup (l : list expr) : expr := seq_of (map (fun e => (false, e)) l).

(** [0, *1, (2, 3)] as target, [10, 11, 12, 13] as value; atoms above 9 have values. *)
Definition target1 : expr := seq_of [(false, Atom 0); (true, Atom 1); (false, tup [Atom 2; Atom 3])].
Definition value1 : expr := tup [Atom 10; Atom 11; Atom 12; Atom 13].
Definition env1 (a : nat) : option value :=
  if a =? 13 then Some (VSeq KTuple [VNum 5; VNum 6]) else if 9 <? a then Some (VNum a) else None.

(** ** C140 *)

(** Every variable an assignment binds is a target of one of the parts, and of no other, in the order
    of the source, for targets whose inner displays have no starred element. *)
Theorem C140_no_variable_is_lost_partial : forall (targets : list expr) (v : expr),
  (forall t, In t targets -> outer_stars t) ->
  flat_map part_atoms (normalize targets (Some v)) = flat_map atoms targets.
Proof. exact normalize_atoms. Qed.
Print Assumptions C140_no_variable_is_lost_partial.

Example C140_nonvacuous :
  outer_stars target1 /\ flat_map atoms [target1; Atom 7] = [0; 1; 2; 3; 7]
  /\ length (normalize [target1; Atom 7] (Some value1)) = 4.
Proof.
  repeat split. intros x I. cbn in I. repeat (destruct I as [<-|I]; [cbn; auto|]). destruct I.
Qed.

(** 0, (1, *2) = 10: the starred variable is missing. *)
Theorem C140_nested_star_refuted : exists t v,
  atoms t = [0; 1; 2] /\ flat_map part_atoms (normalize [t] (Some v)) = [0; 1]
  /\ exists g u b, eval plain g v = Some u /\ bind plain t u = Some b /\ In 2 (map fst b).
Proof.
  exists (tup [Atom 0; seq_of [(false, Atom 1); (true, Atom 2)]]), (Atom 10). split; [reflexivity|]. split; [reflexivity|].
  exists (fun _ => Some (VSeq KTuple [VNum 1; VSeq KTuple [VNum 2; VNum 3]])). eexists. eexists.
  split; [reflexivity|]. split; [reflexivity|]. cbn. auto.
Qed.
Print Assumptions C140_nested_star_refuted.

(** ** C141 *)

(** If the assignment succeeds, the bindings Python makes are, in order, those of the parts: a part with
    one target says that Python assigns the value of the part to it, a part with several targets says
    that these are bound. *)
Theorem C141_parts_get_the_right_values_partial :
  forall (w : world) (g : nat -> option (val w)) (targets : list expr) (v : expr) (u : val w) b,
  (forall t, In t targets -> outer_stars t /\ one_star t /\ no_single t) -> unstarred v ->
  eval w g v = Some u -> bind_all w targets u = Some b ->
  exists segments, Forall2 (says w g) (normalize targets (Some v)) segments /\ concat segments = b.
Proof. exact normalize_values. Qed.
Print Assumptions C141_parts_get_the_right_values_partial.

Example C141_nonvacuous :
  outer_stars target1 /\ one_star target1 /\ no_single target1 /\ unstarred value1
  /\ exists u, eval plain env1 value1 = Some u
     /\ bind_all plain [target1; Atom 7] u
        = Some [(0, VNum 10); (1, VSeq KList [VNum 11; VNum 12]); (2, VNum 5); (3, VNum 6); (7, u)]
     /\ normalize [target1; Atom 7] (Some value1)
        = [mkPart [Atom 0] (Atom 10); mkPart [Atom 1] (Seq KList (of_list [(false, Atom 11); (false, Atom 12)]));
           mkPart [Atom 2; Atom 3] (Atom 13); mkPart [Atom 7] value1].
Proof.
  split; [apply C140_nonvacuous|]. split; [cbn; lia|]. split; [cbn; repeat split; lia|]. split; [cbn; tauto|].
  eexists. split; [reflexivity|]. split; reflexivity.
Qed.

(** (0,) = 10: the part says that the variable gets the sequence, not its element. *)
Theorem C141_single_element_refuted : exists (t v : expr) (g : nat -> option value) u b,
  outer_stars t /\ one_star t /\ unstarred v /\ eval plain g v = Some u /\ bind plain t u = Some b
  /\ ~ exists segments, Forall2 (says plain g) (normalize [t] (Some v)) segments /\ concat segments = b.
Proof.
  exists (tup [Atom 0]), (Atom 10), (fun _ => Some (VSeq KTuple [VNum 1])).
  eexists. eexists. split; [|split; [|split; [|split; [reflexivity|split; [reflexivity|]]]]].
  - intros x [<-|[]]. exact I.
  - cbn. lia.
  - exact I.
  - intros (s & F & E). cbn in F. inversion F as [|? b0 ? s0 H F']; subst. inversion F'; subst.
    destruct H as (u & Eu & H). cbn in Eu. injection Eu as <-. cbn in H. injection H as <-. discriminate E.
Qed.
Print Assumptions C141_single_element_refuted.

(** 0, 1 = *10, 11: the part says that the first variable gets the starred sequence. *)
Theorem C141_starred_value_refuted : exists (t v : expr) (g : nat -> option value) u b,
  outer_stars t /\ one_star t /\ no_single t /\ eval plain g v = Some u /\ bind plain t u = Some b
  /\ ~ exists segments, Forall2 (says plain g) (normalize [t] (Some v)) segments /\ concat segments = b.
Proof.
  exists (tup [Atom 0; Atom 1]), (seq_of [(true, Atom 10); (false, Atom 11)]),
    (fun a => Some (if a =? 10 then VSeq KTuple [VNum 1] else VNum 2)).
  eexists. eexists. split; [|split; [|split; [|split; [reflexivity|split; [reflexivity|]]]]].
  - intros x I. cbn in I. repeat (destruct I as [<-|I]; [exact Logic.I|]). destruct I.
  - cbn. lia.
  - cbn. repeat split; lia.
  - intros (s & F & E). cbn in F. inversion F as [|? b0 ? s0 H F']; subst.
    destruct H as (u & Eu & H). cbn in Eu. injection Eu as <-. cbn in H. injection H as <-. discriminate E.
Qed.
Print Assumptions C141_starred_value_refuted.
