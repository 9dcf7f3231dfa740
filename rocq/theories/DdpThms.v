(** C138 and C139: sharing of repeated quantizer calls. *)
From Coq Require Import List Arith Bool Lia.
From Verif Require Import Prelude DdpModel DdpSpec DdpProofs DdpSimProofs DdpShareProofs.
Import ListNotations.

(** A world of numbers: operator 0 adds, the others raise; quantizer q multiplies by q + 2 and raises
    for 7; zero is false; a loop over n sees 0 to n - 1. *)
Definition numbers : world :=
  mkWorld nat
    (fun f a b => if f =? 0 then Some (a + b) else None)
    (fun q v => if v =? 7 then None else Some (v * (q + 2)))
    (fun v => negb (v =? 0)) (fun v => seq 0 v).

Definition given (l : list (nat * nat)) : env numbers :=
  fun x => match x with
           | User n => match find (fun p => fst p =? n) l with Some p => Some (snd p) | None => None end
           | Tmp _ => None
           end.

Definition V n := EVar (User n).
Definition block_of (l : list stmt) : block := of_list l.

(** y = q0(x) + x, a conditional and a loop with repeated calls of their own, z = q0(x) + y *)
Definition example : block := block_of [
  SAsg (User 1) (EOp 0 (EQuant 0 (V 0)) (V 0));
  SIf (EQuant 0 (V 0))
    (block_of [SAsg (User 2) (EOp 0 (EQuant 1 (V 1)) (EQuant 1 (V 1)))])
    (OElse (block_of [SAsg (User 2) (EQuant 0 (V 0))]));
  SFor (User 5) (V 0)
    (block_of [SAsg (User 4) (EOp 0 (EQuant 1 (V 5)) (EQuant 1 (V 5)))]);
  SAsg (User 3) (EOp 0 (EQuant 0 (V 0)) (V 1))].

Example shared_example : share_calls example = block_of [
  SAsg (Tmp 2) (EQuant 0 (V 0));
  SAsg (User 1) (EOp 0 (EVar (Tmp 2)) (V 0));
  SIf (EVar (Tmp 2))
    (block_of [SAsg (Tmp 1) (EQuant 1 (V 1)); SAsg (User 2) (EOp 0 (EVar (Tmp 1)) (EVar (Tmp 1)))])
    (OElse (block_of [SAsg (User 2) (EQuant 0 (V 0))]));
  SFor (User 5) (V 0)
    (block_of [SAsg (Tmp 1) (EQuant 1 (V 5)); SAsg (User 4) (EOp 0 (EVar (Tmp 1)) (EVar (Tmp 1)))]);
  SAsg (User 3) (EOp 0 (EVar (Tmp 2)) (V 1))].
Proof. vm_compute. reflexivity. Qed.

(** ** C138 *)

(** Computing a repeated quantizer call once changes nothing that can be observed in the variables of
    the function, for all operators, quantizers and initial variables, as long as nothing a repeated
    call reads is assigned in between, no call is made only under a condition, and no variable of the
    function is called [_tmp_n]. Not covered: quantizer calls inside the argument of another one, and
    quantizers whose calls have effects. *)
Theorem C138_sharing_keeps_the_meaning_partial : forall (w : world) (f : block) (g : env w),
  no_temporaries f -> flat f -> stable f -> strict f ->
  same_outcome w (run w f g) (run w (share_calls f) g).
Proof. exact share_same. Qed.
Print Assumptions C138_sharing_keeps_the_meaning_partial.

Example C138_nonvacuous :
  no_temporaries example /\ flat example /\ stable example /\ strict example
  /\ share_calls example <> example
  /\ match run numbers example (given [(0, 3); (1, 4)]) with
     | Some h => h (User 1) = Some 9 /\ h (User 2) = Some 54 /\ h (User 3) = Some 15 /\ h (User 4) = Some 12
     | None => False
     end
  /\ run numbers example (given [(0, 7); (1, 4)]) = None.
Proof.
  assert (forall b s, In b (blocks example) -> In s (to_list b) ->
            (forall x, In x (assigned s) -> user_name x)
            /\ (forall e x, In e (own_exprs s) -> In x (vars e) -> user_name x)) as H1.
  { intros b s I J. cbn in I.
    repeat (destruct I as [<-|I]; [cbn in J; repeat (destruct J as [<-|J]; [split;
      [cbn; intros x K; repeat (destruct K as [<-|K]; [exact Logic.I|]); destruct K
      |intros e x K L; cbn in K; repeat (destruct K as [<-|K]; [cbn in L; repeat (destruct L as [<-|L]; [exact Logic.I|]); destruct L|]); destruct K]|]);
      destruct J|]).
    destruct I. }
  split; [exact H1|]. split; [|split; [|split; [|split; [|split]]]].
  - intros b c I J. cbn in I.
    repeat (destruct I as [<-|I]; [cbn in J; repeat (destruct J as [<-|J]; [reflexivity|]); destruct J|]).
    destruct I.
  - intros b pre s1 mid s2 post c x I E K1 _ Ix Ia. apply in_flat_map in Ia. destruct Ia as (s & Is & Ia).
    assert (In c (calls_of b)) as Ic.
    { unfold calls_of. apply in_flat_map. exists s1. split; [rewrite E; apply in_or_app; right; left; reflexivity|exact K1]. }
    assert (In s (to_list b)) as Isb.
    { rewrite E. apply in_or_app. right. destruct Is as [<-|Is]; [left; reflexivity|right; apply in_or_app; left; exact Is]. }
    assert (In x (flat_map assigned (to_list b))) as Ixb by (apply in_flat_map; exists s; auto).
    clear - I Ic Ix Ixb. cbn in I.
    repeat (destruct I as [<-|I]; [cbn in Ic; repeat (destruct Ic as [<-|Ic]; [cbn in Ix; repeat (destruct Ix as [<-|Ix];
      [cbn in Ixb; repeat (destruct Ixb as [Ixb|Ixb]; [discriminate Ixb|]); destruct Ixb|]); destruct Ix|]); destruct Ic|]).
    destruct I.
  - intros b s I J. cbn in I.
    repeat (destruct I as [<-|I]; [cbn in J; repeat (destruct J as [<-|J]; [split; [cbn; tauto|intros e []]|]); destruct J|]).
    destruct I.
  - rewrite shared_example. discriminate.
  - vm_compute. repeat split.
  - vm_compute. reflexivity.
Qed.

(** y = q0(x); x = x + x; z = q0(x): the second call gets the value of the first. *)
Theorem C138_assigned_in_between_refuted : exists (f : block) (g : env numbers),
  no_temporaries f /\ flat f /\ strict f /\ ~ same_outcome numbers (run numbers f g) (run numbers (share_calls f) g).
Proof.
  exists (block_of [SAsg (User 1) (EQuant 0 (V 0)); SAsg (User 0) (EOp 0 (V 0) (V 0)); SAsg (User 2) (EQuant 0 (V 0))]),
    (given [(0, 1)]).
  split; [|split; [|split]].
  - intros b s H H0. cbn in H. split.
    + intros x K. repeat (destruct H as [<-|H]; [cbn in H0; repeat (destruct H0 as [<-|H0];
        [cbn in K; repeat (destruct K as [<-|K]; [exact I|]); destruct K|]); destruct H0|]). destruct H.
    + intros e x K L. repeat (destruct H as [<-|H]; [cbn in H0; repeat (destruct H0 as [<-|H0];
        [cbn in K; repeat (destruct K as [<-|K]; [cbn in L; repeat (destruct L as [<-|L]; [exact I|]); destruct L|]); destruct K|]);
        destruct H0|]). destruct H.
  - intros b c H J. cbn in H.
    repeat (destruct H as [<-|H]; [cbn in J; repeat (destruct J as [<-|J]; [reflexivity|]); destruct J|]). destruct H.
  - intros b s H H0. cbn in H.
    repeat (destruct H as [<-|H]; [cbn in H0; repeat (destruct H0 as [<-|H0]; [split; [cbn; tauto|intros e []]|]); destruct H0|]).
    destruct H.
  - intros H. vm_compute in H. specialize (H 2). discriminate H.
Qed.
Print Assumptions C138_assigned_in_between_refuted.

(** z = (q0(x) + q0(x)) if c else c with no x: the call is made although the condition is false. *)
Theorem C138_conditional_expression_refuted : exists (f : block) (g : env numbers),
  no_temporaries f /\ flat f /\ stable f /\ ~ same_outcome numbers (run numbers f g) (run numbers (share_calls f) g).
Proof.
  exists (block_of [SAsg (User 1) (ECond (EOp 0 (EQuant 0 (V 0)) (EQuant 0 (V 0))) (V 2) (V 2))]), (given [(2, 0)]).
  split; [|split; [|split]].
  - intros b s H H0. cbn in H. split.
    + intros x K. repeat (destruct H as [<-|H]; [cbn in H0; repeat (destruct H0 as [<-|H0];
        [cbn in K; repeat (destruct K as [<-|K]; [exact I|]); destruct K|]); destruct H0|]). destruct H.
    + intros e x K L. repeat (destruct H as [<-|H]; [cbn in H0; repeat (destruct H0 as [<-|H0];
        [cbn in K; repeat (destruct K as [<-|K]; [cbn in L; repeat (destruct L as [<-|L]; [exact I|]); destruct L|]); destruct K|]);
        destruct H0|]). destruct H.
  - intros b c H J. cbn in H.
    repeat (destruct H as [<-|H]; [cbn in J; repeat (destruct J as [<-|J]; [reflexivity|]); destruct J|]). destruct H.
  - intros b pre s1 mid s2 post c x [<-|[]] E _ _ _ _. apply (f_equal (@length stmt)) in E. cbn in E.
    rewrite app_length in E. cbn in E. rewrite app_length in E. cbn in E. lia.
  - intros H. vm_compute in H. exact H.
Qed.
Print Assumptions C138_conditional_expression_refuted.

(** if c: z = c elif q0(x) + q0(x): z = c: the calls in the second test are made before the first. *)
Theorem C138_elif_refuted : exists (f : block) (g : env numbers),
  no_temporaries f /\ flat f /\ stable f
  /\ (forall b s, In b (blocks f) -> In s (to_list b) -> forall e, In e (own_exprs s) -> unconditional e)
  /\ ~ same_outcome numbers (run numbers f g) (run numbers (share_calls f) g).
Proof.
  exists (block_of [SIf (V 2) (block_of [SAsg (User 1) (V 2)])
    (OElif (EOp 0 (EQuant 0 (V 0)) (EQuant 0 (V 0))) (block_of [SAsg (User 1) (V 2)]) ONone)]), (given [(2, 1)]).
  split; [|split; [|split; [|split]]].
  - intros b s H H0. cbn in H. split.
    + intros x K. repeat (destruct H as [<-|H]; [cbn in H0; repeat (destruct H0 as [<-|H0];
        [cbn in K; repeat (destruct K as [<-|K]; [exact I|]); destruct K|]); destruct H0|]). destruct H.
    + intros e x K L. repeat (destruct H as [<-|H]; [cbn in H0; repeat (destruct H0 as [<-|H0];
        [cbn in K; repeat (destruct K as [<-|K]; [cbn in L; repeat (destruct L as [<-|L]; [exact I|]); destruct L|]); destruct K|]);
        destruct H0|]). destruct H.
  - intros b c H J. cbn in H.
    repeat (destruct H as [<-|H]; [cbn in J; repeat (destruct J as [<-|J]; [reflexivity|]); destruct J|]). destruct H.
  - intros b pre s1 mid s2 post c x H E _ _ _ _. cbn in H. apply (f_equal (@length stmt)) in E.
    rewrite app_length in E. cbn in E. rewrite app_length in E. cbn in E.
    repeat (destruct H as [<-|H]; [cbn in E; lia|]). destruct H.
  - intros b s H H0 e K. cbn in H.
    repeat (destruct H as [<-|H]; [cbn in H0; repeat (destruct H0 as [<-|H0];
        [cbn in K; repeat (destruct K as [<-|K]; [cbn; tauto|]); destruct K|]); destruct H0|]). destruct H.
  - intros H. vm_compute in H. exact H.
Qed.
Print Assumptions C138_elif_refuted.

(** _tmp_1 = a; if c: y = q0(x) + q0(x); z = _tmp_1: names are looked for in the inner block only, so
    its shared variable overwrites the variable of the outer block. *)
Theorem C138_name_of_outer_block_refuted : exists (f : block) (g : env numbers),
  flat f /\ stable f /\ strict f /\ ~ same_outcome numbers (run numbers f g) (run numbers (share_calls f) g).
Proof.
  exists (block_of [SAsg (Tmp 1) (V 0);
                    SIf (V 0) (block_of [SAsg (User 1) (EOp 0 (EQuant 0 (V 0)) (EQuant 0 (V 0)))]) ONone;
                    SAsg (User 2) (EVar (Tmp 1))]), (given [(0, 1)]).
  split; [|split; [|split]].
  - intros b c H J. cbn in H.
    repeat (destruct H as [<-|H]; [cbn in J; repeat (destruct J as [<-|J]; [reflexivity|]); destruct J|]). destruct H.
  - intros b pre s1 mid s2 post c x H E K _ _ _. cbn in H.
    destruct H as [<-|[<-|[]]].
    + assert (In s1 (pre ++ s1 :: mid ++ s2 :: post)) as J by (apply in_or_app; right; left; reflexivity).
      rewrite <- E in J.
      cbn in J. repeat (destruct J as [<-|J]; [destruct K|]). destruct J.
    + apply (f_equal (@length stmt)) in E. rewrite app_length in E. cbn in E. rewrite app_length in E. cbn in E. lia.
  - intros b s H H0. cbn in H.
    repeat (destruct H as [<-|H]; [cbn in H0; repeat (destruct H0 as [<-|H0]; [split; [cbn; tauto|intros e []]|]); destruct H0|]).
    destruct H.
  - intros H. vm_compute in H. specialize (H 2). discriminate H.
Qed.
Print Assumptions C138_name_of_outer_block_refuted.

(** ** C139 *)

(** Afterwards, no block makes a quantizer call twice outside of its inner blocks, and every block
    makes exactly the calls it made before; for functions in which no argument of a quantizer call
    contains a quantizer call. *)
Theorem C139_every_call_is_made_once_partial : forall f : block,
  flat f ->
  Forall2 (fun b b' => NoDup (calls_of b') /\ forall c, In c (calls_of b') <-> In c (calls_of b))
    (blocks f) (blocks (share_calls f)).
Proof. exact share_calls_once. Qed.
Print Assumptions C139_every_call_is_made_once_partial.

(** A function without repeated calls is left as it is. *)
Theorem C139_nothing_repeated_nothing_changed : forall f : block,
  (forall b, In b (blocks f) -> NoDup (calls_of b)) -> share_calls f = f.
Proof. exact share_unchanged. Qed.
Print Assumptions C139_nothing_repeated_nothing_changed.

(** Doing it twice is doing it once. *)
Theorem C139_sharing_again_changes_nothing : forall f : block,
  flat f -> share_calls (share_calls f) = share_calls f.
Proof. exact share_idempotent. Qed.
Print Assumptions C139_sharing_again_changes_nothing.

Example C139_nonvacuous :
  flat example /\ ~ NoDup (calls_of example) /\ length (calls_of (share_calls example)) = 1.
Proof.
  split; [apply C138_nonvacuous|]. split; [|reflexivity]. cbn. intros H. inversion H as [|? ? N _]. apply N. left. reflexivity.
Qed.

(** y = q0(q1(x)); z = q0(q1(x)): the shared variable is assigned the original call, and a second one
    that nobody reads is assigned the inner call, which is now made twice. *)
Theorem C139_nested_calls_refuted : exists f : block,
  ~ NoDup (calls_of (share_calls f))
  /\ share_calls f = block_of [
       SAsg (Tmp 1) (EQuant 0 (EQuant 1 (V 0))); SAsg (Tmp 2) (EQuant 1 (V 0));
       SAsg (User 1) (EVar (Tmp 1)); SAsg (User 2) (EVar (Tmp 1))].
Proof.
  exists (block_of [SAsg (User 1) (EQuant 0 (EQuant 1 (V 0))); SAsg (User 2) (EQuant 0 (EQuant 1 (V 0)))]).
  split; [|vm_compute; reflexivity]. vm_compute. intros H. inversion H as [|? ? _ H1]. inversion H1 as [|? ? N _].
  apply N. left. reflexivity.
Qed.
Print Assumptions C139_nested_calls_refuted.
