(** Properties C135 to C137: quantizers of attributes in functions with branches and loops. *)
From Coq Require Import List Arith Bool Lia.
From Verif Require Import Prelude NlbModel NlbSpec NlbInsertProofs NlbSemProofs NlbProofs.
Import ListNotations.

(** ** C135 *)

(** In a function without [elif], every occurrence that wants a quantized value is listed in an
    annotation for its expression, at a block that contains the occurrence.
    Missing: functions with [elif]; see C135_elif_refuted. *)
Theorem C135_every_use_gets_a_quantizer_partial : forall f, no_elif_block f = true ->
  forall u e, In (u, e) (uses_block f) ->
  exists B a, In B (blocks f) /\ In (u, e) (uses_block B)
    /\ In (block_id B, a) (annotate f) /\ an_expr a = e /\ In u (an_uses a).
Proof. exact covered_raw. Qed.
Print Assumptions C135_every_use_gets_a_quantizer_partial.

(** An annotation lists only occurrences of its own expression, in every function. *)
Theorem C135_annotations_list_their_uses : forall f i a u, In (i, a) (annotate f) ->
  In u (an_uses a) -> In (u, an_expr a) (uses_block f).
Proof. exact annotations_are_uses. Qed.
Print Assumptions C135_annotations_list_their_uses.

(** In every function, two annotations share a quantizer exactly if they are for the same expression,
    and the quantizers are numbered from 0 without gaps. *)
Theorem C135_one_quantizer_per_expression : forall f,
  (forall i a j b, In (i, a) (annotate f) -> In (j, b) (annotate f) ->
     (an_id a = an_id b <-> an_expr a = an_expr b))
  /\ (forall q i a, In (i, a) (annotate f) -> q <= an_id a ->
        exists j b, In (j, b) (annotate f) /\ an_id b = q).
Proof. exact ids_spec. Qed.
Print Assumptions C135_one_quantizer_per_expression.

(** An expression that occurs in all outermost branches of a function without [elif] is quantized once
    at the top of the function: all these occurrences are listed there. *)
Theorem C135_shared_by_all_branches : forall f e, no_elif_block f = true ->
  (forall k, In k (branches_block f) -> exists u, In (u, e) (direct_block k)) ->
  forall k u, k = f \/ In k (branches_block f) -> In (u, e) (direct_block k) ->
  exists a, In (block_id f, a) (annotate f) /\ an_expr a = e /\ In u (an_uses a).
Proof. exact shared_at_function. Qed.
Print Assumptions C135_shared_by_all_branches.

(** [if a: y = 0 / elif b: y = f(self.w) / else: y = f(self.w)]: the second occurrence of [self.w] is
    listed only at the block of the [elif], which does not contain it. *)
Definition elif_fn : block :=
  Blk 0 [SIf (0, [AName 5]) (Blk 1 [SAsg 7 (0, [])])
           (OElif (0, [AName 6]) (Blk 2 [SAsg 7 (1, [AUse 1 (4, 9)])])
              (OElse (Blk 3 [SAsg 7 (1, [AUse 2 (4, 9)])])))].

Theorem C135_elif_refuted : exists f u e, distinct_blocks f /\ In (u, e) (uses_block f)
  /\ forall B a, In B (blocks f) -> In (block_id B, a) (annotate f) -> In u (an_uses a) ->
       ~ In (u, e) (uses_block B).
Proof.
  exists elif_fn, 2, (4, 9). split; [|split].
  - unfold distinct_blocks. cbn. repeat (constructor; [cbn; intuition discriminate|]). constructor.
  - cbn. auto.
  - intros B a HB Ha Hu. cbn in HB. vm_compute in Ha.
    destruct Ha as [E|[]]. injection E as E1 E2. subst a.
    destruct HB as [<-|[<-|[<-|[<-|[]]]]]; cbn in E1; try discriminate. cbn. intros [K|[]]. discriminate.
Qed.
Print Assumptions C135_elif_refuted.

(** [y = f(self.w); if a: z = f(self.w); z = f(self.b) else: z = g(self.w)] with a loop around another
    use: everything about [self.w] goes to the function, [self.b] stays in its branch. *)
Definition branchy : block :=
  Blk 0 [SDoc;
         SFor 10 (0, [AName 5]) (Blk 1 [SAsg 7 (1, [AUse 1 (4, 9)])]);
         SIf (0, [AName 6])
           (Blk 2 [SAsg 8 (1, [AUse 2 (4, 9); AUse 3 (4, 3)])])
           (OElse (Blk 3 [SAsg 8 (2, [AUse 4 (4, 9)])]))].

Example C135_nonvacuous :
  no_elif_block branchy = true
  /\ annotate branchy = [(2, mkAnn (4, 3) 0 [3]); (0, mkAnn (4, 9) 1 [1; 1; 2; 4])]
  /\ (forall k, In k (branches_block branchy) -> exists u, In (u, (4, 9)) (direct_block k)).
Proof.
  split; [reflexivity|]. split; [vm_compute; reflexivity|].
  intros k Hk. cbn in Hk. destruct Hk as [<-|[<-|[]]]; [exists 2|exists 4]; cbn; auto.
Qed.

(** ** C136 *)

(** Statements are inserted right before the first statement that mentions the name they assign, but
    not before a docstring, or at the end if there is none; the statements of the block keep their
    order, the inserted ones are there once, and those at the same place keep their order. *)
Theorem C136_inserted_right_before_first_use : forall (A : Type) (load : A -> list nat) doc body
    (new : list (nat * A)), body <> [] ->
  exists at_ : nat -> nat,
    (forall t, goes_to load doc body t (at_ t))
    /\ insert_statements load doc body new
       = weave (fun i => map snd (filter (fun p => at_ (fst p) =? i) new)) 0 body.
Proof. exact insert_spec. Qed.
Print Assumptions C136_inserted_right_before_first_use.

Example C136_nonvacuous :
  insert_statements loads true [SDoc; SAsg 1 (0, [AName 2]); SAsg 3 (0, [AName 50; AName 51])]
    [(51, SQuant 51 0 (4, 1)); (50, SQuant 50 1 (4, 2)); (60, SQuant 60 2 (4, 3)); (2, SQuant 2 3 (4, 4))]
  = [SDoc; SQuant 2 3 (4, 4); SAsg 1 (0, [AName 2]); SQuant 51 0 (4, 1); SQuant 50 1 (4, 2);
     SAsg 3 (0, [AName 50; AName 51]); SQuant 60 2 (4, 3)].
Proof. vm_compute. reflexivity. Qed.

(** ** C137 *)

(** The rewritten function computes what the original does with each wanted expression replaced by its
    quantized value, one quantizer for each expression: both raise, or both end with the same values of
    all variables but the new ones. This is for functions without [elif], new variable names, and
    expressions that can be read at the start of the function and whose variable is never assigned.
    Missing: each of these conditions is needed, see the theorems below. *)
Theorem C137_rewritten_function_means_the_same_partial : forall f ident,
  distinct_blocks f -> no_elif_block f = true -> new_names ident f -> fixed_bases f ->
  exists number : expr -> nat,
    (forall u u' e e', In (u, e) (uses_block f) -> In (u', e') (uses_block f) ->
       number e = number e' -> e = e')
    /\ forall (w : world) (qz : nat -> val w -> val w) (g : env w), available w g f ->
       same_outcome (made ident f)
         (run_block w qz (fun e => qz (number e)) f g)
         (run_block w qz (fun _ v => v) (rewrite ident f) g).
Proof. exact rewrite_meaning. Qed.
Print Assumptions C137_rewritten_function_means_the_same_partial.

(** A world of numbers: 0 has no attributes and is false. *)
Definition nums : world :=
  mkWorld nat (fun v a => if v =? 0 then None else Some (10 * v + a))
    (fun f vs => Some (f + list_sum vs)) (fun v => negb (v =? 0)) (fun v => [v; 1]).
Definition start (l : list (nat * nat)) : env nums :=
  fun x => match find (fun p => fst p =? x) l with Some p => Some (snd p) | None => None end.
Definition joined (e : expr) : nat := 1000 + 20 * fst e + snd e.

Example C137_nonvacuous :
  distinct_blocks branchy /\ no_elif_block branchy = true /\ new_names joined branchy
  /\ fixed_bases branchy /\ available nums (start [(4, 2); (5, 1); (6, 1)]) branchy
  /\ rewrite joined branchy
     = Blk 0 [SDoc; SQuant 1089 1 (4, 9);
              SFor 10 (0, [AName 5]) (Blk 1 [SAsg 7 (1, [AName 1089])]);
              SIf (0, [AName 6])
                (Blk 2 [SQuant 1083 0 (4, 3); SAsg 8 (1, [AName 1089; AName 1083])])
                (OElse (Blk 3 [SAsg 8 (2, [AName 1089])]))].
Proof.
  assert (U : forall u e, In (u, e) (uses_block branchy) -> e = (4, 9) \/ e = (4, 3)).
  { intros u e H. cbn in H. repeat (destruct H as [H|H]; [injection H as <- <-; auto|]). destruct H. }
  split; [|split; [|split; [|split; [|split]]]].
  - unfold distinct_blocks. cbn. repeat (constructor; [cbn; intuition discriminate|]). constructor.
  - reflexivity.
  - split.
    + intros u u' e e' H H' E. apply U in H, H'. destruct H as [-> | ->], H' as [-> | ->]; cbn in E; auto; discriminate.
    + intros u e H. apply U in H. destruct H as [-> | ->]; vm_compute; intuition discriminate.
  - intros u e H. apply U in H. destruct H as [-> | ->]; vm_compute; intuition discriminate.
  - intros u e H. apply U in H. destruct H as [-> | ->]; vm_compute; eauto.
  - vm_compute. reflexivity.
Qed.

(** The quantizers of the witnesses change nothing. *)
Definition unchanged (q : nat) (v : nat) : nat := v.

(** With [elif], the else branch reads a variable that is never assigned. *)
Theorem C137_elif_refuted : exists f g,
  distinct_blocks f /\ new_names joined f /\ fixed_bases f /\ available nums g f
  /\ ~ same_outcome (made joined f)
         (run_block nums unchanged (fun _ v => v) f g)
         (run_block nums unchanged (fun _ v => v) (rewrite joined f) g).
Proof.
  exists elif_fn, (start [(4, 2); (5, 0); (6, 0)]).
  assert (U : forall u e, In (u, e) (uses_block elif_fn) -> e = (4, 9)).
  { intros u e H. cbn in H. repeat (destruct H as [H|H]; [injection H as <- <-; auto|]). destruct H. }
  split; [|split; [|split; [|split]]].
  - unfold distinct_blocks. cbn. repeat (constructor; [cbn; intuition discriminate|]). constructor.
  - split.
    + intros u u' e e' H H' _. apply U in H, H'. congruence.
    + intros u e H. apply U in H. subst. vm_compute. intuition discriminate.
  - intros u e H. apply U in H. subst. vm_compute. intuition discriminate.
  - intros u e H. apply U in H. subst. vm_compute. eauto.
  - intros H. vm_compute in H. exact H.
Qed.
Print Assumptions C137_elif_refuted.

(** [if a: y = f(self.w)]: the expression is quantized before the conditional, so that it is read even
    if the branch is not taken. A function that checks whether it can be read now fails. *)
Theorem C137_guarded_attribute_refuted : exists f g,
  distinct_blocks f /\ no_elif_block f = true /\ new_names joined f /\ fixed_bases f
  /\ ~ same_outcome (made joined f)
         (run_block nums unchanged (fun _ v => v) f g)
         (run_block nums unchanged (fun _ v => v) (rewrite joined f) g).
Proof.
  exists (Blk 0 [SIf (0, [AName 4]) (Blk 1 [SAsg 7 (1, [AUse 1 (4, 9)])]) ONone]), (start [(4, 0)]).
  split; [|split; [|split; [|split]]].
  - unfold distinct_blocks. cbn. repeat (constructor; [cbn; intuition discriminate|]). constructor.
  - reflexivity.
  - split.
    + intros u u' e e' [H|[]] [H'|[]] _. congruence.
    + intros u e [H|[]]. injection H as <- <-. vm_compute. intuition discriminate.
  - intros u e [H|[]]. injection H as <- <-. vm_compute. intuition discriminate.
  - intros H. vm_compute in H. exact H.
Qed.
Print Assumptions C137_guarded_attribute_refuted.

(** [y = f(a.w); a = b; z = f(a.w)]: the second occurrence gets the quantized value of the first. *)
Theorem C137_reassigned_variable_refuted : exists f g,
  distinct_blocks f /\ no_elif_block f = true /\ new_names joined f /\ available nums g f
  /\ ~ same_outcome (made joined f)
         (run_block nums unchanged (fun _ v => v) f g)
         (run_block nums unchanged (fun _ v => v) (rewrite joined f) g).
Proof.
  exists (Blk 0 [SAsg 7 (0, [AUse 1 (4, 9)]); SAsg 4 (0, [AName 5]); SAsg 8 (0, [AUse 2 (4, 9)])]),
    (start [(4, 2); (5, 3)]).
  split; [|split; [|split; [|split]]].
  - unfold distinct_blocks. cbn. repeat (constructor; [cbn; intuition discriminate|]). constructor.
  - reflexivity.
  - split.
    + intros u u' e e' [H|[H|[]]] [H'|[H'|[]]] _; congruence.
    + intros u e [H|[H|[]]]; injection H as <- <-; vm_compute; intuition discriminate.
  - intros u e [H|[H|[]]]; injection H as <- <-; vm_compute; eauto.
  - intros H. cbn [same_outcome run_block] in H. specialize (H 8). vm_compute in H.
    enough (F : Some 39 = Some 29) by discriminate F. apply H.
    intros (u & e & [E|[E|[]]] & K'); injection E as <- <-; discriminate K'.
Qed.
Print Assumptions C137_reassigned_variable_refuted.

(** [for a in l: y = f(a.w)]: the attribute of the loop variable is read before the loop, where the
    variable has no value yet. *)
Theorem C137_loop_variable_refuted : exists f g,
  distinct_blocks f /\ no_elif_block f = true /\ new_names joined f
  /\ run_block nums unchanged (fun _ v => v) f g <> None
  /\ run_block nums unchanged (fun _ v => v) (rewrite joined f) g = None.
Proof.
  exists (Blk 0 [SFor 10 (0, [AName 5]) (Blk 1 [SAsg 7 (0, [AUse 1 (10, 9)])])]), (start [(5, 3)]).
  split; [|split; [|split; [|split]]].
  - unfold distinct_blocks. cbn. repeat (constructor; [cbn; intuition discriminate|]). constructor.
  - reflexivity.
  - split.
    + intros u u' e e' [H|[]] [H'|[]] _. congruence.
    + intros u e [H|[]]. injection H as <- <-. vm_compute. intuition discriminate.
  - vm_compute. discriminate.
  - vm_compute. reflexivity.
Qed.
Print Assumptions C137_loop_variable_refuted.

(** [y = f(self.a, self.b)] where both attributes give the same new name, as [self.a.b] and [self.a_b]
    do: both arguments get the value that is quantized last. *)
Theorem C137_name_collision_refuted : exists f ident g,
  distinct_blocks f /\ no_elif_block f = true /\ fixed_bases f /\ available nums g f
  /\ (forall u e, In (u, e) (uses_block f) ->
        ~ In (ident e) (loads_block f) /\ ~ In (ident e) (stores_block f))
  /\ ~ same_outcome (made ident f)
         (run_block nums unchanged (fun _ v => v) f g)
         (run_block nums unchanged (fun _ v => v) (rewrite ident f) g).
Proof.
  exists (Blk 0 [SAsg 7 (0, [AUse 1 (4, 1); AUse 2 (4, 2)])]), (fun _ => 1000), (start [(4, 2)]).
  split; [|split; [|split; [|split; [|split]]]].
  - unfold distinct_blocks. cbn. repeat (constructor; [cbn; intuition discriminate|]). constructor.
  - reflexivity.
  - intros u e [H|[H|[]]]; injection H as <- <-; vm_compute; intuition discriminate.
  - intros u e [H|[H|[]]]; injection H as <- <-; vm_compute; eauto.
  - intros u e [H|[H|[]]]; injection H as <- <-; vm_compute; intuition discriminate.
  - intros H. vm_compute in H. specialize (H 7).
    enough (F : Some 43 = Some 44) by discriminate F. apply H.
    intros (u & e & [E|[E|[]]] & K'); discriminate K'.
Qed.
Print Assumptions C137_name_collision_refuted.
