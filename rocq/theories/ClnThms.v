(** C142 to C144: removing quantizer artifacts from captured graphs. *)
From Coq Require Import List Arith Bool Lia.
From Verif Require Import Prelude ClnModel ClnSpec ClnProofs ClnRunProofs.
Import ListNotations.

(** Function 9 has side effects, no module has. *)
Definition some_effects : purity := mkPurity (fun f => f =? 9) (fun _ => false).
(** Numbers; functions add their arguments, calling module 7 fails, the value of a module is the number
    of modules in it. *)
Definition numbers : meaning :=
  mkMeaning nat (fun f l => Some (f + fold_right plus 0 l))
    (fun p subs l => match p with [7] => None | _ => Some (length subs + fold_right plus 0 l) end)
    (fun p => length p) (fun p subs => length subs).

(** x; weight 1.2; an unused scale 1.3.4 of the quantizer 1.3; unused code that reads it; a call with
    side effects; output. *)
Definition captured : gmodule :=
  mkGM [mkNode 0 Placeholder []; mkNode 1 (GetAttr [1; 2]) []; mkNode 2 (GetAttr [1; 3; 4]) [];
        mkNode 3 (CallFunction 5) [2; 0]; mkNode 4 (GetAttr [1; 3; 4]) []; mkNode 5 (CallFunction 1) [0; 1];
        mkNode 6 (CallFunction 9) [5]; mkNode 7 Output [5]]
       [[1]; [1; 3]; [6]] [[1; 2]; [1; 3; 4]].
Definition source1 : list (path * bool) := [([], false); ([1], false); ([1; 3], true); ([6], false)].

Ltac inside_cases :=
  repeat match goal with
         | H : inside _ _ |- _ => destruct H as (? & ?)
         | H : _ \/ _ |- _ => destruct H
         | H : False |- _ => destruct H
         | H : _ = ?l ++ _ |- _ => is_var l; destruct l; cbn in H; inversion H; clear H; subst
         | H : [] = _ |- _ => inversion H; clear H; subst
         | H : _ :: _ = _ |- _ => inversion H; clear H; subst
         end.

Lemma captured_valid : valid captured.
Proof.
  split; [split; [|split; [|split]]|split].
  - intros p q N H I. cbn in *. inside_cases; auto; congruence.
  - intros p q N N' H I. cbn in *. inside_cases; auto; congruence.
  - cbn. intuition discriminate.
  - intros p I. cbn in *. inside_cases; split; try discriminate; intuition discriminate.
  - apply lint_order_spec. reflexivity.
  - intros n I. cbn in I. inside_cases; subst n; cbn; auto 10.
Qed.

(** ** C142 *)

(** If a captured graph runs without an error, the cleaned graph gives the same outputs and makes the
    same calls with side effects, for all inputs and whatever functions and modules compute, provided
    that submodules which the graph reads as values contain no submodules. *)
Theorem C142_cleaning_keeps_results_partial : forall (M : meaning) (w : purity) m source m' ins r,
  valid m ->
  (forall n p q, In n (gm_graph m) -> nop n = GetAttr p -> In p (gm_modules m) -> In q (gm_modules m) ->
     inside p q -> q = p) ->
  stage_cleanup_ff_quantizer_artifacts w m source = Ok m' ->
  run M w m ins = Some r -> run M w m' ins = Some r.
Proof. exact cleanup_run. Qed.
Print Assumptions C142_cleaning_keeps_results_partial.

Example C142_nonvacuous :
  valid captured
  /\ stage_cleanup_ff_quantizer_artifacts some_effects captured source1
     = Ok (mkGM [mkNode 0 Placeholder []; mkNode 1 (GetAttr [1; 2]) []; mkNode 5 (CallFunction 1) [0; 1];
                 mkNode 6 (CallFunction 9) [5]; mkNode 7 Output [5]] [[1]] [[1; 2]])
  /\ run numbers some_effects captured [20] = Some ([23], [(CallFunction 9, [23])]).
Proof. split; [exact captured_valid|]. split; reflexivity. Qed.

(** Deletion of unused submodules takes the submodules of a submodule that is only read as a value. *)
Definition reads_module : gmodule :=
  mkGM [mkNode 0 (GetAttr [1]) []; mkNode 1 (CallFunction 0) [0]; mkNode 2 Output [1]] [[1]; [1; 2]] [].
Theorem C142_module_read_as_value_refuted : exists m m',
  valid m /\ stage_cleanup_ff_quantizer_artifacts some_effects m [] = Ok m'
  /\ run numbers some_effects m [] = Some ([2], []) /\ run numbers some_effects m' [] = Some ([1], []).
Proof.
  exists reads_module, (mkGM (gm_graph reads_module) [[1]] []). split; [|repeat split].
  split; [split; [|split; [|split]]|split].
  - intros p q N H I. cbn in *. inside_cases; auto; congruence.
  - intros p q N N' H [].
  - cbn. intuition discriminate.
  - intros p [].
  - apply lint_order_spec. reflexivity.
  - intros n I. cbn in I. inside_cases; subst n; cbn; auto 10.
Qed.
Print Assumptions C142_module_read_as_value_refuted.

(** ** C143 *)

(** The cleaned graph neither reads nor calls anything in a quantizer of the source model, and no
    quantizer is left in the module, except inside modules that the graph calls. *)
Theorem C143_no_quantizer_left_partial : forall (w : purity) m source m' p,
  valid m -> (forall q, In (q, true) source -> ~ In q (gm_attrs m)) ->
  stage_cleanup_ff_quantizer_artifacts w m source = Ok m' ->
  In (p, true) source -> p <> [] ->
  (forall n, In n (gm_graph m') -> ~ refers_to n p)
  /\ forall q, In q (gm_modules m') -> inside p q ->
     exists n t, In n (gm_graph m') /\ nop n = CallModule t /\ inside t q.
Proof.
  intros w m source m' p V C E I N. split; [|intro q]; destruct (cleanup_no_quantizer w m source m' [] p V C E I N) as (A & _); auto.
  exact (proj2 (cleanup_no_quantizer w m source m' q p V C E I N)).
Qed.
Print Assumptions C143_no_quantizer_left_partial.

(** Cleaning fails, with RuntimeError, exactly if an output or a side effect depends on something in a
    quantizer of the source model. *)
Theorem C143_refusal : forall (w : purity) m source,
  valid m -> (forall q, In (q, true) source -> ~ In q (gm_attrs m)) ->
  let live := exists n p, needed w (gm_graph m) n /\ In (p, true) source /\ p <> [] /\ refers_to n p in
  (stage_cleanup_ff_quantizer_artifacts w m source = Err RuntimeError <-> live)
  /\ (~ live -> exists m', stage_cleanup_ff_quantizer_artifacts w m source = Ok m').
Proof. exact cleanup_raises. Qed.
Print Assumptions C143_refusal.

Definition live_scale : gmodule :=
  mkGM [mkNode 0 Placeholder []; mkNode 2 (GetAttr [1; 3; 4]) []; mkNode 3 (CallFunction 5) [2; 0];
        mkNode 7 Output [3]] [[1]; [1; 3]] [[1; 3; 4]].
Example C143_nonvacuous :
  (forall q, In (q, true) source1 -> ~ In q (gm_attrs captured))
  /\ (exists m', stage_cleanup_ff_quantizer_artifacts some_effects captured source1 = Ok m')
  /\ stage_cleanup_ff_quantizer_artifacts some_effects live_scale source1 = Err RuntimeError.
Proof.
  split; [|split; [eexists; reflexivity|reflexivity]].
  intros q I J. cbn in *. intuition congruence.
Qed.

(** A quantizer inside a module that the graph calls is neither noticed nor removed. *)
Definition calls_module : gmodule :=
  mkGM [mkNode 0 Placeholder []; mkNode 1 (CallModule [1]) [0]; mkNode 2 Output [1]] [[1]; [1; 3]] [].
Theorem C143_called_module_refuted : exists m m',
  valid m /\ stage_cleanup_ff_quantizer_artifacts some_effects m source1 = Ok m'
  /\ In ([1; 3], true) source1 /\ In [1; 3] (gm_modules m').
Proof.
  exists calls_module, calls_module. split; [|split; [reflexivity|cbn; auto]].
  split; [split; [|split; [|split]]|split].
  - intros p q N H I. cbn in *. inside_cases; auto; congruence.
  - intros p q N N' H [].
  - cbn. intuition discriminate.
  - intros p [].
  - apply lint_order_spec. reflexivity.
  - intros n I. cbn in I. inside_cases; subst n; cbn; auto 10.
Qed.
Print Assumptions C143_called_module_refuted.

(** ** C144 *)

(** The cleaned graph consists of exactly the nodes on which outputs and side effects depend, in the
    same order. *)
Theorem C144_exactly_what_is_needed : forall (w : purity) m source m',
  valid m -> stage_cleanup_ff_quantizer_artifacts w m source = Ok m' ->
  exists keep, gm_graph m' = filter keep (gm_graph m)
  /\ forall n, In n (gm_graph m) -> (keep n = true <-> needed w (gm_graph m) n).
Proof. exact cleanup_kept. Qed.
Print Assumptions C144_exactly_what_is_needed.

(** The submodules that are left are exactly those that contain something a needed node reads or calls,
    and those inside called modules. *)
Theorem C144_exactly_the_modules_used : forall (w : purity) m source m' q,
  valid m -> stage_cleanup_ff_quantizer_artifacts w m source = Ok m' ->
  (In q (gm_modules m') <-> In q (gm_modules m) /\ exists n, needed w (gm_graph m) n
     /\ (refers_to n q \/ exists p, nop n = CallModule p /\ inside p q)).
Proof. exact cleanup_modules. Qed.
Print Assumptions C144_exactly_the_modules_used.

(** The cleaned module is again a valid module: everything its graph reads or calls is still there. *)
Theorem C144_result_is_valid : forall (w : purity) m source m',
  valid m -> stage_cleanup_ff_quantizer_artifacts w m source = Ok m' -> valid m'.
Proof. exact cleanup_valid. Qed.
Print Assumptions C144_result_is_valid.

(** Whatever the captured graph, a graph in which a node uses what is not defined before is never
    returned. *)
Theorem C144_result_in_order : forall (w : purity) m source m',
  stage_cleanup_ff_quantizer_artifacts w m source = Ok m' -> in_order [] (gm_graph m').
Proof. exact cleanup_in_order. Qed.
Print Assumptions C144_result_in_order.

Example C144_nonvacuous :
  valid captured
  /\ (exists m', stage_cleanup_ff_quantizer_artifacts some_effects captured source1 = Ok m'
      /\ length (gm_graph m') = 5 /\ length (gm_modules m') = 1)
  /\ needed some_effects (gm_graph captured) (mkNode 1 (GetAttr [1; 2]) []).
Proof.
  split; [exact captured_valid|]. split; [eexists; repeat split; reflexivity|].
  apply needed_arg with (mkNode 5 (CallFunction 1) [0; 1]); cbn; auto 10.
  apply needed_arg with (mkNode 7 Output [5]); cbn; auto 10. apply needed_effect; cbn; auto 10.
Qed.
