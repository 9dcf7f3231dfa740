(** C18, C22: flags and module-level strict mode. *)
From Verif Require Import Prelude FlagsModel FlagsSpec FlagsProofs.

(** C18: after the block the flag has its old value, whatever the body does (including
    bare setter calls, stored context objects and exceptions). *)
Theorem C18_block_restores :
  forall (f : nat) (v : bool) (body : fprog) (s : flags) vars,
    fst_flags (fexec s vars (FWith f v body FDone)) f = s f.
Proof. exact with_restores. Qed.
Print Assumptions C18_block_restores.

(** Inside, the flag has the requested value and the other flags are untouched. *)
Theorem C18_value_inside :
  forall (f : nat) (v : bool) (body : fprog) (s : flags) vars,
    exists s1, s1 f = v /\ (forall g, g <> f -> s1 g = s g) /\
      flog (fexec s vars (FWith f v body FDone)) = flog (fexec s1 vars body) /\
      fexc (fexec s vars (FWith f v body FDone)) = fexc (fexec s1 vars body).
Proof. exact with_inside. Qed.
Print Assumptions C18_value_inside.

(** Programs made of blocks: every read sees the value requested by the innermost enclosing
    block, and all flags end as they began, with or without an exception. *)
Theorem C18_blocks_are_lexical :
  forall (p : fprog) (s : flags) vars, blocks_only p ->
    (forall f, fst_flags (fexec s vars p) f = s f) /\
    (flog (fexec s vars p), fexc (fexec s vars p)) = lexical s p.
Proof. exact blocks_lexical. Qed.
Print Assumptions C18_blocks_are_lexical.

Definition ex_flags : fprog :=
  FWith 0 false (FGet 0 (FWith 1 true (FWith 0 true (FGet 0 FDone) (FGet 1 FRaise)) FDone)) (FGet 0 FDone).
Example C18_nonvacuous :
  blocks_only ex_flags /\ lexical (fun f => f =? 0) ex_flags = ([(0, false); (0, true); (1, true)], true).
Proof. split; [simpl; tauto|reflexivity]. Qed.

(** A context object sets its value when it is constructed, not when it is entered:
    entering one a second time does not give the requested value inside. *)
Theorem C18_reused_context_refuted :
  exists p, flog (fexec (fun _ => true) (fun _ => None) p) = [(0, false); (0, true)] /\
    p = FNew 0 0 false (FWithVar 0 (FGet 0 FDone) (FWithVar 0 (FGet 0 FDone) FDone)).
Proof. exact (ex_intro _ reuse_prog (conj reuse_witness eq_refl)). Qed.
Print Assumptions C18_reused_context_refuted.

(** C69: blocks opened and closed in nested order restore; blocks of two threads (or
    suspended generators) that overlap otherwise leave the process-wide flag changed. *)
Theorem C69_nested_traces_restore :
  forall l s f, nested [] l -> erun s l f = s f.
Proof. exact (fun l s f H => nested_restores l [] H s (fun _ => None) f). Qed.
Print Assumptions C69_nested_traces_restore.
Theorem C69_interleaved_blocks_refuted :
  exists l, l = [EEnter 1 0 false; EEnter 2 0 true; EExit 1; EExit 2] /\
    erun (fun _ => true) l 0 = false.
Proof. exact (ex_intro _ interleaved (conj eq_refl interleaved_witness)). Qed.
Print Assumptions C69_interleaved_blocks_refuted.
Example C69_nonvacuous : nested [] [EEnter 1 0 false; EEnter 2 3 true; EExit 2; EEnter 3 0 true; EExit 3; EExit 1; EEnter 1 0 true; EExit 1].
Proof.
  apply (N_block [] 1 0 false [EEnter 2 3 true; EExit 2; EEnter 3 0 true; EExit 3]).
  - simpl; tauto.
  - apply (N_block [1] 2 3 true []); [simpl; lia|constructor|].
    apply (N_block [1] 3 0 true []); [simpl; lia|constructor|constructor].
  - apply (N_block [] 1 0 true []); [simpl; lia|constructor|constructor].
Qed.

(** C22: with at most one handle attached per module, no exception and no re-entrant call,
    every observation inside a module sees the requested mode, callers see their own
    value again, and the flag ends as it began. *)
Theorem C22_scoped_to_forward_partial :
  forall (s : sstate) (p : ctree),
    single s -> non_reentrant p -> ~ raises p ->
    slog (scall s p) = fst (lexical_calls (mode_of s) (sflag s) p) /\
    sexc (scall s p) = false /\ sflag (sst (scall s p)) = sflag s.
Proof. exact module_strict_scoped. Qed.
Print Assumptions C22_scoped_to_forward_partial.

Definition ex_att : nat -> list nat := fun m => if m =? 0 then [0] else if m =? 2 then [1] else [].
Definition ex_calls : ctree := TCall 0 (TObs (TCall 1 (TObs (TCall 2 (TObs TDone) TDone)) (TObs TDone))) (TObs TDone).
Example C22_nonvacuous :
  single (s0 ex_att) /\ non_reentrant ex_calls /\ ~ raises ex_calls /\
  slog (scall (s0 ex_att) ex_calls) = [false; false; true; false; true].
Proof.
  split; [|split; [simpl; repeat split; intuition discriminate|split; [simpl; tauto|reflexivity]]].
  intros m. unfold s0, ex_att; simpl. destruct (m =? 0); [eauto|]. destruct (m =? 2); eauto.
Qed.

(** Each of the three restrictions is needed: the flag stays changed otherwise. *)
Theorem C22_exception_refuted :
  exists s p, single s /\ non_reentrant p /\ sflag (sst (scall s p)) = false /\ sflag s = true.
Proof. exact (ex_intro _ _ (ex_intro _ _ strict_exception_witness)). Qed.
Print Assumptions C22_exception_refuted.
Theorem C22_reentrant_refuted :
  exists s p, single s /\ ~ raises p /\ sflag (sst (scall s p)) = false /\ sflag s = true.
Proof. exact (ex_intro _ _ (ex_intro _ _ strict_reentrant_witness)). Qed.
Print Assumptions C22_reentrant_refuted.
Theorem C22_two_handles_refuted :
  exists s p, ~ raises p /\ non_reentrant p /\ sflag (sst (scall s p)) = false /\ sflag s = true.
Proof. exact (ex_intro _ _ (ex_intro _ _ strict_two_handles_witness)). Qed.
Print Assumptions C22_two_handles_refuted.
