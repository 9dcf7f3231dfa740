(** C15-C17: dispatcher and torch-function path. *)
From Verif Require Import Prelude DispatcherModel DispatcherSpec DispatcherProofs.

(** C16: after any sequence of registrations, dispatch answers with the newest live kernel
    of the best priority among those that accept, and with None only if none accepts. *)
Theorem C16_newest_best_priority :
  forall (Args : Type) (heap : nat -> pexpr Args) (regs : list dop) (op : nat) (a : Args),
    Forall no_exit regs ->
    exists s, drun dinit regs = Ok s /\
      right_answer heap (live (live_after regs)) op a (dispatch heap (tbl s) op a).
Proof. exact (fun Args heap regs op a H => dispatch_history heap regs op a (no_exit_unambiguous regs H)). Qed.
Print Assumptions C16_newest_best_priority.

(** ... also when registrations are undone in any order, as long as no two registrations
    are duplicates of each other (same operator, predicate object, kernel, priority) ... *)
Theorem C16_with_removals :
  forall (Args : Type) (heap : nat -> pexpr Args) (h : list dop) (op : nat) (a : Args),
    no_duplicates h ->
    exists s, drun dinit h = Ok s /\
      right_answer heap (live (live_after h)) op a (dispatch heap (tbl s) op a).
Proof. exact (fun Args heap h op a H => dispatch_history heap h op a (no_duplicates_unambiguous h H)). Qed.
Print Assumptions C16_with_removals.

(** ... or, with duplicates, whenever a hook is left while no newer duplicate is live. *)
Theorem C16_with_unambiguous_removals :
  forall (Args : Type) (heap : nat -> pexpr Args) (h : list dop) (op : nat) (a : Args),
    unambiguous h ->
    exists s, drun dinit h = Ok s /\
      right_answer heap (live (live_after h)) op a (dispatch heap (tbl s) op a).
Proof. exact @dispatch_history. Qed.
Print Assumptions C16_with_unambiguous_removals.

(** Without that restriction the wrong registration is removed. *)
Theorem C16_duplicate_removal_refuted :
  exists h s, drun dinit h = Ok s /\
    ~ right_answer always (live (live_after h)) 0 tt (dispatch always (tbl s) 0 tt).
Proof. exact (ex_intro _ ambiguous_history ambiguous_exit_witness). Qed.
Print Assumptions C16_duplicate_removal_refuted.

(** The predicate operators are the boolean connectives. *)
Theorem C16_predicate_operators :
  forall (Args : Type) (p : pexpr Args) (a : Args),
    never_raises p a -> exists b, peval p a = Ok b /\ (b = true <-> holds p a).
Proof. exact @peval_holds. Qed.
Print Assumptions C16_predicate_operators.

Definition ex_hist : list dop :=
  [DRegister 5 (Some 0) 10 FALLBACK; DRegister 5 None 11 NOT_IMPLEMENTED_FALLBACK;
   DRegister 5 (Some 1) 12 DEFAULT; DRegister 7 None 13 DEFAULT; DRegister 5 (Some 2) 14 DEFAULT;
   DExit 2; DRegister 5 (Some 3) 15 FALLBACK].
Example C16_nonvacuous :
  no_duplicates ex_hist /\ length (live (live_after ex_hist)) = 5 /\
  exists s, drun dinit ex_hist = Ok s /\
    dispatch (fun n => PFun (fun a : nat => Ok (a <? n))) (tbl s) 5 2 = Ok (Some 15) /\
    dispatch (fun n => PFun (fun a : nat => Ok (a <? n))) (tbl s) 5 1 = Ok (Some 14) /\
    dispatch (fun n => PFun (fun a : nat => Ok (a <? n))) (tbl s) 5 9 = Ok (Some 11).
Proof.
  split; [|split; [reflexivity|eexists; split; [vm_compute; reflexivity|split; [reflexivity|split; reflexivity]]]].
  intros r r' Hr Hr' Hs. vm_compute in Hr, Hr'. destruct Hs as (H1 & H2 & H3 & H4).
  repeat (destruct Hr as [<-|Hr]); try contradiction;
  repeat (destruct Hr' as [<-|Hr']); try contradiction; try reflexivity; simpl in *; discriminate.
Qed.

(** C17: any program of nested [with register(...)] blocks, calls and exceptions leaves
    the dispatcher answering as before, however it ends. *)
Theorem C17_with_block_restores :
  forall (Args : Type) (heap : nat -> pexpr Args) (fresh : nat) (t : table) (p : wprog Args),
    sorted_table t -> same_dispatch heap (wtbl (wexec heap fresh t p)) t.
Proof. exact (fun Args heap fresh t p H => same_table_dispatch heap _ _ (wexec_restores heap p fresh t H)). Qed.
Print Assumptions C17_with_block_restores.

(** ... while inside, the temporary kernel is chosen wherever its predicate accepts and no
    kernel of better priority does. *)
Theorem C17_active_inside :
  forall (Args : Type) (heap : nat -> pexpr Args) (fresh : nat) (t : table) op p k prio t1 h (a : Args),
    sorted_table t -> register_functional fresh t op p k prio = Ok (t1, h) ->
    pcall heap (match p with Some n => UserP n | None => TrueP fresh end) a = Ok true ->
    (forall i, In i (lookup t op) -> pnum (iprio i) < pnum prio -> pcall heap (ipred i) a = Ok false) ->
    dispatch heap t1 op a = Ok (Some k).
Proof. exact @with_body_sees_kernel. Qed.
Print Assumptions C17_active_inside.

(** Tables built by (unambiguous) registration histories are such tables. *)
Theorem C17_reachable_tables_sorted :
  forall h, unambiguous h -> exists s, drun dinit h = Ok s /\ sorted_table (tbl s).
Proof. exact history_table_sorted. Qed.
Print Assumptions C17_reachable_tables_sorted.

Definition ex_prog : wprog nat :=
  WWith 5 (Some 3) 20 DEFAULT
    (WWith 5 None 21 DEFAULT (WCall 5 0 WRaise) WDone)
    (WCall 5 0 WDone).
Example C17_nonvacuous :
  exists s, drun dinit ex_hist = Ok s /\ sorted_table (tbl s) /\
    let r := wexec (fun n => PFun (fun a : nat => Ok (a <? n))) 9 (tbl s) ex_prog in
    wexc r = true /\ wlog r = [Ok (Some 21)].
Proof.
  destruct (history_table_sorted ex_hist (no_duplicates_unambiguous _ (proj1 C16_nonvacuous))) as (s & E & Hs).
  exists s. split; [assumption|]. split; [assumption|].
  vm_compute in E. injection E as <-. split; reflexivity.
Qed.

(** C15 *)
Theorem C15_strict_never_dequantizes :
  forall (V : Type) (heap : nat -> pexpr (list (arg V))) (t : table) excluded name (deq : V -> V) func args,
    excluded func = false ->
    match torch_function heap t true excluded name deq func args with
    | CalledPlain _ _ => False
    | CalledKernel k a => a = args /\ exists op, name func = Some op /\ dispatch heap t op args = Ok (Some k)
    | Raised e => (e = QuantizationError /\ forall op, name func = Some op -> dispatch heap t op args = Ok None) \/
                  (exists op, name func = Some op /\ dispatch heap t op args = Err e)
    end.
Proof. exact @strict_never_dequantizes. Qed.
Print Assumptions C15_strict_never_dequantizes.

Theorem C15_lenient_dequantizes_everything :
  forall (V : Type) (heap : nat -> pexpr (list (arg V))) (t : table) excluded name (deq : V -> V) func args,
    excluded func = false -> (forall op, name func = Some op -> dispatch heap t op args = Ok None) ->
    exists args', torch_function heap t false excluded name deq func args = CalledPlain func args' /\
      Forall2 (dequantized_as deq) args args' /\ forall a, In a args' -> ~ contains_quantized a.
Proof. exact @lenient_dequantizes_all. Qed.
Print Assumptions C15_lenient_dequantizes_everything.

Example C15_nonvacuous :
  torch_function (fun _ => PFun (fun _ => Ok false)) [(3, [mkItem (UserP 0) 1 DEFAULT])] true
    (fun f => f =? 0) (fun f => Some f) (fun v : nat => v * 2) 3
    [ANode [AQuant 4; APlain 1]; AQuant 5] = Raised QuantizationError /\
  torch_function (fun _ => PFun (fun _ => Ok false)) [(3, [mkItem (UserP 0) 1 DEFAULT])] false
    (fun f => f =? 0) (fun f => Some f) (fun v : nat => v * 2) 3
    [ANode [AQuant 4; APlain 1]; AQuant 5] = CalledPlain 3 [ANode [APlain 8; APlain 1]; APlain 10].
Proof. split; reflexivity. Qed.
