(** C112-C114: surrogates, the metadata of registered quantizers, summaries. *)
From Coq Require Import String Ascii Sorted.
From Verif Require Import Prelude ModulesModel ModulesSpec ModulesProofs ModulesInitProofs QmModel QmSpec QmProofs QmNameProofs QmRegProofs QmSurProofs.
Local Open Scope nat_scope.
Local Open Scope list_scope.

(** C112: the classes that get a surrogate are exactly those of the model for which the maps given
    have no entry and that are neither [torch.nn.Module] itself, nor quantizers, nor quantized
    modules; each gets one class of its own, which did not exist before. *)
Theorem C112_surrogates :
  forall is_quantizer is_qmodule base_module global extra ignore_global fresh h root,
    heap_ok h -> root < length h ->
    exists s, surrogate_quantized_modules is_quantizer is_qmodule base_module global extra ignore_global fresh h root = Ok s /\
      (forall c, In c (map fst s) <-> in_model h root c /\ merged global extra ignore_global c = None /\
         c <> base_module /\ is_quantizer c = false /\ is_qmodule c = false) /\
      NoDup (map fst s) /\ NoDup (map snd s) /\ (forall c', In c' (map snd s) -> fresh <= c').
Proof. exact surrogate_keys. Qed.
Print Assumptions C112_surrogates.
(** Conversion with the surrogates succeeds when no plain [torch.nn.Module] occurs without an entry
    and quantized modules are skipped (or there are none without an entry, and no module is used
    twice). Modules with a surrogate change class and nothing else. Missing: the three cases
    below, in which the call raises although it is documented to succeed always. *)
Theorem C112_succeeds_partial :
  forall is_quantizer is_qmodule base_module global ignore_global fresh stub_names stub_cls h rank root skip_quantized fuel,
    heap_ok h -> ranked h rank -> root < length h -> is_quantizer (cls_of h root) = false -> is_quantizer stub_cls = true ->
    (forall c c', lookup c global = Some c' -> is_qmodule c' = true /\ is_quantizer c' = false) ->
    (forall c, fresh <= c -> is_quantizer c = false) ->
    (forall c, in_model h root c -> c < fresh) ->
    (in_model h root base_module -> ignore_global = false /\ lookup base_module global <> None) ->
    (skip_quantized = true \/
       (one_parent h root /\ forall c, in_model h root c -> is_qmodule c = true -> merged global [] ignore_global c <> None)) ->
    rank root < fuel ->
    exists s h', surrogate_quantized_modules is_quantizer is_qmodule base_module global [] ignore_global fresh h root = Ok s /\
      quantize_with is_quantizer is_qmodule base_module stub_names stub_cls global s ignore_global skip_quantized fuel h root = (h', Ok tt) /\
      (forall x m c', nth_error h x = Some m -> lookup (mcls m) s = Some c' ->
         visits is_quantizer (is_qmodule' is_qmodule s) (merged global (as_entries s) ignore_global) skip_quantized (stub_names' stub_names s) h root x ->
         exists m', nth_error h' x = Some m' /\ mcls m' = c' /\ mparams m' = mparams m /\ forall n, slookup n (mkids m') = slookup n (mkids m)).
Proof. exact surrogate_success. Qed.
Print Assumptions C112_succeeds_partial.
Definition sur_heap : heap :=
  [mkM 4 [("a"%string, Some 1); ("b"%string, Some 2)] []; mkM 2 [] [("w"%string, 7)]; mkM 5 [("c"%string, Some 3)] []; mkM 12 [] []].
Definition sur_global : list (nat * nat) := [(1, 11); (2, 12)].
Example C112_nonvacuous :
  (heap_ok sur_heap /\ ranked sur_heap (fun x => 10 - x) /\ isq (cls_of sur_heap 0) = false /\ isq 50 = true /\
   (forall c c', lookup c sur_global = Some c' -> isqm c' = true /\ isq c' = false) /\
   (forall c, 100 <= c -> isq c = false) /\ (forall c, in_model sur_heap 0 c -> c < 100 /\ c <> 0)) /\
  exists s h', surrogate_quantized_modules isq isqm 0 sur_global [] false 100 sur_heap 0 = Ok s /\ s = [(4, 100); (5, 101)] /\
    quantize_with isq isqm 0 ex_stubs 50 sur_global s false true 11 sur_heap 0 = (h', Ok tt) /\
    map mcls h' = [100; 12; 101; 12; 50; 50].
Proof.
  assert (Hm : forall x m, nth_error sur_heap x = Some m -> In (x, m) (combine (seq 0 4) sur_heap)).
  { intros [|[|[|[|x]]]] m H; cbn in H; try (injection H as <-; cbn; tauto). destruct x; discriminate. }
  split; [|eexists _, _; split; [vm_compute; reflexivity|split; [reflexivity|split; vm_compute; reflexivity]]].
  split. { intros x m H. apply Hm in H. cbn in H. repeat (destruct H as [H|H]; [injection H as <- <-; split; [cbn; repeat constructor; cbn; intuition discriminate|cbn; intros n c K; repeat (destruct K as [K|K]; [injection K as <- <-; lia|]); destruct K]|]). destruct H. }
  split. { intros x m n c H K. apply Hm in H. cbn in H. repeat (destruct H as [H|H]; [injection H as <- <-; cbn in K; repeat (destruct K as [K|K]; [injection K as <- <-; lia|]); destruct K|]). destruct H. }
  split; [reflexivity|]. split; [reflexivity|].
  split. { intros c c' H. cbn in H. destruct (c =? 1); [injection H as <-; auto|]. destruct (c =? 2); [injection H as <-; auto|discriminate]. }
  split. { intros c H. unfold isq. destruct (Nat.eqb_spec c 50), (Nat.eqb_spec c 51); first [lia|reflexivity]. }
  intros c (p & x & m & _ & H & <-). apply Hm in H. cbn in H. repeat (destruct H as [H|H]; [injection H as <- <-; cbn; lia|]). destruct H.
Qed.
(** A quantized module in the model for which the map has no entry: conversion raises unless it is
    told to skip quantized modules. *)
Theorem C112_requantize_refuted :
  exists h s, surrogate_quantized_modules isq isqm 0 sur_global [] false 100 h 0 = Ok s /\
    quantize_with isq isqm 0 ex_stubs 50 sur_global s false false 10 h 0 = (h, Err QuantizationError).
Proof. exists sur_heap. eexists. split; [vm_compute; reflexivity|]. vm_compute. reflexivity. Qed.
Print Assumptions C112_requantize_refuted.
(** A plain [torch.nn.Module] used as a container gets no surrogate; conversion raises half way. *)
Theorem C112_plain_refuted :
  exists h s h', surrogate_quantized_modules isq isqm 0 sur_global [] false 100 h 0 = Ok s /\
    quantize_with isq isqm 0 ex_stubs 50 sur_global s false true 10 h 0 = (h', Err QuantizationError) /\
    map mcls h = [4; 0] /\ map mcls h' = [100; 0].
Proof. exists [mkM 4 [("a"%string, Some 1)] []; mkM 0 [] []]. eexists _, _. split; [vm_compute; reflexivity|]. split; [vm_compute; reflexivity|]. vm_compute. auto. Qed.
Print Assumptions C112_plain_refuted.
(** Entries given to the call are not part of its result: with the result alone, conversion raises. *)
Theorem C112_extra_refuted :
  exists h extra s, surrogate_quantized_modules isq isqm 0 sur_global extra false 100 h 0 = Ok s /\
    quantize_with isq isqm 0 ex_stubs 50 sur_global s false true 10 h 0 = (h, Err QuantizationError).
Proof. exists [mkM 4 [("a"%string, Some 1)] []; mkM 5 [] []], [(5, To 15)]. eexists. split; [vm_compute; reflexivity|]. vm_compute. reflexivity. Qed.
Print Assumptions C112_extra_refuted.

(** C113: what a module remembers about an attribute stays, whatever quantizers are assigned,
    registered, removed or deleted, until the module is initialized for quantization again. *)
Theorem C113_attribute_keeps :
  forall pre post m n t, attribute_tag (history no_world pre) m n t -> ~ In (Init m) post ->
    attribute_tag (history no_world (pre ++ post)) m n t.
Proof. exact attribute_keeps. Qed.
Print Assumptions C113_attribute_keeps.
(** After a successful assignment the attribute is the quantizer, module and quantizer have the same
    metadata object, and the quantizer carries every tag the module remembered for the attribute. If
    the module remembered nothing, the tags of the quantizer stay as they were. *)
Theorem C113_assigned :
  forall ss m n q w' b, let w := history no_world ss in
    do_step w (Assign m n q) = (w', Ok b) ->
    attribute_is w' m n q /\ (exists r, remembers w' m n r /\ described_by w' q r) /\
    (forall t, attribute_tag w m n t -> carries w' q t) /\
    ((forall r, ~ remembers w m n r) -> forall t, (carries w q t <-> carries w' q t)).
Proof. exact assigned. Qed.
Print Assumptions C113_assigned.
(** Module and quantizer go on sharing the metadata until the quantizer is placed again. Missing: a
    quantizer used for several attributes, see below. *)
Theorem C113_shared_metadata_partial :
  forall pre m n q post b, (exists w1, do_step (history no_world pre) (Assign m n q) = (w1, Ok b)) ->
    ~ In (Init m) post -> (forall s, In s post -> ~ places s q) ->
    exists r, remembers (history no_world (pre ++ Assign m n q :: post)) m n r /\
              described_by (history no_world (pre ++ Assign m n q :: post)) q r.
Proof. exact assigned_stays. Qed.
Print Assumptions C113_shared_metadata_partial.
(** A successful assignment warns exactly when the metadata of the quantizer is not an extension of
    what the module remembers. *)
Theorem C113_warns :
  forall ss m n q w' b r0 r a c, let w := history no_world ss in
    do_step w (Assign m n q) = (w', Ok b) -> remembers w m n r0 -> described_by w q r ->
    nth_error (metas w) r0 = Some a -> nth_error (metas w) r = Some c ->
    (b = true <-> ~ extends c a).
Proof. exact assign_warns. Qed.
Print Assumptions C113_warns.
Definition ex_steps : list step :=
  [NewModule; Init 0; NewQuantizer (Some (["parameter/weight"; "parameter"]%string, [("shape"%string, None)])); Assign 0 "w" 0;
   NewQuantizer None; NewQuantizer (Some (["mine"]%string, [("shape"%string, None)]))].
Example C113_nonvacuous :
  attribute_tag (history no_world ex_steps) 0 "w" "parameter" /\
  (exists w', do_step (history no_world ex_steps) (Assign 0 "w" 1) = (w', Ok false) /\ carries w' 1 "parameter") /\
  exists w', do_step (history no_world ex_steps) (Assign 0 "w" 2) = (w', Ok true) /\ carries w' 2 "parameter" /\ ~ carries w' 2 "mine".
Proof.
  split; [|split].
  - exists 0. split; [eexists _, _; split; [reflexivity|split; reflexivity]|]. eexists. split; [reflexivity|]. cbn. auto.
  - eexists. split; [vm_compute; reflexivity|]. exists 0. split; [reflexivity|]. eexists. split; [reflexivity|]. cbn. auto.
  - eexists. split; [vm_compute; reflexivity|]. split.
    + exists 0. split; [reflexivity|]. eexists. split; [reflexivity|]. cbn. auto.
    + intros (r & H1 & md & H2 & H3). unfold described_by in H1. cbn in H1. injection H1 as <-. cbn in H2. injection H2 as <-. cbn in H3. intuition discriminate.
Qed.
(** A quantizer that carries more tags than the module remembers loses them without a warning. *)
Theorem C113_silent_loss_refuted :
  exists ss m n q t w', do_step (history no_world ss) (Assign m n q) = (w', Ok false) /\
    carries (history no_world ss) q t /\ ~ carries w' q t.
Proof.
  exists [NewModule; Init 0; NewQuantizer (Some (["a"]%string, [("shape"%string, None)])); Assign 0 "q" 0;
          NewQuantizer (Some (["b"; "a"]%string, [("shape"%string, None)]))], 0, "q"%string, 1, "b"%string.
  eexists. split; [vm_compute; reflexivity|]. split.
  - exists 1. split; [reflexivity|]. eexists. split; [reflexivity|]. left. reflexivity.
  - intros (r & H1 & md & H2 & H3). unfold described_by in H1. cbn in H1. injection H1 as <-. cbn in H2. injection H2 as <-. cbn in H3. intuition discriminate.
Qed.
Print Assumptions C113_silent_loss_refuted.
(** A quantizer that two attributes share loses the tags of the first. *)
Theorem C113_shared_quantizer_refuted :
  exists ss n q t, attribute_is (history no_world ss) 0 n q /\ attribute_tag (history no_world ss) 0 n t /\ ~ carries (history no_world ss) q t.
Proof.
  exists [NewModule; Init 0; NewQuantizer (Some (["a"]%string, [("shape"%string, None)])); Assign 0 "p" 0;
          NewQuantizer (Some (["b"]%string, [("shape"%string, None)])); Assign 0 "q" 1; Assign 0 "q" 0], "p"%string, 0, "a"%string.
  split; [eexists; split; reflexivity|]. split.
  - exists 0. split; [eexists _, _; split; [reflexivity|split; reflexivity]|]. eexists. split; [reflexivity|]. left. reflexivity.
  - intros (r & H1 & md & H2 & H3). unfold described_by in H1. cbn in H1. injection H1 as <-. cbn in H2. injection H2 as <-. cbn in H3. intuition discriminate.
Qed.
Print Assumptions C113_shared_quantizer_refuted.
(** When the module remembers an attribute the quantizer's metadata does not have, the assignment
    raises KeyError, but the quantizer is in place all the same, with metadata of its own. *)
Theorem C113_error_refuted :
  exists ss m n q w' r r', do_step (history no_world ss) (Assign m n q) = (w', Err KeyError) /\
    attribute_is w' m n q /\ remembers w' m n r /\ described_by w' q r' /\ r <> r'.
Proof.
  exists [NewModule; Init 0; NewQuantizer (Some (["a"]%string, [("bits"%string, Some 4); ("shape"%string, None)])); Assign 0 "q" 0;
          NewQuantizer (Some (["a"]%string, [("shape"%string, None)]))], 0, "q"%string, 1.
  eexists _, 0, 1. split; [vm_compute; reflexivity|]. split; [eexists; split; reflexivity|].
  split; [eexists _, _; split; [reflexivity|split; reflexivity]|]. split; [reflexivity|discriminate].
Qed.
Print Assumptions C113_error_refuted.
(** So does an assignment before the module is initialized for quantization. *)
Theorem C113_uninitialized_refuted :
  exists ss m n q w', do_step (history no_world ss) (Assign m n q) = (w', Err AttributeError) /\ attribute_is w' m n q.
Proof. exists [NewModule; NewQuantizer None], 0, "q"%string, 0. eexists. split; [vm_compute; reflexivity|]. eexists; split; reflexivity. Qed.
Print Assumptions C113_uninitialized_refuted.

(** C114: a summary has one entry per description, with the names of exactly the quantizers so
    described, in order; entries with more quantizers come first, and among equals the one whose
    description appears first. Every quantizer is counted once. *)
Theorem C114_summary :
  forall repr named,
    (forall r locs, In (r, locs) (summarize repr named) <->
       (exists nqs, selects (fun nq => repr (snd nq) = r) named nqs /\ locs = map fst nqs) /\ locs <> []) /\
    NoDup (map fst (summarize repr named)) /\
    StronglySorted (fun a b => length (snd b) < length (snd a) \/
      (length (snd b) = length (snd a) /\ appears_before (fun nq => repr (snd nq)) named (fst a) (fst b))) (summarize repr named) /\
    list_sum (map (fun s => length (snd s)) (summarize repr named)) = length named.
Proof. exact summary_spec. Qed.
Print Assumptions C114_summary.
(** The listed lines: each stands for the names that differ from one name only in numbers, shows
    that name itself if it is alone and otherwise the name with its numbers replaced, and gives how
    many there are. Every name has its line, the numbers add up, larger groups come first. *)
Theorem C114_lines :
  forall names,
    (forall row, In row (deduplicate_names names) -> exists n grp, In n names /\ selects (alike n) names grp /\ snd row = length grp /\
       ((grp = [n] /\ fst row = n) \/ (1 < length grp /\ pattern n (fst row)))) /\
    (forall n, In n names -> exists row grp, In row (deduplicate_names names) /\ selects (alike n) names grp /\ snd row = length grp /\
       ((grp = [n] /\ fst row = n) \/ (1 < length grp /\ pattern n (fst row)))) /\
    list_sum (map snd (deduplicate_names names)) = length names /\
    StronglySorted (fun a b => b <= a) (map snd (deduplicate_names names)).
Proof. exact (fun names => conj (rows_each names) (conj (rows_all names) (conj (rows_sum names) (rows_sorted names)))). Qed.
Print Assumptions C114_lines.
(** No two lines show the same text, for distinct names without a part "[]". *)
Theorem C114_distinct :
  forall names, NoDup names -> (forall n ps, In n names -> parts n ps -> ~ In "[]"%string ps) ->
    NoDup (map fst (deduplicate_names names)).
Proof. exact rows_distinct. Qed.
Print Assumptions C114_distinct.
Example C114_nonvacuous :
  summarize (fun q => if q <? 2 then "A"%string else "B"%string) [("x"%string, 0); ("y"%string, 5); ("z"%string, 6)] = [("B"%string, ["y"; "z"]%string); ("A"%string, ["x"]%string)] /\
  deduplicate_names ["head.q"; "layers.0.q"; "layers.10.q"; "layers.a1.q"; "layers.2.w"]%string =
    [("layers.[].q"%string, 2); ("head.q"%string, 1); ("layers.a1.q"%string, 1); ("layers.2.w"%string, 1)] /\
  NoDup ["head.q"; "layers.0.q"; "layers.10.q"; "layers.a1.q"; "layers.2.w"]%string.
Proof. split; [reflexivity|]. split; [reflexivity|]. repeat (constructor; [cbn; intuition discriminate|]). constructor. Qed.
