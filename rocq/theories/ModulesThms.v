(** C27-C31, C66, C72: module conversion, quantizer listing, tags and initialization. *)
From Coq Require Import String Ascii.
From Verif Require Import Prelude ModulesModel ModulesSpec ModulesProofs ModulesConvProofs ModulesInitProofs.
Local Open Scope nat_scope.
Local Open Scope list_scope.

(** C27: conversion of a tree of modules (or of any acyclic graph, when quantized modules are
    skipped) in which every class is supported and no plain [torch.nn.Module] is met. Every visited
    module gets its final class and keeps its parameters and attributes, apart from the new
    quantizer attributes, which hold new stubs, one per attribute; nothing else changes. *)
Theorem C27_conversion_partial :
  forall is_quantizer is_qmodule base_module mm skip_quantized stub_names stub_cls h rank root fuel,
    (forall c c', mm c = Some (To c') -> is_qmodule c' = true /\ is_quantizer c' = false) ->
    is_quantizer stub_cls = true ->
    heap_ok h -> ranked h rank -> root < length h -> is_quantizer (cls_of h root) = false ->
    (forall p x m, leads h root p x -> nth_error h x = Some m -> supported is_quantizer is_qmodule base_module mm skip_quantized (mcls m)) ->
    (forall x m, visits is_quantizer is_qmodule mm skip_quantized stub_names h root x -> nth_error h x = Some m ->
       mm (mcls m) <> None \/ (skip_quantized = true /\ is_qmodule (mcls m) = true)) ->
    (skip_quantized = true \/ one_parent h root) ->
    rank root < fuel ->
    exists h', quantize_model is_quantizer is_qmodule base_module mm skip_quantized stub_names stub_cls fuel true h root = (h', Ok tt) /\
      (forall x m, nth_error h x = Some m -> visits is_quantizer is_qmodule mm skip_quantized stub_names h root x ->
         exists m', nth_error h' x = Some m' /\ converted is_qmodule mm skip_quantized stub_names stub_cls (length h) h' m m') /\
      (forall x, x < length h -> ~ visits is_quantizer is_qmodule mm skip_quantized stub_names h root x -> nth_error h' x = nth_error h x) /\
      (forall x, length h <= x < length h' -> nth_error h' x = Some (mkM stub_cls [] [])) /\
      (forall x m n x' m' n' s, nth_error h' x = Some m -> nth_error h' x' = Some m' -> length h <= s ->
         slookup n (mkids m) = Some (Some s) -> slookup n' (mkids m') = Some (Some s) -> x = x' /\ n = n').
Proof. exact conversion_supported. Qed.
Print Assumptions C27_conversion_partial.
Example C27_nonvacuous :
  ((forall c c', ex_map c = Some (To c') -> isqm c' = true /\ isq c' = false) /\ isq 50 = true /\
   heap_ok ex_heap /\ ranked ex_heap (fun x => 10 - x) /\ isq (cls_of ex_heap 0) = false /\
   (forall p x m, leads ex_heap 0 p x -> nth_error ex_heap x = Some m -> supported isq isqm 0 ex_map false (mcls m)) /\
   (forall x m, visits isq isqm ex_map false ex_stubs ex_heap 0 x -> nth_error ex_heap x = Some m -> ex_map (mcls m) <> None \/ (false = true /\ isqm (mcls m) = true)) /\
   (false = true \/ one_parent ex_heap 0)) /\
  exists h', quantize_model isq isqm 0 ex_map false ex_stubs 50 10 true ex_heap 0 = (h', Ok tt) /\
    map mcls h' = [11; 12; 11; 12; 3; 2; 51; 50; 50; 50; 50].
Proof. exact (conj ex_hypotheses ex_run). Qed.

(** An unsupported class anywhere in the model: the call raises and changes nothing. *)
Theorem C27_unsupported_raises_first :
  forall is_quantizer is_qmodule base_module mm skip_quantized stub_names stub_cls h root p x m fuel recursive,
    heap_ok h -> leads h root p x -> nth_error h x = Some m -> ~ supported is_quantizer is_qmodule base_module mm skip_quantized (mcls m) ->
    quantize_model is_quantizer is_qmodule base_module mm skip_quantized stub_names stub_cls (S fuel) recursive h root = (h, Err QuantizationError).
Proof. exact unsupported_first'. Qed.
Print Assumptions C27_unsupported_raises_first.
Example C27_unsupported_nonvacuous :
  leads [mkM 1 [("a"%string, Some 1)] []; mkM 4 [] []] 0 ["a"%string] 1 /\ ~ supported isq isqm 0 ex_map true 4.
Proof. split; [|unfold supported; vm_compute; intuition discriminate]. eapply leads_step; [reflexivity|left; reflexivity|]. eapply leads_here. reflexivity. Qed.
(** Two ways in which the call raises after converting part of the model. *)
Theorem C27_plain_container_refuted :
  exists h', quantize_model isq isqm 0 ex_map false ex_stubs 50 10 true plain_heap 0 = (h', Err QuantizationError) /\
    map mcls plain_heap = [1; 2; 0] /\ map mcls h' = [11; 12; 0; 50; 50].
Proof. exact (ex_intro _ _ (conj plain_witness (conj eq_refl eq_refl))). Qed.
Print Assumptions C27_plain_container_refuted.
Theorem C27_shared_module_refuted :
  exists h', quantize_model isq isqm 0 ex_map false ex_stubs 50 10 true shared_heap 0 = (h', Err QuantizationError) /\
    map mcls h' = [11; 11; 1; 12; 50; 50].
Proof. exact shared_witness. Qed.
Print Assumptions C27_shared_module_refuted.

(** C28: after any history of registrations the map takes a float class to the allowed class
    registered last for it, and has one entry per float class. *)
Theorem C28_last_registration_wins :
  forall is_module is_qmodule base_module allowed rs m c, Forall proper rs ->
    (lookup m (quantized_module_map allowed (record_all is_module is_qmodule base_module [] rs)) = Some c <->
     last_registered (std is_module is_qmodule base_module) allowed rs m c).
Proof. exact map_is_last_registered. Qed.
Print Assumptions C28_last_registration_wins.
Theorem C28_registering_keeps_entries :
  forall is_module is_qmodule base_module allowed rs rs' m c, Forall proper (rs ++ rs') ->
    lookup m (quantized_module_map allowed (record_all is_module is_qmodule base_module [] rs)) = Some c ->
    exists c', lookup m (quantized_module_map allowed (record_all is_module is_qmodule base_module [] (rs ++ rs'))) = Some c'.
Proof. exact registering_keeps_entries. Qed.
Print Assumptions C28_registering_keeps_entries.
Theorem C28_one_entry_per_class :
  forall is_module is_qmodule base_module allowed rs,
    NoDup (map fst (quantized_module_map allowed (record_all is_module is_qmodule base_module [] rs))).
Proof. exact (fun a b c al rs => qmm_keys_nodup al _ (record_all_nodup a b c rs [] (NoDup_nil _))). Qed.
Print Assumptions C28_one_entry_per_class.
(** Programs of registrations, (nested) filter blocks and queries: each query uses the innermost
    filter, registrations stay, the filter is back afterwards. *)
Theorem C28_filters_are_scoped :
  forall is_module is_qmodule base_module mod_of p past flt,
    frun is_module is_qmodule base_module mod_of (record_all is_module is_qmodule base_module [] past) flt p =
      (record_all is_module is_qmodule base_module [] (past ++ registrations p), flt,
       map (fun fq => quantized_module_map (allow_listed mod_of (fst fq)) (record_all is_module is_qmodule base_module [] (snd fq))) (queries past flt p)).
Proof. exact frun_spec. Qed.
Print Assumptions C28_filters_are_scoped.
Example C28_nonvacuous :
  Forall proper [(11, [9; 1], [9; 1; 0]); (12, [9; 1], [9; 1; 0])] /\
  last_registered (std (fun _ => true) (fun b => b =? 9) 0) (fun _ => true) [(11, [9; 1], [9; 1; 0]); (12, [9; 1], [9; 1; 0])] 1 12.
Proof.
  split.
  - repeat constructor; cbn; intuition discriminate.
  - exists [(11, [9; 1], [9; 1; 0])], (12, [9; 1], [9; 1; 0]), []. split; [reflexivity|]. split; [reflexivity|]. split; [|split; [reflexivity|easy]].
    left. split; [right; now left|]. split; [reflexivity|]. intros b [<-|[<-|[]]]; [discriminate|reflexivity].
Qed.

(** C29: every reachable quantizer once, under a path that leads to it, in any module graph
    (sharing and cycles included). *)
Theorem C29_each_quantizer_once :
  forall is_quantizer is_stub h root prefix skip_stubs, heap_ok h -> root < length h ->
    exists l, named_quantizers is_quantizer is_stub (S (length h)) h root prefix true true skip_stubs = Ok l /\
      NoDup (map snd l) /\
      (forall p q, In (p, q) l -> exists p', p = prefix ++ p' /\ leads h root p' q /\ listed is_quantizer is_stub h skip_stubs q) /\
      (forall p' q, leads h root p' q -> listed is_quantizer is_stub h skip_stubs q -> exists p, In (p, q) l).
Proof. exact quantizers_once'. Qed.
Print Assumptions C29_each_quantizer_once.
(** Without removing duplicates: every path to a quantizer once, in acyclic graphs. *)
Theorem C29_all_paths :
  forall is_quantizer is_stub h rank root prefix skip_stubs fuel, heap_ok h -> ranked h rank -> root < length h -> rank root < fuel ->
    exists l, named_quantizers is_quantizer is_stub fuel h root prefix true false skip_stubs = Ok l /\ NoDup (map fst l) /\
      forall p q, In (p, q) l <-> exists p', p = prefix ++ p' /\ leads h root p' q /\ listed is_quantizer is_stub h skip_stubs q.
Proof. exact quantizers_all_paths'. Qed.
Print Assumptions C29_all_paths.
Theorem C29_children_only :
  forall is_quantizer is_stub h root m prefix skip_stubs remove_dup fuel, heap_ok h -> nth_error h root = Some m ->
    exists l, named_quantizers is_quantizer is_stub fuel h root prefix false remove_dup skip_stubs = Ok l /\ NoDup (map snd l) /\
      (forall p q, In (p, q) l -> exists n, p = prefix ++ [n] /\ In (n, Some q) (mkids m) /\ listed is_quantizer is_stub h skip_stubs q) /\
      (forall n q, In (n, Some q) (mkids m) -> listed is_quantizer is_stub h skip_stubs q -> In q (map snd l)).
Proof. exact quantizers_children'. Qed.
Print Assumptions C29_children_only.
(** a cyclic graph with a quantizer under two names *)
Definition cyc_heap : heap := [mkM 1 [("a"%string, Some 1); ("q"%string, Some 2)] []; mkM 1 [("up"%string, Some 0); ("p"%string, Some 2); ("s"%string, Some 3)] []; mkM 51 [] []; mkM 50 [] []].
Example C29_nonvacuous :
  heap_ok cyc_heap /\ named_quantizers isq iss 5 cyc_heap 0 [] true true true = Ok [(["a"; "p"]%string, 2)] /\
  heap_ok ex_heap /\ ranked ex_heap (fun x => 10 - x) /\ named_quantizers isq iss 11 ex_heap 0 ["m"%string] true false true = Ok [(["m"; "b"; "c"; "old"]%string, 6)].
Proof.
  split; [apply heap_okb_ok; reflexivity|]. split; [reflexivity|]. split; [apply heap_okb_ok; reflexivity|]. split; [apply rankedb_ok; reflexivity|reflexivity].
Qed.

(** C30: each matched quantizer is initialized exactly once, by the matching rule with the
    highest precedence (the later one among equals); all other attributes stay as they are. *)
Theorem C30_config_precedence :
  forall is_quantizer is_stub factory score find h rules pol safe,
    let cands := flat_map (fun rule => map (fun r => (r, rule)) (find rule h)) rules in
    Forall (ready is_quantizer factory h) cands ->
    (forall a b, In a cands -> In b cands -> f_parent (fst a) <> f_mod (fst b)) ->
    runs is_stub pol h cands ->
    exists its h' rs,
      config_initialize is_quantizer is_stub factory score find h rules pol safe =
        (h', Ok rs, map (fun it => (f_mod (fst it), snd it)) (filter (touched is_stub pol h) its)) /\
      NoDup (map (fun it => f_mod (fst it)) its) /\
      (forall q, In q (map (fun it => f_mod (fst it)) its) <-> exists rule r, In rule rules /\ In r (find rule h) /\ f_mod r = q) /\
      (forall it, In it its -> wins score cands (f_mod (fst it)) it) /\
      initialized factory (touched is_stub pol h) h its h' rs.
Proof. exact config_spec. Qed.
Print Assumptions C30_config_precedence.
Example C30_nonvacuous :
  (forall it, In it (flat_map (fun rule => map (fun r => (r, rule)) (ex_find rule init_heap)) [0; 1; 2]) -> ready isq ex_factory init_heap it) /\
  config_initialize isq iss ex_factory (fun _ _ => 1%Z) ex_find init_heap [0; 1; 2] POverwrite true =
  ([mkM 1 [("q1"%string, Some 4); ("q2"%string, Some 5); ("q3"%string, Some 3)] []; mkM 50 [] []; mkM 51 [] [("old"%string, 1)]; mkM 50 [] [];
    mkM 51 [] [("rule"%string, 1)]; mkM 51 [] [("rule"%string, 0)]],
   Ok [mkF "q1" 4 0 "q1"; mkF "q2" 5 0 "q2"], [(1, 1); (2, 0)]).
Proof. exact (conj init_hypotheses init_runs_witness). Qed.

(** C31: [overwrite] replaces all; [skip] replaces exactly the stubs; with [error] (and a
    collection of stubs) all are replaced. *)
Theorem C31_overwrite_and_skip :
  forall is_quantizer is_stub factory pol safe its h,
    Forall (ready is_quantizer factory h) its -> NoDup (map (fun it => f_mod (fst it)) its) ->
    (forall a b, In a its -> In b its -> f_parent (fst a) <> f_mod (fst b)) -> runs is_stub pol h its ->
    exists h' rs,
      initialize_all is_quantizer is_stub factory h its pol safe =
        (h', Ok rs, map (fun it => (f_mod (fst it), snd it)) (filter (touched is_stub pol h) its)) /\
      initialized factory (touched is_stub pol h) h its h' rs.
Proof. exact init_all_spec. Qed.
Print Assumptions C31_overwrite_and_skip.
(** [error]: raises at the first concrete quantizer; exactly the stubs before it in the collection
    have been initialized by then. *)
Theorem C31_error_raises :
  forall is_quantizer is_stub factory safe pre it post h,
    Forall (ready is_quantizer factory h) (pre ++ it :: post) -> NoDup (map (fun it => f_mod (fst it)) pre) ->
    (forall a b, In a pre -> In b (pre ++ [it]) -> f_parent (fst a) <> f_mod (fst b)) ->
    Forall (fun it => is_stub (cls_of h (f_mod (fst it))) = true) pre -> is_stub (cls_of h (f_mod (fst it))) = false ->
    exists h' rs,
      initialize_all is_quantizer is_stub factory h (pre ++ it :: post) PError safe =
        (h', Err QuantizationError, map (fun it => (f_mod (fst it), snd it)) pre) /\
      initialized factory (touched is_stub PError h) h pre h' rs.
Proof. exact init_error_spec. Qed.
Print Assumptions C31_error_raises.
Example C31_nonvacuous :
  Forall (ready isq ex_factory init_heap) (map (fun r => (r, 0)) [mkF "q1" 1 0 "q1"; mkF "q2" 2 0 "q2"]) /\
  collection_initialize isq iss ex_factory init_heap [mkF "q1" 1 0 "q1"; mkF "q2" 2 0 "q2"; mkF "q3" 3 0 "q3"] PError true =
  ([mkM 1 [("q1"%string, Some 4); ("q2"%string, Some 2); ("q3"%string, Some 3)] []; mkM 50 [] []; mkM 51 [] [("old"%string, 1)]; mkM 50 [] [];
    mkM 51 [] [("rule"%string, 0)]], Err QuantizationError, [(1, 0)]).
Proof.
  split; [|exact error_witness]. repeat (constructor; [apply init_hypotheses; cbn; tauto|]). constructor.
Qed.

(** C66: a quantizer carries a tag exactly when it was given the tag or a descendant of it, and a
    query with several tags matches exactly the quantizers carrying all of them. *)
Theorem C66_tags_carry_parents :
  forall added t, has_tag (metadata_tags added) t = true <-> exists u, In u added /\ descends u t.
Proof. exact metadata_iff. Qed.
Print Assumptions C66_tags_carry_parents.
Theorem C66_tag_query_exact :
  forall tags added, tag_fragment_match tags (Some (metadata_tags added)) = true <->
    forall t, In t tags -> exists u, In u added /\ descends u t.
Proof. exact tag_query_iff. Qed.
Print Assumptions C66_tag_query_exact.
Theorem C66_child_tag :
  forall t s, descends (tag_div t s) t.
Proof. exact (fun t s => or_intror (ex_intro _ s eq_refl)). Qed.
Print Assumptions C66_child_tag.
Theorem C66_descent_is_an_order :
  (forall t, descends t t) /\ forall a b c, descends a b -> descends b c -> descends a c.
Proof. exact (conj descends_refl descends_trans). Qed.
Print Assumptions C66_descent_is_an_order.
Example C66_nonvacuous :
  metadata_tags ["activation/output"; "x"]%string = ["x"; "activation/output"; "activation"]%string /\
  tag_fragment_match ["activation"; "x"]%string (Some (metadata_tags ["activation/output"; "x"]%string)) = true /\
  tag_fragment_match ["act"]%string (Some (metadata_tags ["activation/output"]%string)) = false.
Proof. vm_compute. auto. Qed.

(** C72: the extension check. *)
Theorem C72_extension_exact_partial :
  forall a b : meta, (forall k v, In (k, v) (snd a) -> (k = "shape"%string /\ v = None) \/ slookup k (snd b) <> None) ->
    exists r, is_extension a b = Ok r /\
      (r = true <-> (forall t, In t (fst a) -> In t (fst b)) /\
                    forall k v, In (k, v) (snd a) -> (k = "shape"%string /\ v = None) \/ slookup k (snd b) = Some v).
Proof. exact is_extension_spec. Qed.
Print Assumptions C72_extension_exact_partial.
Example C72_nonvacuous :
  is_extension (["x"]%string, [("shape"%string, None); ("bits"%string, Some 4)]) (["y"; "x"]%string, [("bits"%string, Some 4); ("z"%string, None)]) = Ok true.
Proof. reflexivity. Qed.
(** An attribute the other metadata lacks is a KeyError instead of the answer "no". *)
Theorem C72_missing_attribute_refuted :
  exists a b : meta, snd b = [] /\ is_extension a b = Err KeyError.
Proof. exact (ex_intro _ ([], [("bits"%string, Some 4)]) (ex_intro _ ([], []) (conj eq_refl extension_key_error))). Qed.
Print Assumptions C72_missing_attribute_refuted.
