(** Theorems about annotating quantizers with the operators around them. *)
From Coq Require Import String Lia.
From Verif Require Import Prelude OverrideModel OverrideSpec OverrideProofs AnnModel AnnSpec AnnProofs AnnRunProofs AnnRestoreProofs.
From Verif Require ModulesModel.
Import ListNotations.
Local Open Scope string_scope.
Local Open Scope nat_scope.
Local Open Scope list_scope.

Lemma live_empty {O} (h : list (hop_ O)) q : live_overrides h q = [] -> omap (fst (hrun h)) q = [].
Proof. intros H. rewrite <- history_overrides in H. now apply map_eq_nil in H. Qed.

(** C123: on a model whose quantizers are still stubs, the tags of each quantizer afterwards are
    exactly those it had, "before/f" for every operator f that was applied to a result of the
    quantizer, and "after/f" for every operator f that made a value the quantizer was applied to
    (with the tags above them). This is for every forward pass, also one that raises at the end,
    in which operators return new tensors, a value that is quantized is used from then on only
    through the quantizer's result, and every quantized result of an operator depends on the
    sample input or on a quantizer. *)
Theorem C123_operator_tags_partial : forall h is_stub own ms b qs n es r w' s',
  annotate is_stub own (fst (hrun h)) ms b qs n es = (r, w', s') -> NoDup qs ->
  (forall q, calls es q -> In q qs /\ is_stub q = true /\ live_overrides h q = []) ->
  no_aliases es -> quantized_once n es -> in_scope n es ->
  (forall pre f args e post, es = pre ++ Apply f args (Err e) :: post -> post = []) ->
  operands_traced n es ->
  forall q ts, ms q = Some ts -> exists ts', metas s' q = Some ts' /\
    forall t, In t ts' <-> In t ts \/ (exists f, follows n es q f /\ implied (before f) t)
                                  \/ (exists f, precedes n es q f /\ implied (after f) t).
Proof.
  intros h is_stub own ms b qs n es r w' s' H Hd Hc. eapply tags_exact; eauto.
  intros q Hq. destruct (Hc q Hq) as (H1 & H2 & H3). repeat split; auto using live_empty.
Qed.
Print Assumptions C123_operator_tags_partial.

(** C123: a quantizer of the model that is not a stub gets no tags, whatever the forward pass
    does: the override that disables it is registered later, so it runs first and does not call
    the one that annotates. *)
Theorem C123_initialized_quantizers_refuted : forall h is_stub own ms b qs n es r w' s',
  annotate is_stub own (fst (hrun h)) ms b qs n es = (r, w', s') -> NoDup qs ->
  (forall q, calls es q -> In q qs /\ (is_stub q = true -> live_overrides h q = [])) ->
  forall q, is_stub q = false -> metas s' q = ms q.
Proof.
  intros h is_stub own ms b qs n es r w' s' H Hd Hc q Hq. eapply tags_grow; eauto.
  intros p Hp. destruct (Hc p Hp) as [H1 H2]. split; [assumption|]. intros Hs. apply live_empty. auto.
Qed.
Print Assumptions C123_initialized_quantizers_refuted.

(** Decomposing a concrete list of steps *)
Ltac steps H :=
  match type of H with
  | _ = ?pre ++ _ :: _ =>
      let y := fresh "y" in
      destruct pre as [|y pre]; cbn [app] in H;
      [first [discriminate H | injection H; clear H; intros; subst; try discriminate]
      |first [discriminate H | injection H; clear H; intros H ?; steps H]]
  | [] = _ => try discriminate
  end.

(** stubs 0 and 1, without tags, in a model without tensors of its own *)
Definition tags_of (n : nat) (es : list step) (q : nat) : option (list string) :=
  metas (snd (annotate (fun _ => true) (fun _ x s => (Ok x, s)) (fst (hrun [])) (fun _ => Some []) true [0; 1] n es)) q.

(** C123: without the condition that a quantized value is only used through the quantizer, an
    operator applied to the unquantized value (as a residual connection does) is taken for one
    applied to the quantizer's result. *)
Theorem C123_residual_refuted :
  let es := [Apply "relu" [0] (Ok [None]); Quantize 0 1; Apply "add" [1] (Ok [None])] in
  no_aliases es /\ in_scope 0 es /\ operands_traced 0 es /\ ~ follows 0 es 0 "add" /\
  exists ts, tags_of 0 es 0 = Some ts /\ In "before/add" ts.
Proof.
  cbv zeta. split; [|split; [|split; [|split]]].
  - intros f args outs [H|[H|[H|[]]]]; try discriminate; injection H as _ _ <-; repeat constructor.
  - intros pre e post H v Hv. steps H; cbn in Hv; unfold next; cbn; try lia; try (destruct Hv as [<-|[]]; lia).
  - intros v q x f args (pre & post & He & Hv) (pre' & outs & post' & k & He' & Hk & Hx).
    exists 0. split; [|constructor].
    steps He; steps He'; cbn in *; try lia; auto.
  - intros (v & x & (pre & post & He & Hv) & (pre' & args & outs & post' & He' & Hin)).
    steps He; steps He'; cbn in *; try lia; destruct Hin as [H|[]]; subst; discriminate.
  - eexists. split; [vm_compute; reflexivity|]. cbn. auto.
Qed.
Print Assumptions C123_residual_refuted.

(** C123: if two quantizers are applied to the same value, an operator applied to the result of
    the first is taken for one applied to the result of the second. *)
Theorem C123_two_quantizers_refuted :
  let es := [Apply "relu" [0] (Ok [None]); Quantize 0 1; Quantize 1 1; Apply "add" [2] (Ok [None])] in
  follows 0 es 0 "add" /\ ~ follows 0 es 1 "add" /\
  (exists ts, tags_of 0 es 0 = Some ts /\ ~ In "before/add" ts) /\
  exists ts, tags_of 0 es 1 = Some ts /\ In "before/add" ts.
Proof.
  cbv zeta. split; [|split; [|split]].
  - exists 2, 1. split.
    + exists [Apply "relu" [0] (Ok [None])], [Quantize 1 1; Apply "add" [2] (Ok [None])]. split; reflexivity.
    + exists [Apply "relu" [0] (Ok [None]); Quantize 0 1; Quantize 1 1], [2], (Ok [None]), []. split; [reflexivity|now left].
  - intros (v & x & (pre & post & He & Hv) & (pre' & args & outs & post' & He' & Hin)).
    steps He; steps He'; cbn in *; try lia; destruct Hin as [H|[]]; subst; discriminate.
  - eexists. split; [vm_compute; reflexivity|]. cbn. intuition discriminate.
  - eexists. split; [vm_compute; reflexivity|]. cbn. auto.
Qed.
Print Assumptions C123_two_quantizers_refuted.

(** C123: an operator that computes a value from the model's own tensors only (such as the
    transpose of a weight) is not recorded, so the quantizer of its result is not tagged. *)
Theorem C123_parameters_refuted :
  let es := [Apply "t" [1] (Ok [None]); Quantize 0 2] in
  precedes 1 es 0 "t" /\ tags_of 1 es 0 = Some [].
Proof.
  cbv zeta. split; [|vm_compute; reflexivity]. exists 3, 2, [1]. split.
  - exists [Apply "t" [1] (Ok [None])], []. split; reflexivity.
  - exists [], [None], [Quantize 0 2], 0. split; [reflexivity|]. split; [cbn; lia|reflexivity].
Qed.
Print Assumptions C123_parameters_refuted.

(** A model with a weight (variable 1) and stubs for input, weight and output of a linear layer;
    the forward pass raises in a last operator. *)
Example C123_nonvacuous :
  let es := [Quantize 0 0; Quantize 1 1; Apply "linear" [2; 3] (Ok [None]); Quantize 2 4; Apply "relu" [5] (Err RuntimeError)] in
  let run := annotate (fun _ => true) (fun _ x s => (Ok x, s)) (fst (hrun [])) (fun _ => Some []) true [0; 1; 2] 1 es in
  (forall q, calls es q -> In q [0; 1; 2]) /\ no_aliases es /\ quantized_once 1 es /\ in_scope 1 es /\ operands_traced 1 es /\
  (forall pre f args e post, es = pre ++ Apply f args (Err e) :: post -> post = []) /\
  fst (fst run) = Some RuntimeError /\
  metas (snd run) 0 = Some ["before/linear"; "before"] /\ metas (snd run) 1 = Some ["before/linear"; "before"] /\
  metas (snd run) 2 = Some ["before/relu"; "before"; "after/linear"; "after"].
Proof.
  cbv zeta. repeat split.
  - intros q (x & [H|[H|[H|[H|[H|[]]]]]]); try discriminate; injection H as <- _; cbn; auto.
  - intros f args outs [H|[H|[H|[H|[H|[]]]]]]; try discriminate; injection H as _ _ <-; repeat constructor.
  - intros e He. steps H; cbn in *; repeat (destruct He as [<-|He]); cbn; intuition discriminate.
  - intros q' x' (pre' & post' & He' & Hx). steps H; steps He'; cbn in *; try discriminate; try lia.
  - intros pre e post H v Hv. steps H; cbn in Hv; unfold next; cbn; try lia; repeat (destruct Hv as [<-|Hv]; [lia|]); destruct Hv.
  - intros v q x f args (pre & post & He & Hv) (pre' & outs & post' & k & He' & Hk & Hx).
    exists 2. split.
    + steps He; steps He'; cbn in *; try lia; auto.
    + apply (traced_quantized _ _ 2 0 0). exists [], [Quantize 1 1; Apply "linear" [2; 3] (Ok [None]); Quantize 2 4; Apply "relu" [5] (Err RuntimeError)].
      split; reflexivity.
  - intros pre f args e post H. steps H. reflexivity.
Qed.

(** C124: whatever the forward pass does and whether or not it raises, afterwards every
    quantizer has the overrides it had before, in the same order, and strict quantization is
    what it was. *)
Theorem C124_model_restored : forall h is_stub own ms b qs n es r w' s',
  annotate is_stub own (fst (hrun h)) ms b qs n es = (r, w', s') ->
  (forall q, omap w' q = omap (fst (hrun h)) q) /\ strict s' = b.
Proof. exact restored. Qed.
Print Assumptions C124_model_restored.

(** C124: no quantizer of the model that is not a stub runs, whatever overrides it has: the
    outcome does not depend on what its [quantize] does. *)
Theorem C124_never_quantizes : forall h is_stub own own' ms b qs n es,
  NoDup qs -> (forall q, calls es q -> In q qs) ->
  annotate is_stub own (fst (hrun h)) ms b qs n es = annotate is_stub own' (fst (hrun h)) ms b qs n es.
Proof. exact never_quantizes. Qed.
Print Assumptions C124_never_quantizes.

(** C124: tags are never removed, and a quantizer without metadata stays without, so that
    annotating with several sample inputs accumulates. *)
Theorem C124_tags_accumulate : forall h is_stub own ms b qs n es r w' s',
  annotate is_stub own (fst (hrun h)) ms b qs n es = (r, w', s') -> NoDup qs ->
  (forall q, calls es q -> In q qs /\ (is_stub q = true -> live_overrides h q = [])) ->
  forall q, (metas s' q = None <-> ms q = None) /\
    (forall ts, ms q = Some ts -> exists ts', metas s' q = Some ts' /\ incl ts ts').
Proof.
  intros h is_stub own ms b qs n es r w' s' H Hd Hc q.
  destruct (tags_grow h is_stub own ms b qs n es r w' s' H Hd) with (q := q) as (_ & H1 & H2); [|auto].
  intros p Hp. destruct (Hc p Hp) as [Hi Hs]. split; [assumption|]. intros Hst. apply live_empty. auto.
Qed.
Print Assumptions C124_tags_accumulate.

(** A stub, a quantizer with an override of the user, and a forward pass that raises *)
Example C124_nonvacuous :
  let h := [HRegister 1 (Other (fun x => BRet (Ok x)))] in
  let es := [Quantize 0 0; Apply "relu" [1] (Ok [None]); Quantize 1 2; Apply "add" [3] (Err ValueError)] in
  let run := annotate (fun q => q =? 0) (fun _ _ s => (Err OutOfMemory, s)) (fst (hrun h)) (fun _ => Some ["input"]) true [0; 1] 0 es in
  fst (fst run) = Some ValueError /\ length (omap (snd (fst run)) 1) = 1 /\ strict (snd run) = true /\
  metas (snd run) 0 = Some ["before/relu"; "before"; "input"] /\ metas (snd run) 1 = Some ["input"].
Proof. vm_compute. repeat split. Qed.
