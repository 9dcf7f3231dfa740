(** Fusing quantize-dequantize values into weights: C35 and C36. *)
From Coq Require Import String.
From Verif Require Import Prelude TilingModel TilingSpec AffineModel FuseModel FuseSpec FuseFloatProofs FuseProofs
  FuseModuleProofs FuseWitness.
From Coq Require Import QArith Permutation.
Local Open Scope nat_scope.

(** C35: a linear quantizer maps its own results to themselves, for every weight, tile
    size, scale and offset, if the codes (with offset) are small enough for the weight's
    floating point format. *)
Theorem C35_linear_idempotent_partial :
  forall d s a w v, fits s a -> precise d a -> shape w = s -> length (data w) = prod s ->
    affine_qdq d a w = Ok v -> affine_qdq d a v = Ok v.
Proof. exact affine_qdq_idem. Qed.
Print Assumptions C35_linear_idempotent_partial.

Theorem C35_linear_quantizers_are_stable :
  forall d s a, fits s a -> precise d a -> stable_on s (fun w => rmap New (affine_qdq d a w)).
Proof. exact affine_stable. Qed.
Print Assumptions C35_linear_quantizers_are_stable.

(** A model with linear quantizers is fused whenever the quantizers of shared weights
    agree: each weight becomes its QDQ value, and quantizing it again gives this value. *)
Theorem C35_linear_models_partial :
  forall d params stub st ts,
    plain_ties ts ->
    (forall t, In t ts -> fits (vshape (t_weight t)) (params (t_quant t)) /\ precise d (params (t_quant t))) ->
    (forall a b va vb, In a ts -> In b ts -> t_weight a = t_weight b ->
       affine_qdq d (params (t_quant a)) (read (mem st) (t_weight a)) = Ok va ->
       affine_qdq d (params (t_quant b)) (read (mem st) (t_weight b)) = Ok vb -> teq va vb) ->
    exists st', fuse_qdq_weights (fun q w => rmap New (affine_qdq d (params q) w)) stub st ts = Ok st' /\
      forall t, In t ts -> exists v,
        affine_qdq d (params (t_quant t)) (read (mem st) (t_weight t)) = Ok v /\
        teq (read (mem st') (t_weight t)) v /\
        affine_qdq d (params (t_quant t)) (read (mem st') (t_weight t)) = Ok v.
Proof. exact linear_fused. Qed.
Print Assumptions C35_linear_models_partial.

(** For any quantizers that are stable: a fused weight holds its quantizer's value and is a
    fixed point. *)
Theorem C35_fused_weights_partial :
  forall call ts, plain_ties ts ->
    (forall t, In t ts -> stable_on (vshape (t_weight t)) (call (t_quant t))) ->
    forall stub st st' t, fuse_qdq_weights call stub st ts = Ok st' -> In t ts ->
    exists o o',
      call (t_quant t) (read (mem st) (t_weight t)) = Ok o /\
      teq (read (mem st') (t_weight t)) (value (read (mem st) (t_weight t)) o) /\
      call (t_quant t) (read (mem st') (t_weight t)) = Ok o' /\
      teq (value (read (mem st') (t_weight t)) o') (read (mem st') (t_weight t)).
Proof. exact fused. Qed.
Print Assumptions C35_fused_weights_partial.

(** The weight a module computes with is unchanged, whether its quantizer was replaced by
    a stub or not. *)
Theorem C35_forward_unchanged_partial :
  forall call ts stub st st' t m name,
    plain_ties ts -> (forall t, In t ts -> stable_on (vshape (t_weight t)) (call (t_quant t))) ->
    fuse_qdq_weights call stub st ts = Ok st' -> In t ts ->
    nth_error (mods st) (t_mod t) = Some m -> weight m = Some (t_weight t) -> child_named m name (CQuant (t_quant t)) ->
    exists m' v v', nth_error (mods st') (t_mod t) = Some m' /\
      forward_weight call st m name = Ok v /\ forward_weight call st' m' name = Ok v' /\ teq v v'.
Proof. exact forward_same. Qed.
Print Assumptions C35_forward_unchanged_partial.

(** Nothing else changes: memory outside the fused weights, and modules that share none. *)
Theorem C35_other_memory :
  forall call ts, plain_ties ts -> (forall t, In t ts -> stable_on (vshape (t_weight t)) (call (t_quant t))) ->
    forall stub st st' a, fuse_qdq_weights call stub st ts = Ok st' ->
      (forall t, In t ts -> ~ In a (addrs (t_weight t))) -> mem st' a = mem st a.
Proof. exact fuse_frame. Qed.
Print Assumptions C35_other_memory.

Theorem C35_other_modules :
  forall call ts stub st st' i m w name,
    plain_ties ts -> (forall t, In t ts -> stable_on (vshape (t_weight t)) (call (t_quant t))) ->
    fuse_qdq_weights call stub st ts = Ok st' ->
    nth_error (mods st) i = Some m -> weight m = Some w ->
    (forall t, In t ts -> t_mod t <> i /\ disjoint (t_weight t) w) ->
    nth_error (mods st') i = Some m /\ forward_weight call st' m name = forward_weight call st m name.
Proof. exact forward_other. Qed.
Print Assumptions C35_other_modules.

(** Fusing the same weights again succeeds and changes nothing. *)
Theorem C35_twice_partial :
  forall call ts, plain_ties ts -> (forall t, In t ts -> stable_on (vshape (t_weight t)) (call (t_quant t))) ->
    forall stub stub' st st', fuse_qdq_weights call stub st ts = Ok st' ->
    exists st'', fuse_qdq_weights call stub' st' ts = Ok st'' /\ forall a, (mem st'' a == mem st' a)%Q.
Proof. exact fuse_again. Qed.
Print Assumptions C35_twice_partial.

(** With stubbing, a fused quantizer registered under one name is replaced by a stub
    that keeps its metadata, under the same name. *)
Theorem C35_stubbed :
  forall call ts st st' t m,
    plain_ties ts -> (forall t, In t ts -> stable_on (vshape (t_weight t)) (call (t_quant t))) ->
    fuse_qdq_weights call true st ts = Ok st' -> In t ts ->
    call (t_quant t) (read (mem st) (t_weight t)) <> Ok Same ->
    nth_error (mods st) (t_mod t) = Some m -> NoDup (map fst (children m)) ->
    (forall n n', In (n, CQuant (t_quant t)) (children m) -> In (n', CQuant (t_quant t)) (children m) -> n = n') ->
    exists m', nth_error (mods st') (t_mod t) = Some m' /\ weight m' = weight m /\
      map fst (children m') = map fst (children m) /\
      (forall n, ~ In (n, CQuant (t_quant t)) (children m')) /\
      (forall n, In (n, CQuant (t_quant t)) (children m) -> In (n, CStub (t_quant t)) (children m')).
Proof. exact stubbed_once. Qed.
Print Assumptions C35_stubbed.

(** Without it no module changes, and a module whose quantizers are all disabled is never
    changed. *)
Theorem C35_not_stubbed :
  forall call ts st st', fuse_qdq_weights call false st ts = Ok st' -> mods st' = mods st.
Proof. exact fuse_keeps_mods. Qed.
Print Assumptions C35_not_stubbed.

Theorem C35_disabled_kept :
  forall call ts stub st st' i,
    plain_ties ts -> (forall t, In t ts -> stable_on (vshape (t_weight t)) (call (t_quant t))) ->
    fuse_qdq_weights call stub st ts = Ok st' ->
    (forall t, In t ts -> t_mod t = i -> call (t_quant t) (read (mem st) (t_weight t)) = Ok Same) ->
    nth_error (mods st') i = nth_error (mods st) i.
Proof. exact disabled_untouched. Qed.
Print Assumptions C35_disabled_kept.

(** Stubbing alone writes no weight. *)
Theorem C35_stub_only :
  forall st ts i m, nth_error (mods st) i = Some m ->
    mem (stub_weight_quantizers st ts) = mem st /\
    exists m', nth_error (mods (stub_weight_quantizers st ts)) i = Some m' /\ weight m' = weight m /\
      map fst (children m') = map fst (children m).
Proof. exact (fun st ts i m H => conj (stub_only_mem st ts) (stub_only_weights st ts i m H)). Qed.
Print Assumptions C35_stub_only.

(** It replaces every discovered weight quantizer (registered under one name). *)
Theorem C35_stub_only_stubs :
  forall st ts t m, In t ts -> nth_error (mods st) (t_mod t) = Some m -> NoDup (map fst (children m)) ->
    (forall n n', In (n, CQuant (t_quant t)) (children m) -> In (n', CQuant (t_quant t)) (children m) -> n = n') ->
    exists m', nth_error (mods (stub_weight_quantizers st ts)) (t_mod t) = Some m' /\
      (forall n, ~ In (n, CQuant (t_quant t)) (children m')) /\
      (forall n, In (n, CQuant (t_quant t)) (children m) -> In (n, CStub (t_quant t)) (children m')).
Proof. exact stub_only_stubs. Qed.
Print Assumptions C35_stub_only_stubs.

(** The default discovery selects exactly the found quantizers whose parent module has a
    weight. *)
Theorem C35_discovery :
  forall ms found p w q, In (mkTarget p w q) (convention ms found) <->
    In (p, CQuant q) found /\ exists m, nth_error ms p = Some m /\ weight m = Some w.
Proof. exact convention_spec. Qed.
Print Assumptions C35_discovery.

(** Without the precision condition fusing is not idempotent: a bfloat16 weight 200,
    clipped by an 8-bit quantizer with offset 16 and scale 115/128, is fused to 128, which
    the same quantizer maps to 127.5. *)
Theorem C35_rounding_refuted :
  exists st' st'' m,
    fits [1] bf16_quant /\ fuse_qdq_weights bf16_call false bf16_state [bf16_target] = Ok st' /\
    fuse_qdq_weights bf16_call false st' [bf16_target] = Ok st'' /\
    (mem st' 0%nat == 128)%Q /\ (mem st'' 0%nat == 255 # 2)%Q /\
    nth_error (mods st') 0 = Some m /\
    rmap data (forward_weight bf16_call bf16_state m wq) <> rmap data (forward_weight bf16_call st' m wq).
Proof.
  do 3 eexists. split; [|split; [vm_compute; reflexivity|]].
  - unfold fits. split; [discriminate|]. split; [|split; [reflexivity|split; [|split; [|reflexivity]]]].
    + constructor; [split; [lia|exists 1; reflexivity]|constructor].
    + intros o E. injection E as <-. reflexivity.
    + intros x [<-|[]]. discriminate.
  - split; [vm_compute; reflexivity|]. split; [reflexivity|]. split; [reflexivity|]. split; [reflexivity|]. vm_compute. discriminate.
Qed.
Print Assumptions C35_rounding_refuted.

(** A module that shares a fused weight but does not quantize it computes with other
    values afterwards. *)
Theorem C35_shared_unquantized_refuted :
  exists st' m v v',
    fuse_qdq_weights (fun _ w => rmap New (affine_qdq Exact half_step w)) true shared_state [mkTarget 0 pair_view 0] = Ok st' /\
    nth_error (mods shared_state) 1 = Some m /\ nth_error (mods st') 1 = Some m /\
    forward_weight (fun _ w => rmap New (affine_qdq Exact half_step w)) shared_state m wq = Ok v /\
    forward_weight (fun _ w => rmap New (affine_qdq Exact half_step w)) st' m wq = Ok v' /\ ~ teq v v'.
Proof.
  do 4 eexists. split; [vm_compute; reflexivity|]. split; [vm_compute; reflexivity|]. split; [reflexivity|].
  split; [vm_compute; reflexivity|]. split; [vm_compute; reflexivity|].
  intros [_ F]. inversion F as [|? ? ? ? E _]. vm_compute in E. discriminate.
Qed.
Print Assumptions C35_shared_unquantized_refuted.

(** C36: if fusing succeeds, all quantizers of a shared weight give it the same value. *)
Theorem C36_tied_agree :
  forall call ts, plain_ties ts ->
    forall stub st st' a b oa ob,
      fuse_qdq_weights call stub st ts = Ok st' -> In a ts -> In b ts -> t_weight a = t_weight b ->
      call (t_quant a) (read (mem st) (t_weight a)) = Ok oa -> call (t_quant b) (read (mem st) (t_weight b)) = Ok ob ->
      teq (value (read (mem st) (t_weight a)) oa) (value (read (mem st) (t_weight b)) ob).
Proof. exact agree_weights. Qed.
Print Assumptions C36_tied_agree.

(** If they do not, fusing raises QuantizationError. *)
Theorem C36_disagreement_rejected :
  forall call ts st stub a b oa ob,
    plain_ties ts ->
    (forall t, In t ts -> exists o, call (t_quant t) (read (mem st) (t_weight t)) = Ok o) ->
    In a ts -> In b ts -> t_weight a = t_weight b ->
    call (t_quant a) (read (mem st) (t_weight a)) = Ok oa -> call (t_quant b) (read (mem st) (t_weight b)) = Ok ob ->
    ~ teq (value (read (mem st) (t_weight a)) oa) (value (read (mem st) (t_weight b)) ob) ->
    fuse_qdq_weights call stub st ts = Err QuantizationError.
Proof. exact disagreement_rejected. Qed.
Print Assumptions C36_disagreement_rejected.

(** If they do, fusing succeeds (stable quantizers). *)
Theorem C36_agreement_accepted :
  forall call ts, plain_ties ts -> (forall t, In t ts -> stable_on (vshape (t_weight t)) (call (t_quant t))) ->
    forall stub st,
    (forall t, In t ts -> exists o, call (t_quant t) (read (mem st) (t_weight t)) = Ok o) ->
    (forall a b oa ob, In a ts -> In b ts -> t_weight a = t_weight b ->
       call (t_quant a) (read (mem st) (t_weight a)) = Ok oa -> call (t_quant b) (read (mem st) (t_weight b)) = Ok ob ->
       teq (value (read (mem st) (t_weight a)) oa) (value (read (mem st) (t_weight b)) ob)) ->
    exists st', fuse_qdq_weights call stub st ts = Ok st'.
Proof. exact fuse_total. Qed.
Print Assumptions C36_agreement_accepted.

(** The fused weights do not depend on the visiting order (stable quantizers). *)
Theorem C36_order_independent_partial :
  forall call ts ts' stub stub' st st1,
    plain_ties ts -> (forall t, In t ts -> stable_on (vshape (t_weight t)) (call (t_quant t))) ->
    Permutation ts ts' -> fuse_qdq_weights call stub st ts = Ok st1 ->
    exists st2, fuse_qdq_weights call stub' st ts' = Ok st2 /\ forall a, (mem st2 a == mem st1 a)%Q.
Proof. exact order_independent. Qed.
Print Assumptions C36_order_independent_partial.

(** A weight shared through a view of another shape is not recognised as tied: fusing
    succeeds although the quantizers disagree, and the result is off the grid of one. *)
Theorem C36_reshaped_tie_refuted :
  exists st' v v',
    fuse_qdq_weights (fun q w => rmap New (affine_qdq Exact (reshaped_params q) w)) false reshaped_state reshaped_targets = Ok st' /\
    addrs pair_view = addrs column_view /\
    affine_qdq Exact unit_step (read (mem reshaped_state) pair_view) = Ok v /\
    ~ teq (read (mem st') pair_view) v /\
    affine_qdq Exact unit_step (read (mem st') pair_view) = Ok v' /\ ~ teq (read (mem st') pair_view) v'.
Proof.
  do 3 eexists. split; [vm_compute; reflexivity|]. split; [reflexivity|]. split; [vm_compute; reflexivity|].
  split; [intros [_ F]; inversion F as [|? ? ? ? E _]; vm_compute in E; discriminate|].
  split; [vm_compute; reflexivity|]. intros [_ F]. inversion F as [|? ? ? ? E _]. vm_compute in E. discriminate.
Qed.
Print Assumptions C36_reshaped_tie_refuted.

(** A square weight shared with its transpose has the same address and shape; the
    comparison then uses one layout for both modules and passes, although the per-row
    quantizer snaps the two layouts to different values. *)
Theorem C36_transposed_tie_refuted :
  exists st' v,
    fuse_qdq_weights (fun _ w => rmap New (affine_qdq Exact row_quant w)) false square_state square_targets = Ok st' /\
    affine_qdq Exact row_quant (read (mem st') square_view) = Ok v /\ ~ teq (read (mem st') square_view) v.
Proof.
  do 2 eexists. split; [vm_compute; reflexivity|]. split; [vm_compute; reflexivity|].
  intros [_ F]. inversion F as [|? ? ? ? _ G]. inversion G as [|? ? ? ? E _]. vm_compute in E. discriminate.
Qed.
Print Assumptions C36_transposed_tie_refuted.

(** One custom quantizer instance shared by two modules with one weight: the quantizer is
    applied twice, so the weight is not its QDQ value (even when it is replaced by stubs). *)
Theorem C36_shared_instance_refuted :
  exists st' v, fuse_qdq_weights halving true twice_state twice_targets = Ok st' /\
    halving 0 (read (mem twice_state) pair_view) = Ok (New v) /\ ~ teq (read (mem st') pair_view) v.
Proof.
  do 2 eexists. split; [vm_compute; reflexivity|]. split; [vm_compute; reflexivity|].
  intros [_ F]. inversion F as [|? ? ? ? E _]. vm_compute in E. discriminate.
Qed.
Print Assumptions C36_shared_instance_refuted.

(** The hypotheses are met by a model with two tied modules and one with a block-wise
    asymmetric quantizer, for float16 weights. *)
Example C35_nonvacuous :
  plain_ties lin_targets /\ targets_of (mods lin_state) lin_targets /\
  (forall t, In t lin_targets -> fits (vshape (t_weight t)) (lin_params (t_quant t)) /\ precise (Bits 11) (lin_params (t_quant t))) /\
  exists st', fuse_qdq_weights (fun q w => rmap New (affine_qdq (Bits 11) (lin_params q) w)) true lin_state lin_targets = Ok st' /\
    map (fun a => Qred (mem st' a)) [0; 1; 2; 3; 4; 5] = [3 # 2; 3 # 2; 1 # 2; 1%Q; 5 # 4; 7 # 4] /\
    map (fun m => map snd (children m)) (mods st') = [[CStub 0]; [CStub 1]; [COther 0; CStub 2]].
Proof.
  assert (D1 : tile_divides [2] [2]) by (constructor; [split; [lia|exists 1; reflexivity]|constructor]).
  assert (D2 : tile_divides [2; 2] [1; 2]).
  { constructor; [split; [lia|exists 2; reflexivity]|]. constructor; [split; [lia|exists 1; reflexivity]|constructor]. }
  split; [|split; [|split]].
  - split.
    + intros t [<-|[<-|[<-|[]]]]; split; try reflexivity; cbn;
      repeat (constructor; [cbn; lia|]); constructor.
    + intros a b Ia Ib. cbn in Ia, Ib.
      assert (X : disjoint pair_view (mkView 2 [2; 2] [2; 3; 4; 5])) by (intros x [<-|[<-|[]]]; cbn; lia).
      assert (Y : disjoint (mkView 2 [2; 2] [2; 3; 4; 5]) pair_view) by (intros x H [<-|[<-|[]]]; cbn in H; lia).
      destruct Ia as [<-|[<-|[<-|[]]]], Ib as [<-|[<-|[<-|[]]]]; cbn [t_weight]; try (left; reflexivity);
      right; (split; [assumption|]); intros [E _]; discriminate.
  - intros t [<-|[<-|[<-|[]]]]; eexists; split; reflexivity.
  - intros t [<-|[<-|[<-|[]]]]; split.
    1,3: (unfold fits; split; [discriminate|]; split; [exact D1|]; split; [reflexivity|]; split; [discriminate|]; split; [|reflexivity];
          intros x [<-|[]]; discriminate).
    1,2: (cbn; lia).
    + unfold fits. split; [discriminate|]. split; [exact D2|]. split; [reflexivity|]. split; [intros o E; injection E as <-; reflexivity|].
      split; [intros x [<-|[<-|[]]]; discriminate|reflexivity].
    + cbn. intros z Hz o [<-|[<-|[]]]; vm_compute (round_half_even _); lia.
  - eexists. split; [vm_compute; reflexivity|]. split; reflexivity.
Qed.

Example C36_nonvacuous :
  fuse_qdq_weights (fun q w => rmap New (affine_qdq Exact (reshaped_params q) w)) false
    (mkState pair_mem [mkMod (Some pair_view) [(wq, CQuant 0)]; mkMod (Some pair_view) [(wq, CQuant 1)]])
    [mkTarget 0 pair_view 0; mkTarget 1 pair_view 1] = Err QuantizationError.
Proof. vm_compute. reflexivity. Qed.
