(** Properties of the FX passes: C64, C76, C77, C78. *)
From Verif Require Import Prelude TilingModel TilingSpec EncModel AffineModel FxModel FxSpec FxProofs
  FxRunProofs FxPropProofs FxViewProofs FxWitness.
From Coq Require Import QArith Relations.
Local Open Scope nat_scope.
Local Open Scope list_scope.

(** ** C64: propagation through views *)

(** The pass ends, leaves the nodes alone and never changes a spec that is there. *)
Theorem C64_ends_and_keeps : forall (S : Type) g (m : nat -> option S),
  ordered g -> views_have_input g ->
  exists N, forall fuel, N <= fuel -> exists st', propagate fuel (mkGraph g m) = Ok st' /\
    g_nodes st' = g /\ forall n s, m n = Some s -> g_meta st' n = Some s.
Proof.
  intros S g m Ho Hv. destruct (propagate_total g m Ho Hv) as (N & HN). exists N. intros fuel Hf.
  destruct (HN fuel Hf) as (st' & E). exists st'. split; [exact E|]. exact (propagate_keeps _ _ _ _ Ho E).
Qed.
Print Assumptions C64_ends_and_keeps.

(** Every spec found afterwards is the spec of a node that had it before and that is connected by
    views. *)
Theorem C64_only_copies : forall (S : Type) fuel g (m : nat -> option S) st',
  ordered g -> propagate fuel (mkGraph g m) = Ok st' ->
  forall n s, g_meta st' n = Some s -> exists k, m k = Some s /\ connected g k n.
Proof. exact @propagate_copies. Qed.
Print Assumptions C64_only_copies.

(** Everything derived by views from an annotated node is annotated, and so is everything an
    annotated node (annotated before or by the pass) is derived from. *)
Theorem C64_reaches_partial : forall (S : Type) fuel g (m : nat -> option S) st',
  ordered g -> propagate fuel (mkGraph g m) = Ok st' ->
  (forall x y, m x <> None -> derived g x y -> g_meta st' y <> None) /\
  (forall x y, derived g x y -> g_meta st' y <> None -> g_meta st' x <> None).
Proof.
  intros S fuel g m st' Ho H. split; [exact (propagate_down _ _ _ _ Ho H)|exact (propagate_up _ _ _ _ Ho H)].
Qed.
Print Assumptions C64_reaches_partial.

(** All connected nodes are reached if no node has two views or if the input of every annotated
    view is annotated. *)
Theorem C64_complete_partial : forall (S : Type) fuel g (m : nat -> option S) st',
  ordered g -> propagate fuel (mkGraph g m) = Ok st' ->
  (forall a b c, view_of g a c -> view_of g b c -> a = b) \/
  (forall v i, view_of g v i -> m v <> None -> m i <> None) ->
  forall x y, m x <> None -> connected g x y -> g_meta st' y <> None.
Proof. exact @propagate_complete. Qed.
Print Assumptions C64_complete_partial.

(** In general the pass is not complete: of two views of a tensor, the first stays without a spec
    if only the second has one. *)
Theorem C64_complete_refuted : exists g (m : nat -> option nat) x y,
  ordered g /\ m x <> None /\ connected g x y /\
  forall fuel st', propagate fuel (mkGraph g m) = Ok st' -> g_meta st' y = None.
Proof.
  exists g_fork, (fun k => if k =? 2 then Some 42 else None), 2, 1.
  split; [exact g_fork_ordered|]. split; [discriminate|]. split.
  - eapply rt_trans; apply rt_step; [right; exact g_fork_view2|left; exact g_fork_view1].
  - intros fuel st'. do 4 (destruct fuel as [|fuel]; [discriminate|]).
    destruct fuel as [|fuel]; intros H; injection H as <-; reflexivity.
Qed.
Print Assumptions C64_complete_refuted.

Example C64_nonvacuous :
  ordered g_chain /\ views_have_input g_chain /\
  (forall a b c, view_of g_chain a c -> view_of g_chain b c -> a = b) /\
  exists st', propagate 9 (mkGraph g_chain (fun k => if k =? 3 then Some 42 else None)) = Ok st' /\
    g_meta st' 0 = Some 42 /\ g_meta st' 1 = Some 42 /\ g_meta st' 3 = Some 42.
Proof.
  split; [exact g_chain_ordered|]. split; [|split].
  - intros n f H E. cbn in H. repeat destruct H as [<-|H]; try contradiction; discriminate.
  - intros a b c (n & f & Hn & <- & E & Ha) (n' & f' & Hn' & <- & E' & Hb).
    cbn in Hn, Hn'. repeat destruct Hn as [<-|Hn]; try contradiction; try discriminate;
      repeat destruct Hn' as [<-|Hn']; try contradiction; try discriminate; try reflexivity;
      cbn in Ha, Hb; congruence.
  - eexists. split; [reflexivity|]. cbn. auto.
Qed.

(** ** C76: the annotation pass *)

(** Exactly the quantize and dequantize nodes are removed; the other nodes keep their order,
    operators and arguments, references to removed nodes being replaced by what those read. *)
Theorem C76_removes_exactly : forall params g meta0 st',
  ordered g -> annotate params (mkGraph g meta0) = Ok st' ->
  Forall2 (fun n n' => n_id n' = n_id n /\ n_op n' = n_op n /\ n_shape n' = n_shape n /\
             Forall2 (origin g) (n_args n) (n_args n'))
    (filter kept g) (g_nodes st').
Proof.
  intros params g meta0 st' Ho H.
  replace (filter kept g) with (filter (fun n => negb (is_quantization_node n)) g);
    [exact (annotate_nodes _ _ _ _ Ho H)|].
  apply filter_ext. intros n. unfold kept, is_quantization_node. now destruct (n_op n).
Qed.
Print Assumptions C76_removes_exactly.

(** The result computes what the original computes with quantization switched off. *)
Theorem C76_same_function : forall (V : Type) params g meta0 st' (interp : op -> list V -> V),
  ordered g -> without_quantization interp ->
  annotate params (mkGraph g meta0) = Ok st' ->
  forall e n, In n g -> ~ is_qdq n ->
    run interp (g_nodes st') e (n_id n) = run interp g e (n_id n).
Proof. exact @annotate_same_function. Qed.
Print Assumptions C76_same_function.

(** A tensor gets the parameters of the last quantizer that reads it; all other tensors keep the
    spec they had. *)
Theorem C76_specs : forall params g meta0 st',
  ordered g -> annotate params (mkGraph g meta0) = Ok st' ->
  (forall x, (forall q, ~ quantizes g q x) -> g_meta st' x = meta0 x) /\
  (forall pre q post x, g = pre ++ q :: post -> quantizes g q x ->
     (forall q', In q' post -> ~ quantizes g q' x) ->
     exists s, spec_of params g q x s /\ g_meta st' x = Some s).
Proof. exact annotate_specs. Qed.
Print Assumptions C76_specs.

(** The pass accepts every graph whose quantizers have integer bit widths and whose scales and
    offsets are parameters. *)
Theorem C76_accepted : forall params g meta0,
  ordered g -> (forall n, In n g -> supported params g n) ->
  exists st', annotate params (mkGraph g meta0) = Ok st'.
Proof. exact annotate_total. Qed.
Print Assumptions C76_accepted.

Example C76_nonvacuous :
  ordered g_both /\ (forall n, In n g_both -> supported w_params g_both n) /\
  without_quantization w_off /\
  annotate w_params (mkGraph g_both (fun _ => None)) =
    Ok (mkGraph left_nodes (set_meta (fun _ => None) 0 w_spec)).
Proof.
  split; [exact g_both_ordered|]. split; [exact w_supported|]. split; [|reflexivity].
  intros o v vs. destruct o; reflexivity || exact I.
Qed.

(** ** C77: the annotated graph stands for the quantized model *)

(** If every quantized tensor is read through its one quantizer only, then the annotated graph,
    run with each annotated tensor read through the fake quantizer of its spec, computes what the
    quantized graph computes. *)
Theorem C77_faithful_partial :
  forall (V : Type) params g st' (interp : op -> list V -> V) (fake : spec -> V -> V) e,
  ordered g -> separated g ->
  annotate params (mkGraph g (fun _ => None)) = Ok st' ->
  (forall d q x s v, In d g -> quantizes g q x -> spec_of params g q x s ->
     (exists t rest, n_op d = Dequantize t /\ n_args d = n_id q :: rest) ->
     interp (n_op d)
       (interp (n_op q) (v :: map (run interp g e) (tl (n_args q)))
        :: map (run interp g e) (tl (n_args d))) = fake s v) ->
  forall n, In n g -> ~ is_qdq n ->
    run_annotated interp fake st' e (n_id n) = run interp g e (n_id n).
Proof. exact @annotate_faithful. Qed.
Print Assumptions C77_faithful_partial.

Example C77_nonvacuous :
  ordered g_both /\ separated g_both /\
  annotate w_params (mkGraph g_both (fun _ => None)) =
    Ok (mkGraph left_nodes (set_meta (fun _ => None) 0 w_spec)) /\
  (forall e d q x s v, In d g_both -> quantizes g_both q x -> spec_of w_params g_both q x s ->
     (exists t rest, n_op d = Dequantize t /\ n_args d = n_id q :: rest) ->
     w_interp (n_op d)
       (w_interp (n_op q) (v :: map (run w_interp g_both e) (tl (n_args q)))
        :: map (run w_interp g_both e) (tl (n_args d))) = w_fake s v) /\
  (run w_interp g_both (fun _ => 0%Q) 7 == 1 # 2)%Q.
Proof.
  split; [exact g_both_ordered|]. split; [exact w_separated|]. split; [reflexivity|].
  split; [|reflexivity].
  intros e d q x s v Hd (Hq & Hqq & _) Hs (t & rest & Et & Ea).
  cbn in Hq. repeat destruct Hq as [<-|Hq]; try contradiction.
  cbn in Hd. repeat destruct Hd as [<-|Hd]; try contradiction; try discriminate.
  destruct Hs as (tile & b & dt & sc & of & more & ss & os & xn & E1 & E2 & N1 & N2 & _ & _ & ->).
  injection E1 as <- <-. injection E2 as <- <- <- <-.
  assert (ss = [1 # 2]%Q) as ->.
  { destruct N1 as (p & name & Hp & Ep & Eo & Ev). cbn in Hp.
    repeat destruct Hp as [<-|Hp]; try contradiction; try discriminate.
    destruct Eo as [Eo|Eo]; [|discriminate]. injection Eo as <-. cbn in Ev. congruence. }
  assert (os = [0]%Q) as ->.
  { destruct N2 as (p & name & Hp & Ep & Eo & Ev). cbn in Hp.
    repeat destruct Hp as [<-|Hp]; try contradiction; try discriminate.
    destruct Eo as [Eo|Eo]; [|discriminate]. injection Eo as <-. cbn in Ev. congruence. }
  reflexivity.
Qed.

(** A tensor that is also read without its quantizer: two models that compute different results
    become the same annotated graph. *)
Theorem C77_raw_read_refuted :
  exists params g1 g2 st (interp : op -> list Q -> Q) n,
    ordered g1 /\ ordered g2 /\
    annotate params (mkGraph g1 (fun _ => None)) = Ok st /\
    annotate params (mkGraph g2 (fun _ => None)) = Ok st /\
    In n g1 /\ In n g2 /\ ~ is_qdq n /\
    forall e, ~ (run interp g1 e (n_id n) == run interp g2 e (n_id n))%Q.
Proof.
  exists w_params, g_both, g_raw, (mkGraph left_nodes (set_meta (fun _ => None) 0 w_spec)),
    (fun o vs => match o, vs with Output, [_; b] => b | _, _ => w_interp o vs end), w_out.
  split; [now apply ordered_check|]. split; [now apply ordered_check|].
  split; [reflexivity|]. split; [reflexivity|].
  split; [cbn; auto 10|]. split; [cbn; auto 10|]. split; [cbn; auto|].
  intros e H. vm_compute in H. discriminate.
Qed.
Print Assumptions C77_raw_read_refuted.

(** A tensor read through two quantizers: the first one is lost, and a different model has the
    same annotated graph. *)
Theorem C77_two_quantizers_refuted :
  exists params g1 g2 nodes m1 m2 (interp : op -> list Q -> Q) n,
    ordered g1 /\ ordered g2 /\
    annotate params (mkGraph g1 (fun _ => None)) = Ok (mkGraph nodes m1) /\
    annotate params (mkGraph g2 (fun _ => None)) = Ok (mkGraph nodes m2) /\
    (forall k, m1 k = m2 k) /\
    In n g1 /\ In n g2 /\ ~ is_qdq n /\
    forall e, ~ (run interp g1 e (n_id n) == run interp g2 e (n_id n))%Q.
Proof.
  exists w_params, g_two, g_last, left_nodes2,
    (set_meta (set_meta (fun _ => None) 0 w_spec) 0 w_spec2), (set_meta (fun _ => None) 0 w_spec2),
    w_interp, w_out.
  split; [now apply ordered_check|]. split; [now apply ordered_check|].
  split; [reflexivity|]. split; [reflexivity|].
  split; [intros k; unfold set_meta; now destruct (k =? 0)|].
  split; [cbn; auto 12|]. split; [cbn; auto 10|]. split; [cbn; auto|].
  intros e H. vm_compute in H. discriminate.
Qed.
Print Assumptions C77_two_quantizers_refuted.

(** ** C78: specs copied to views *)

(** A spec that gives every element of the view the parameters of the element it shows: fake
    quantization commutes with the view. *)
Theorem C78_view_commutes_partial : forall p t t' scale ta ta' b out off,
  wf t -> wf t' -> numel t <> 0 -> numel t' <> 0 -> is_view p t t' ->
  fits (shape t) ta scale off -> fits (shape t') ta' scale off -> can_support_bitwidth out b = true ->
  (forall idx, valid (shape t') idx ->
     tile_row (shape t') (resolve_tile (shape t') ta') idx =
     tile_row (shape t) (resolve_tile (shape t) ta) (p idx)) ->
  exists r r', fake_quantize t scale ta b out off = Ok r /\
    fake_quantize t' scale ta' b out off = Ok r' /\ shape r' = shape t' /\ is_view p r r'.
Proof. exact fake_view. Qed.
Print Assumptions C78_view_commutes_partial.

(** In particular for per-tensor quantization and every view. *)
Theorem C78_per_tensor_partial : forall p t t' s b out off,
  wf t -> wf t' -> Forall (fun n => 0 < n) (shape t) -> Forall (fun n => 0 < n) (shape t') ->
  is_view p t t' -> ~ (s == 0)%Q -> (forall l, off = Some l -> length l = 1) ->
  can_support_bitwidth out b = true ->
  exists r r', fake_quantize t [s] DataShape b out off = Ok r /\
    fake_quantize t' [s] DataShape b out off = Ok r' /\ shape r' = shape t' /\ is_view p r r'.
Proof. exact fake_view_per_tensor. Qed.
Print Assumptions C78_per_tensor_partial.

(** Not for per-channel quantization: the spec copied to the transpose of a square matrix quantizes
    its columns with the scales of the rows. *)
Theorem C78_transpose_refuted : exists p t t' scale tile b out,
  wf t /\ wf t' /\ is_view p t t' /\ shape t' = shape t /\
  fits (shape t) (Tile tile) scale None /\ can_support_bitwidth out b = true /\
  forall r r', fake_quantize t scale (Tile tile) b out None = Ok r ->
    fake_quantize t' scale (Tile tile) b out None = Ok r' ->
    exists idx y y', valid (shape t') idx /\ at_index r (p idx) = Some y /\
      at_index r' idx = Some y' /\ ~ (y == y')%Q.
Proof.
  exists swap, sq, sq_t, [1 # 1; 4 # 1]%Q, [1; 2], 8%positive, (IntT 8 true).
  split; [reflexivity|]. split; [reflexivity|]. split; [exact swap_view|]. split; [reflexivity|].
  split; [|split; [reflexivity|]].
  - constructor.
    + repeat constructor; try lia; [exists 2|exists 1]; reflexivity.
    + reflexivity.
    + discriminate.
    + intros s [<-|[<-|[]]]; vm_compute; discriminate.
  - intros r r' H H'. vm_compute in H, H'. injection H as <-. injection H' as <-.
    exists [0; 1]. eexists. eexists. split; [|split; [reflexivity|split; [reflexivity|]]].
    + repeat constructor.
    + vm_compute. discriminate.
Qed.
Print Assumptions C78_transpose_refuted.

Example C78_nonvacuous :
  wf sq /\ wf sq_t /\ is_view swap sq sq_t /\ numel sq <> 0 /\ numel sq_t <> 0 /\
  fits (shape sq) (Tile [1; 2]) [1 # 1; 4 # 1]%Q None /\
  fits (shape sq_t) (Tile [2; 1]) [1 # 1; 4 # 1]%Q None /\
  forall idx, valid (shape sq_t) idx ->
    tile_row (shape sq_t) [2; 1] idx = tile_row (shape sq) [1; 2] (swap idx).
Proof.
  split; [reflexivity|]. split; [reflexivity|]. split; [exact swap_view|].
  split; [discriminate|]. split; [discriminate|]. split; [|split].
  - constructor; [|reflexivity|discriminate|intros s [<-|[<-|[]]]; vm_compute; discriminate].
    repeat constructor; try lia; [exists 2|exists 1]; reflexivity.
  - constructor; [|reflexivity|discriminate|intros s [<-|[<-|[]]]; vm_compute; discriminate].
    repeat constructor; try lia; [exists 1|exists 2]; reflexivity.
  - intros idx H. unfold valid in H. cbn in H.
    inversion H as [|i n idx' sh Hi H']; subst. inversion H' as [|j n' idx'' sh' Hj H'']; subst.
    inversion H''; subst. destruct i as [|[|i]], j as [|[|j]]; try lia; reflexivity.
Qed.
