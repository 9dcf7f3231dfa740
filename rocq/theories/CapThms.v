(** C110 and C111: module export. *)
From Coq Require Import String.
From Verif Require Import Prelude TilingModel TilingSpec GranularityModel AffineModel EncModel EncSpec CapModel CapSpec CapProofs.
From Coq Require Import QArith.
Local Open Scope nat_scope.
Local Open Scope list_scope.

(** ** C110: recorded inputs and outputs *)

(** If the export succeeds, no hooks are left, and the files of every module hold its last call in the run without
    quantization and in the quantized one: arguments with the same structure, in which exactly the quantized tensors are
    replaced by their values, outputs as a flat list, and for each the parameters of the quantized tensors. *)
Theorem C110_recorded : forall plain_run quantized_run export h0 ops args kwargs modules out left, fresh h0 ->
  export_modules plain_run quantized_run export (run h0 ops) args kwargs modules = (Ok out, left) ->
  left = [] /\ length out = length modules /\ forall i m o, nth_error modules i = Some m -> nth_error out i = Some o -> fst o = fst m /\
  (exists c, last_call (snd m) (fst plain_run) c /\ records c (f_plain (snd o))) /\
  (exists c, last_call (snd m) (fst quantized_run) c /\ records c (f_quantized (snd o))).
Proof.
  intros plain_run quantized_run export h0 ops args kwargs modules out left F E. destruct (modules_inv plain_run quantized_run export h0 F ops args kwargs modules out left E) as (H1 & H2 & H3).
  split; [exact H1|]. split; [exact H2|]. intros i m o Em Eo. destruct (H3 i m o Em Eo) as (N & P & c & L & R & _). split; [exact N|]. split; [exact P|]. eauto.
Qed.
Print Assumptions C110_recorded.

(** Dequantizing a tree works exactly if all quantized tensors in it have static affine parameters that fit them. *)
Theorem C110_trees : forall t, ((exists p, deep_dequantize t = Ok p) <-> Forall recordable (leaves_of t)) /\
  forall v s, deep_dequantize t = Ok (v, s) -> corresponds dequantized t v /\ corresponds has_setting t s.
Proof. intros t. split; [split; [intros [p E]; eapply deep_bad, E | apply deep_ok] | apply deep_inv]. Qed.
Print Assumptions C110_trees.

(** The recorded parameters describe the quantizer, as C62 needs. *)
Theorem C110_parameters : forall q e b tile, params_of q e -> tile_is q tile -> qt_bits q = IntBits b ->
  Forall (fun n => 0 < n) (shape (qt_codes q)) -> tile_divides (shape (qt_codes q)) (resolve_tile (shape (qt_codes q)) tile) ->
  length (qt_scale q) = prod (grid (shape (qt_codes q)) (resolve_tile (shape (qt_codes q)) tile)) -> (forall os, qt_offset q = Some os -> length os = length (qt_scale q)) ->
  describes e b (qt_scale q) (qt_offset q) (shape (qt_codes q)) (resolve_tile (shape (qt_codes q)) tile).
Proof. exact describes_params. Qed.
Print Assumptions C110_parameters.

(** Without success no hooks are left either, if the quantized run returns and quantized tensors are recordable. *)
Theorem C110_hooks_partial : forall plain_run quantized_run export h args kwargs modules, snd quantized_run = None ->
  (forall c, In c (fst quantized_run) -> In (k_module c) (map snd modules) -> Forall recordable (leaves_of (k_args c) ++ leaves_of (k_kwargs c) ++ leaves_of (k_output c))) ->
  snd (export_modules plain_run quantized_run export h args kwargs modules) = [].
Proof. intros. apply hooks_inv; assumption. Qed.
Print Assumptions C110_hooks_partial.

Definition w_call (m : nat) (args out : list leaf) : call := mkCall m (Node Tuple (map (fun x => (EmptyString, Leaf x)) args)) (Node Dict []) (Node Tuple (map (fun x => (EmptyString, Leaf x)) out)).
Definition w_q : qtensor := mkQT (mkT [2] [3; 4]%Z) [1#2] None (IntBits 8) PerTensor true.
Definition w_t : tensor Q := mkT [2] [1; 2]%Q.
(** If the quantized run raises, or a quantized tensor is of another kind, the hooks of all modules stay. *)
Theorem C110_hooks_refuted :
  (forall export h e c, hook c = Ok e -> snd (export_modules ([c], None) ([c], Some RuntimeError) export h (k_args (w_call 0 [Plain w_t] [])) (Node Dict []) [("m"%string, k_module c)]) = [k_module c]) /\
  exists plain quantized export h args, export_modules plain quantized export h args (Node Dict []) [("m"%string, 7)] = (Err AssertionError, [7]) /\ snd plain = None /\ snd quantized = None.
Proof.
  split.
  - intros export h e c H. unfold export_modules, execute, new_recorders. cbn [no_children children k_args w_call map andb fst snd observe fire c_module c_name]. rewrite Nat.eqb_refl, H. reflexivity.
  - exists ([w_call 7 [Plain w_t] []], None), ([w_call 7 [Quant (mkQT (mkT [2] [3; 4]%Z) [1#2] None (IntBits 8) PerTensor false)] []], None), (fun _ _ _ _ => Err RuntimeError), (HV2 v2_init), (k_args (w_call 0 [Plain w_t] [])). split; reflexivity || (split; reflexivity).
Qed.
Print Assumptions C110_hooks_refuted.

(** ** C111: encodings of inputs and outputs *)

(** If the inputs of the graph are the positional arguments, all flat, and flat keyword arguments, which may come before
    positional ones if they are quantized, the encodings are those of the annotated graph, then those of the quantized
    inputs and outputs by position and keyword; the first of each name counts (C63).  Missing: other arguments. *)
Theorem C111_encodings_partial : forall plain_run quantized_run export h0 ops args kwargs modules out left i m o, fresh h0 ->
  export_modules plain_run quantized_run export (run h0 ops) args kwargs modules = (Ok out, left) -> nth_error modules i = Some m -> nth_error out i = Some o ->
  exists c a calls, last_call (snd m) (fst quantized_run) c /\ export (fst m) (snd m) (r_input (f_quantized (snd o))) (r_kwargs (f_quantized (snd o))) = Ok a /\
  Forall2 (fun '(n, m, q) o => exists e, quant_params_from_metadata m = Ok e /\ o = Add n e q) (annotated (a_proto a)) calls /\
  forall xs kws l, k_args c = Node Tuple (map (fun x => (EmptyString, Leaf x)) xs) -> k_kwargs c = Node Dict kws -> NoDup (map fst kws) -> assigned kws (a_inputs a) xs l ->
    exists ins outs, Forall2 has_setting l ins /\ Forall2 output_setting (torch_leaves (k_output c)) outs /\
    let h := run h0 (calls ++ wanted (a_inputs a) ins ++ wanted (a_outputs a) outs) in
    f_encodings (snd o) = (build_encodings h true, build_encodings h false).
Proof.
  intros plain_run quantized_run export h0 ops args kwargs modules out left i m o F E Em Eo. destruct (modules_inv plain_run quantized_run export h0 F ops args kwargs modules out left E) as (_ & _ & H3).
  destruct (H3 i m o Em Eo) as (_ & _ & c & L & R & a & calls & h2 & H4 & H5 & H6 & H7). exists c, a, calls. split; [exact L|]. split; [exact H4|]. split; [exact H5|].
  intros xs kws l Ka Kk Nd A. destruct R as (_ & R1 & _ & R2 & _ & R3). rewrite Ka in R1. rewrite Kk in R2. destruct (flat_settings _ _ _ R1) as (ps & Ep & Fp). destruct (dict_settings _ _ _ R2) as (Md & Hd).
  unfold extend in H6. apply rbind_ok in H6. destruct H6 as (h1 & E1 & E2). destruct (assigned_calls kws (a_inputs a) xs l A _ _ ps _ _ Md Nd Hd Ep Fp E1) as (ins & Fi & ->). apply outputs in E2.
  exists ins, (r_output_settings (f_quantized (snd o))). split; [exact Fi|]. split; [exact R3|]. cbn zeta. rewrite !run_app. rewrite E2 in H7. exact H7.
Qed.
Print Assumptions C111_encodings_partial.

Definition w_params : quant_params := mkQP (Vec [1#2]) None (IntBits 8) (Some [2]) (Some [2]).
Definition w_none : proto := mkProto [] [] [] [].
(** A number among the arguments, which is no input of the graph, shifts them: the encoding of the quantized input [x]
    is given to [y], which is not quantized. *)
Theorem C111_shift_refuted : exists c r h, hook c = Ok r /\ k_args c = Node Tuple (map (fun x => (EmptyString, Leaf x)) [Other 3; Quant w_q; Plain w_t]) /\
  extend (HV1 None v1_init) (mkArt ["x"; "y"]%string [] w_none) r = Ok h /\ map fst (build_encodings h false) = ["y"%string].
Proof. exists (w_call 0 [Other 3; Quant w_q; Plain w_t] []). eexists. eexists. split; [vm_compute; reflexivity|]. split; [reflexivity|]. split; vm_compute; reflexivity. Qed.
Print Assumptions C111_shift_refuted.
(** A keyword argument that is not quantized takes the setting of a positional one: the encoding of [x] is given to [k]. *)
Theorem C111_keyword_refuted : exists c r h, hook c = Ok r /\ k_args c = Node Tuple [(EmptyString, Leaf (Quant w_q))] /\ k_kwargs c = Node Dict [("k"%string, Leaf (Plain w_t))] /\
  extend (HV1 None v1_init) (mkArt ["k"; "x"]%string [] w_none) r = Ok h /\ map fst (build_encodings h false) = ["k"%string].
Proof. exists (mkCall 0 (Node Tuple [(EmptyString, Leaf (Quant w_q))]) (Node Dict [("k"%string, Leaf (Plain w_t))]) Empty). eexists. eexists. split; [vm_compute; reflexivity|]. split; [reflexivity|]. split; [reflexivity|]. split; vm_compute; reflexivity. Qed.
Print Assumptions C111_keyword_refuted.
(** A missing output shifts outputs: the quantized output [y] after a [None] gets no encoding. *)
Theorem C111_output_refuted : exists c r h, hook c = Ok r /\ k_output c = Node Tuple [(EmptyString, Empty); (EmptyString, Leaf (Quant w_q))] /\
  extend (HV1 None v1_init) (mkArt [] ["y"]%string w_none) r = Ok h /\ build_encodings h false = [].
Proof. exists (mkCall 0 (Node Tuple []) (Node Dict []) (Node Tuple [(EmptyString, Empty); (EmptyString, Leaf (Quant w_q))])). eexists. eexists. split; [vm_compute; reflexivity|]. split; [reflexivity|]. split; vm_compute; reflexivity. Qed.
Print Assumptions C111_output_refuted.
(** Arguments inside a tuple make the export fail, even if nothing is quantized. *)
Theorem C111_nested_refuted : forall h x y n names p, exists c r, hook c = Ok r /\ k_args c = Node Tuple [(EmptyString, Node Tuple [(EmptyString, Leaf (Plain x)); (EmptyString, Leaf (Plain y))])] /\
  extend h (mkArt (n :: names) [] p) r = Err TypeError.
Proof. intros. exists (mkCall 0 (Node Tuple [(EmptyString, Node Tuple [(EmptyString, Leaf (Plain x)); (EmptyString, Leaf (Plain y))])]) (Node Dict []) Empty). eexists. split; [reflexivity|]. split; reflexivity. Qed.
Print Assumptions C111_nested_refuted.

(** A module with a quantized and a plain argument, a quantized keyword and a quantized output, called twice. *)
Example C110_nonvacuous :
  let c := mkCall 4 (Node Tuple [(EmptyString, Leaf (Quant w_q)); (EmptyString, Leaf (Plain w_t))]) (Node Dict [("k"%string, Leaf (Quant w_q))]) (Leaf (Quant w_q)) in
  let runs := ([w_call 4 [Plain w_t] []; c; w_call 5 [Plain w_t] []], None) in
  let export (_ : string) (_ : nat) (_ _ : tree leaf) := Ok (mkArt ["a"; "b"; "k"]%string ["o"]%string w_none) in
  fresh (HV1 None v1_init) /\ params_of w_q w_params /\ describes w_params 8 [1#2] None [2] [2] /\
  exists o, export_modules runs runs export (run (HV1 None v1_init) []) (k_args c) (k_kwargs c) [("m"%string, 4)] = (Ok [("m"%string, o)], []) /\
  records c (f_quantized o) /\ map fst (snd (f_encodings o)) = ["a"; "k"; "o"]%string.
Proof.
  cbn zeta. split; [constructor|]. split; [exists DataShape; split; reflexivity|]. split; [constructor; try reflexivity; [repeat constructor | repeat constructor; exists 1; reflexivity | intros; discriminate]|].
  eexists. split; [vm_compute; reflexivity|]. split; [|reflexivity]. apply hook_inv. vm_compute. reflexivity.
Qed.
(** A quantized keyword before a positional argument. *)
Example C111_nonvacuous : assigned [("k"%string, Leaf (Quant w_q))] ["k"; "a"; "b"]%string [Plain w_t; Quant w_q] [Quant w_q; Plain w_t; Quant w_q] /\
  exists r h, hook (mkCall 4 (Node Tuple [(EmptyString, Leaf (Plain w_t)); (EmptyString, Leaf (Quant w_q))]) (Node Dict [("k"%string, Leaf (Quant w_q))]) Empty) = Ok r /\
  extend (HV1 None v1_init) (mkArt ["k"; "a"; "b"]%string [] w_none) r = Ok h /\ map fst (build_encodings h false) = ["k"; "b"]%string.
Proof.
  split; [repeat first [apply as_none | apply as_keyword; [now left|right; now exists w_q|] | apply as_positional; [cbn; intros [K|[]]; discriminate K|]]|].
  eexists. eexists. split; [vm_compute; reflexivity|]. split; vm_compute; reflexivity.
Qed.
