(** C102 and C103. *)
From Coq Require Import String QArith.
From Verif Require Import Prelude OnxModel OnxSpec OnxProofs.
From Verif Require EncModel EncSpec.
Local Open Scope nat_scope.
Local Open Scope list_scope.
Local Open Scope string_scope.

(** A file computes what its graph does if names tell values apart. *)
Theorem C102_serialized : forall V (sem : nat -> list (option V) -> list V) tensor g args, closed g -> distinct g -> file_meaning sem tensor (to_proto g) args = ir_meaning sem tensor g args.
Proof. exact @file_means. Qed.
Print Assumptions C102_serialized.

(** Partial: if no value is called like the altered name of another, exactly initializers and results of nodes get
    altered names, names still tell values apart, and the file computes the same. *)
Theorem C102_altered_partial : forall prefix g, closed g -> distinct g -> apart prefix g ->
  altered_names prefix g (fix_onnx_names prefix g) /\ distinct (fix_onnx_names prefix g) /\
  forall V (sem : nat -> list (option V) -> list V) tensor args, file_meaning sem tensor (to_proto (fix_onnx_names prefix g)) args = file_meaning sem tensor (to_proto g) args.
Proof. intros prefix g C D A. split; [exact (fix_names prefix g C D A)|]. split; [exact (fix_distinct prefix g C D A)|]. intros. apply alter_keeps; assumption. Qed.
Print Assumptions C102_altered_partial.

(** Names asked for are refused exactly if there are too many or too few. *)
Theorem C102_counts : forall ins outs g, (exists g', rename_io (Some ins) (Some outs) g = Ok g') <-> length ins = length (g_inputs g) /\ length outs = length (g_outputs g).
Proof. exact rename_refused. Qed.
Print Assumptions C102_counts.

(** Without names, everything keeps its name. *)
Theorem C102_unasked : forall g, exists g', rename_io None None g = Ok g' /\ forall v, g_names g' v = g_names g v.
Proof. exact rename_none. Qed.
Print Assumptions C102_unasked.

(** Partial: inputs and outputs get the names asked for, if no value is both; and if nothing else has such a name the
    file computes the same. *)
Theorem C102_renamed_partial : forall ins outs g g', closed g -> distinct g -> NoDup (g_inputs g ++ g_outputs g) -> rename_io (Some ins) (Some outs) g = Ok g' ->
  renamed_io ins outs g g' /\
  (usable ins outs g -> distinct g' /\ forall V (sem : nat -> list (option V) -> list V) tensor args, file_meaning sem tensor (to_proto g') args = file_meaning sem tensor (to_proto g) args).
Proof.
  intros ins outs g g' C D N E. split; [exact (rename_ok ins outs g g' E N)|]. intros U. split; [exact (rename_distinct ins outs g g' C D E N U)|]. intros. apply (rename_keeps sem tensor ins outs g g'); assumption.
Qed.
Print Assumptions C102_renamed_partial.

(** Partial: all stages together. *)
Theorem C102_stages_partial : forall specs targets node_from value_from prefix ins outs kv kn g f p, closed g -> distinct g -> nodes_named g -> settled prefix ins outs g ->
  stages specs targets node_from value_from prefix (Some ins) (Some outs) kv kn g = Ok (f, p) ->
  p_inputs f = ins /\ p_outputs f = outs /\ forall V (sem : nat -> list (option V) -> list V) tensor args, file_meaning sem tensor f args = file_meaning sem tensor (to_proto g) args.
Proof. exact stages_keep. Qed.
Print Assumptions C102_stages_partial.

(** A graph: input [a], weight [w], [x = op0 a w], [y = op1 x], [z = op2 x y]. *)
Definition sample (name1 name2 : string) : graph :=
  mkGraph [0] [1] [mkNode (Some "n0") 0 [Some 0; Some 1] [2] None; mkNode (Some "n1") 1 [Some 2; None] [3] None; mkNode (Some "n2") 2 [Some 2; Some 3] [4] None] [4]
    (fun v => nth v ["a"; "w"; name1; name2; "z"] "") (fun _ => None).
Ltac enumerate := cbn; intros; repeat match goal with H : _ \/ _ |- _ => destruct H | H : False |- _ => destruct H | H : Some _ = Some _ |- _ => injection H as H | H : ?x = ?y |- _ => first [subst x | subst y] end.
Lemma sample_closed : forall a b, closed (sample a b).
Proof.
  intros a b. split; [|split].
  - repeat constructor; cbn; intuition discriminate.
  - enumerate; cbn in *; enumerate; cbn; auto 10; try discriminate.
  - enumerate; cbn; auto 10.
Qed.
Example C102_nonvacuous :
  let g := sample "x" "y" in
  closed g /\ distinct g /\ nodes_named g /\ apart "ff" g /\ settled (Some "ff") ["in"] ["out"] g /\
  exists f p, stages [] [] (fun _ => (None, [])) (fun _ => (None, [])) (Some "ff") (Some ["in"]) (Some ["out"]) false false g = Ok (f, p) /\
    f = mkPgraph ["in"] [("ff_w_0", 1)] [mkPnode "ff_n0_0" 0 ["in"; "ff_w_0"] ["ff_x_0"]; mkPnode "ff_n1_0" 1 ["ff_x_0"; ""] ["ff_y_0"]; mkPnode "ff_n2_0" 2 ["ff_x_0"; "ff_y_0"] ["out"]] ["out"].
Proof.
  cbn zeta. assert (C := sample_closed "x" "y").
  assert (D : distinct (sample "x" "y")). { split; enumerate; try discriminate; reflexivity. }
  assert (A : apart "ff" (sample "x" "y")). { unfold apart. enumerate; discriminate. }
  split; [exact C|]. split; [exact D|]. split; [split; [enumerate; discriminate | repeat constructor; cbn; intuition discriminate]|]. split; [exact A|]. split.
  - split; [exact A|]. split; [repeat constructor; cbn; intuition discriminate|]. split; [repeat constructor; cbn; intuition discriminate|]. split; [cbn; intuition discriminate|]. enumerate; intuition discriminate.
  - eexists. eexists. split; vm_compute; reflexivity.
Qed.

(** What operators do to numbers, for the counterexamples *)
Definition sem0 (op : nat) (l : list (option nat)) : list nat :=
  let get i := match nth i l None with Some x => x | None => 0 end in
  match op with 0 => [get 0 + get 1] | 1 => [get 0 * 2] | _ => [get 0 + get 1 * 3] end.

(** The claim fails if a result is called as another will be: the altered name is altered again, two values are called
    the same, and the file computes something else. *)
Theorem C102_altered_refuted : exists g, closed g /\ distinct g /\ ~ distinct (fix_onnx_names "ff" g) /\
  file_meaning sem0 (fun _ => 1) (to_proto (fix_onnx_names "ff" g)) [2] <> file_meaning sem0 (fun _ => 1) (to_proto g) [2].
Proof.
  exists (sample "x" "ff_x_0"). split; [apply sample_closed|]. split; [split; enumerate; try discriminate; reflexivity|]. split; [|vm_compute; discriminate].
  intros [_ D]. specialize (D 2 3). vm_compute in D. discriminate D; auto 10.
Qed.
Print Assumptions C102_altered_refuted.

(** The claim fails if the name asked for an output is that of a value inside: the file computes something else. *)
Theorem C102_inner_refuted : exists g g', closed g /\ distinct g /\ NoDup (g_inputs g ++ g_outputs g) /\ rename_io (Some ["x"]) (Some ["z"]) g = Ok g' /\
  file_meaning sem0 (fun _ => 1) (to_proto g') [2] <> file_meaning sem0 (fun _ => 1) (to_proto g) [2].
Proof.
  exists (mkGraph [0] [1] [mkNode None 0 [Some 0; Some 1] [2] None; mkNode None 2 [Some 2; Some 0] [3] None] [3] (fun v => nth v ["a"; "w"; "x"; "z"] "") (fun _ => None)). eexists.
  split; [|split; [|split; [|split; [reflexivity | vm_compute; discriminate]]]].
  - split; [repeat constructor; cbn; intuition discriminate|]. split; enumerate; cbn in *; enumerate; cbn; auto 10; try discriminate.
  - split; enumerate; try discriminate; reflexivity.
  - repeat constructor; cbn; intuition discriminate.
Qed.
Print Assumptions C102_inner_refuted.

(** The claim fails if an input is an output too: it does not get the name asked for the input. *)
Theorem C102_passed_refuted : exists g g', closed g /\ distinct g /\ rename_io (Some ["in"]) (Some ["out"]) g = Ok g' /\ p_inputs (to_proto g') = ["out"].
Proof.
  exists (mkGraph [0] [] [] [0] (fun _ => "a") (fun _ => None)). eexists. split; [|split; [|split; [reflexivity | reflexivity]]].
  - split; [repeat constructor; cbn; intuition discriminate|]. split; enumerate; cbn; auto.
  - split; enumerate; try discriminate; reflexivity.
Qed.
Print Assumptions C102_passed_refuted.

(** ** C103 *)

(** Partial: if names tell values apart and nodes have different names, every object of the file has the annotation of
    the object it comes from, whatever the serializer keeps. *)
Theorem C103_copied_partial : forall kv kn g, closed g -> distinct g -> nodes_named g -> copy_metadata kv kn g = own_metadata g.
Proof. exact copy_own. Qed.
Print Assumptions C103_copied_partial.

(** The spec of the recorded FX node is the one that is taken. *)
Theorem C103_recorded : forall (S : Type) (specs : list (string * S)) targets i x s, it_node i = Some x -> spec_of specs x = Some s -> quant_spec specs targets i = Some s.
Proof. exact @quant_spec_node. Qed.
Print Assumptions C103_recorded.

(** Only specs of related names are taken, and if the recorded node, an earlier one, the name or the name of an output
    has one, one is taken. *)
Theorem C103_source : forall (S : Type) (specs : list (string * S)) targets i,
  (forall s, quant_spec specs targets i = Some s -> exists x, related targets i x /\ spec_of specs x = Some s) /\
  (quant_spec specs targets i = None -> forall x, it_node i = Some x \/ In x (it_from i) \/ it_name i = Some x \/ In x (it_outputs i) -> spec_of specs x = None).
Proof. intros S specs targets i. split; [apply quant_spec_found | apply quant_spec_missing]. Qed.
Print Assumptions C103_source.

(** Partial: a spec of the recorded FX node reaches the file under the final name of the value. *)
Theorem C103_reaches_partial : forall specs targets node_from value_from prefix ins outs kv kn g f p v y x m, closed g -> distinct g -> nodes_named g -> settled prefix ins outs g ->
  stages specs targets node_from value_from prefix (Some ins) (Some outs) kv kn g = Ok (f, p) -> called prefix ins outs g v y -> spec_of specs x = Some m ->
  (In v (g_inits g) -> fst (value_from v) = Some x -> In (y, m, true) (EncSpec.annotated p)) /\
  (In v (g_inputs g) \/ In v (g_outputs g) -> fst (value_from v) = Some x -> In (y, m, false) (EncSpec.annotated p)) /\
  (forall n, In n (g_nodes g) -> In v (n_out n) -> fst (node_from n) = Some x -> In (y, m, false) (EncSpec.annotated p)).
Proof. exact stages_complete. Qed.
Print Assumptions C103_reaches_partial.

(** Partial: what the file says about a name is the spec of an FX node that the value of that name, or the node that
    makes it, is related to; and only initializers are listed as parameters. *)
Theorem C103_nothing_else_partial : forall specs targets node_from value_from prefix ins outs kv kn g f p y m q, closed g -> distinct g -> nodes_named g -> settled prefix ins outs g -> bare g ->
  stages specs targets node_from value_from prefix (Some ins) (Some outs) kv kn g = Ok (f, p) -> In (y, m, q) (EncSpec.annotated p) ->
  exists v x, called prefix ins outs g v y /\ spec_of specs x = Some m /\ (q = true -> In v (g_inits g)) /\
    ((In v (g_inits g ++ g_inputs g ++ g_outputs g) /\ related targets (value_item value_from g v) x) \/ (exists n, In n (g_nodes g) /\ In v (n_out n) /\ related targets (node_item node_from g n) x)).
Proof. exact stages_sound. Qed.
Print Assumptions C103_nothing_else_partial.

Definition meta (b : positive) : metadata := EncModel.mkMeta [1%Q] [0%Q] b true None.
Example C103_nonvacuous :
  let specs := [("p_w", meta 4); ("mul", meta 8)] in
  let node_from n := match n_op n with 1 => (Some "mul", []) | _ => (None, []) end in
  let value_from v := match v with 1 => (Some "p_w", []) | _ => (None, []) end in
  exists f p, stages specs [] node_from value_from (Some "ff") (Some ["in"]) (Some ["out"]) false false (sample "x" "y") = Ok (f, p) /\
    EncSpec.annotated p = [("ff_w_0", meta 4, true); ("ff_y_0", meta 8, false)] /\ called (Some "ff") ["in"] ["out"] (sample "x" "y") 3 "ff_y_0".
Proof.
  cbn zeta. eexists. eexists. split; [vm_compute; reflexivity|]. split; [vm_compute; reflexivity|]. apply (called_inner (Some "ff") ["in"] ["out"] (sample "x" "y") 3); cbn; intuition discriminate.
Qed.

(** The claim fails if two nodes have one name: a node gets the annotation of the other. *)
Theorem C103_nodes_refuted : exists g, closed g /\ distinct g /\ (forall kv kn, In ("x", meta 8, false) (EncSpec.annotated (copy_metadata kv kn g))) /\
  (exists n, In n (g_nodes g) /\ map (g_names g) (n_out n) = ["x"] /\ n_meta n = Some (meta 4)).
Proof.
  exists (mkGraph [0] [] [mkNode (Some "n") 0 [Some 0] [1] (Some (meta 4)); mkNode (Some "n") 0 [Some 1] [2] (Some (meta 8))] [2] (fun v => nth v ["a"; "x"; "y"] "") (fun _ => None)).
  split; [|split; [|split]].
  - split; [repeat constructor; cbn; intuition discriminate|]. split; enumerate; cbn in *; enumerate; cbn; auto 10.
  - split; enumerate; try discriminate; reflexivity.
  - intros [] []; vm_compute; auto.
  - eexists. split; [left; reflexivity|]. auto.
Qed.
Print Assumptions C103_nodes_refuted.

(** The claim fails for nodes without a name if the serializer does not keep annotations: theirs is lost. *)
Theorem C103_unnamed_refuted : exists g, closed g /\ distinct g /\ (forall kv, EncSpec.annotated (copy_metadata kv false g) = []) /\ (exists n, In n (g_nodes g) /\ n_meta n = Some (meta 4)).
Proof.
  exists (mkGraph [0] [] [mkNode None 0 [Some 0] [1] (Some (meta 4))] [1] (fun v => nth v ["a"; "x"] "") (fun _ => None)). split; [|split; [|split]].
  - split; [repeat constructor; cbn; intuition discriminate|]. split; enumerate; cbn in *; enumerate; cbn; auto 10.
  - split; enumerate; try discriminate; reflexivity.
  - intros []; vm_compute; reflexivity.
  - eexists. split; [left; reflexivity | reflexivity].
Qed.
Print Assumptions C103_unnamed_refuted.

(** The claim fails for nodes with several results: the spec of the first is written for all. *)
Theorem C103_results_refuted : exists g f p, closed g /\ distinct g /\ nodes_named g /\
  stages [("lo", meta 4); ("hi", meta 8)] [] (fun _ => (None, [])) (fun _ => (None, [])) None None None false false g = Ok (f, p) /\ EncSpec.annotated p = [("lo", meta 4, false); ("hi", meta 4, false)].
Proof.
  exists (mkGraph [0] [] [mkNode (Some "split") 0 [Some 0] [1; 2] None; mkNode (Some "add") 1 [Some 1; Some 2] [3] None] [3] (fun v => nth v ["a"; "lo"; "hi"; "sum"] "") (fun _ => None)). eexists. eexists.
  split; [|split; [|split; [|split; [vm_compute; reflexivity | vm_compute; reflexivity]]]].
  - split; [repeat constructor; cbn; intuition discriminate|]. split; enumerate; cbn in *; enumerate; cbn; auto 10.
  - split; enumerate; try discriminate; reflexivity.
  - split; [enumerate; discriminate | repeat constructor; cbn; intuition discriminate].
Qed.
Print Assumptions C103_results_refuted.

(** The claim fails for an operator that the exporter takes apart: its spec is written for intermediate results too. *)
Theorem C103_intermediate_refuted : exists g f p, closed g /\ distinct g /\ nodes_named g /\
  stages [("gelu", meta 8)] [] (fun _ => (Some "gelu", [])) (fun _ => (None, [])) None None None false false g = Ok (f, p) /\ EncSpec.annotated p = [("erf", meta 8, false); ("gelu", meta 8, false); ("gelu", meta 8, false)].
Proof.
  exists (mkGraph [0] [] [mkNode (Some "n0") 0 [Some 0] [1] None; mkNode (Some "n1") 1 [Some 0; Some 1] [2] None] [2] (fun v => nth v ["a"; "erf"; "gelu"] "") (fun _ => None)). eexists. eexists.
  split; [|split; [|split; [|split; [vm_compute; reflexivity | vm_compute; reflexivity]]]].
  - split; [repeat constructor; cbn; intuition discriminate|]. split; enumerate; cbn in *; enumerate; cbn; auto 10.
  - split; enumerate; try discriminate; reflexivity.
  - split; [enumerate; discriminate | repeat constructor; cbn; intuition discriminate].
Qed.
Print Assumptions C103_intermediate_refuted.
