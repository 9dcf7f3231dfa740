(** C97, C98 and C99. *)
From Coq Require Import String Ascii.
From Verif Require Import Prelude NamModel NamSpec NamProofs.
Local Open Scope nat_scope.
Local Open Scope list_scope.
Local Open Scope string_scope.

(** Partial: if no name begins with the prefix and none is another name with a number, and names are asked for when
    all references are made (as autoquant does), different references of a scope have different names. *)
Theorem C97_distinct_partial : forall prefix l i j c d x y, clear prefix l -> nth_error l i = Some (c, x) -> nth_error l j = Some (d, y) -> same_scope c d -> i <> j ->
  forall asked u v, In (i, Some u) (run prefix (makes l ++ asks asked) []) -> In (j, Some v) (run prefix (makes l ++ asks asked) []) -> u <> v.
Proof. exact answers_distinct. Qed.
Print Assumptions C97_distinct_partial.
Example C97_nonvacuous :
  let l := [(InMethod 0 1, "add"); (InFunction 2, "add"); (InMethod 0 3, "add"); (InMethod 0 3, "mul")] in
  clear "quantizer_" l /\ run "quantizer_" (makes l ++ asks [0; 1; 2; 3]) [] =
  [(0, Some "quantizer_add_1"); (1, Some "quantizer_add"); (2, Some "quantizer_add_2"); (3, Some "quantizer_mul")].
Proof.
  cbn zeta. split; [|vm_compute; reflexivity]. split.
  - intros c x I. cbn in I. decompose [or] I; try contradiction; match goal with H : _ = (c, x) |- _ => injection H as <- <-; reflexivity end.
  - intros c d x y n I J _. cbn in I, J. assert (X : (x = "add" \/ x = "mul") /\ (y = "add" \/ y = "mul")) by (intuition congruence).
    destruct X as [[->| ->] [->| ->]]; cbn; discriminate.
Qed.

(** Every reference that was made has a name, and no other number has one. *)
Theorem C97_known : forall prefix l asked r, In (r, None) (run prefix (makes l ++ asks asked) []) <-> In r asked /\ length l <= r.
Proof. exact answers_known. Qed.
Print Assumptions C97_known.

(** Partial: as long as no reference is made after the first question, a reference keeps its name. *)
Theorem C97_steady_partial : forall prefix l asked r u v, In (r, u) (run prefix (makes l ++ asks asked) []) -> In (r, v) (run prefix (makes l ++ asks asked) []) -> u = v.
Proof. exact answers_steady. Qed.
Print Assumptions C97_steady_partial.

(** The quantizers a class declares are those its methods use. *)
Theorem C97_declared : forall l module r, In r (instance_quantizers module (map (fun p => mkMeta (snd p) (fst p) None) l)) <-> exists f x, nth_error l r = Some (InMethod module f, x).
Proof. exact declared. Qed.
Print Assumptions C97_declared.

(** The claim fails for names that end in a number: two quantizers [add] and one [add_1]. *)
Theorem C97_number_refuted : exists l asked, (forall c x, In (c, x) l -> c = InMethod 0 0) /\
  In (0, Some "quantizer_add_1") (run "quantizer_" (makes l ++ asks asked) []) /\ In (2, Some "quantizer_add_1") (run "quantizer_" (makes l ++ asks asked) []).
Proof.
  exists [(InMethod 0 0, "add"); (InMethod 0 0, "add"); (InMethod 0 0, "add_1")], [0; 2]. split; [intros c x I; cbn in I; intuition congruence|].
  split; vm_compute; auto.
Qed.
Print Assumptions C97_number_refuted.

(** The claim fails for names that begin with the prefix. *)
Theorem C97_prefix_refuted : exists l asked, (forall c x, In (c, x) l -> c = InMethod 0 0) /\
  In (0, Some "quantizer_add") (run "quantizer_" (makes l ++ asks asked) []) /\ In (1, Some "quantizer_add") (run "quantizer_" (makes l ++ asks asked) []).
Proof.
  exists [(InMethod 0 0, "add"); (InMethod 0 0, "quantizer_add")], [0; 1]. split; [intros c x I; cbn in I; intuition congruence|]. split; vm_compute; auto.
Qed.
Print Assumptions C97_prefix_refuted.

(** Names can change: making another reference and asking for its name renames the first. *)
Theorem C97_changes_refuted : exists ops, run "quantizer_" ops [] = [(0, Some "quantizer_add"); (1, Some "quantizer_add_2"); (0, Some "quantizer_add_1")].
Proof. exists [Make (InFunction 0) "add"; Ask 0; Make (InFunction 0) "add"; Ask 1; Ask 0]. vm_compute. reflexivity. Qed.
Print Assumptions C97_changes_refuted.

(** Names of quantizers can be names of parameters the function has already. *)
Theorem C97_parameter_refuted : exists params x, NoDup params /\ In (0, Some x) (run "quantizer_" (makes [(InFunction 0, "add")] ++ asks [0]) []) /\ ~ NoDup (add_quantizer_args params [x]).
Proof.
  exists ["a"; "quantizer_add"], "quantizer_add". split; [constructor; [intros [H|[]]; discriminate | constructor; [intros [] | constructor]]|]. split; [vm_compute; auto|].
  cbn. intros N. inversion N as [|? ? _ M]; subst. inversion M as [|? ? I _]; subst. apply I. left. reflexivity.
Qed.
Print Assumptions C97_parameter_refuted.

(** Whatever types there are and in whatever order they are asked for, every type gets a class name and a name for
    its base class, and no two types get the same class name or the same base name. *)
Theorem C98_classes : forall totals names, exists l, allocate totals fresh_allocator names = Some l /\ length l = length names /\ NoDup (map fst l) /\ NoDup (map snd l).
Proof. intros totals names. destruct (allocate_ok totals names fresh_allocator) as (l & E & L & A & B & _). eauto. Qed.
Print Assumptions C98_classes.
Example C98_nonvacuous : let types := ["Block"; "Mlp"; "Block"] in
  allocate types fresh_allocator types = Some [("__ffaq_base_Block_0", "QuantizedBlock_0"); ("Mlp", "QuantizedMlp"); ("__ffaq_base_Block_1", "QuantizedBlock_1")].
Proof. vm_compute. reflexivity. Qed.

(** Types of different names keep their names. *)
Theorem C98_plain : forall totals names, NoDup totals -> NoDup names -> allocate totals fresh_allocator names = Some (map (fun x => (x, "Quantized" ++ x)) names).
Proof. intros totals names T N. apply allocate_plain; auto. Qed.
Print Assumptions C98_plain.

(** Every helper gets a new name, different from those of other helpers, classes and methods. *)
Theorem C98_helpers : forall used names, exists l, helper_names used names = Some l /\ length l = length names /\ NoDup l /\ forall y, In y l -> ~ In y used.
Proof. intros used names. apply helpers_ok. Qed.
Print Assumptions C98_helpers.
Theorem C98_helpers_plain : forall used names, NoDup names -> (forall x, In x names -> ~ In ("quantized_" ++ x) used) -> helper_names used names = Some (map (append "quantized_") names).
Proof. intros used names. apply helpers_plain. Qed.
Print Assumptions C98_helpers_plain.
Example C98_helpers_nonvacuous : helper_names ["QuantizedBlock"; "quantized_scale"] ["scale"; "norm"; "norm"] = Some ["quantized_scale_2"; "quantized_norm"; "quantized_norm_2"].
Proof. vm_compute. reflexivity. Qed.

(** Class names and names of base classes are not kept apart: the class made for [Block] has the name under which the
    type [QuantizedBlock] is imported. *)
Theorem C98_base_refuted : exists types l x, allocate types fresh_allocator types = Some l /\ NoDup types /\ In x (map fst l) /\ In x (map snd l).
Proof.
  exists ["Block"; "QuantizedBlock"]. eexists. exists "QuantizedBlock". split; [vm_compute; reflexivity|].
  split; [constructor; [intros [H|[]]; discriminate | constructor; [intros [] | constructor]]|]. split; cbn; auto.
Qed.
Print Assumptions C98_base_refuted.

(** Names of helpers and imports are not kept apart: names of classes and methods are all that is looked at. *)
Theorem C98_import_refuted : exists imported helper, imported <> helper /\ helper_names [] [helper] = Some [imported].
Proof. exists "quantized_scale", "scale". split; [discriminate | vm_compute; reflexivity]. Qed.
Print Assumptions C98_import_refuted.

(** Names of exactly one helper are mapped, to the new name of that helper. *)
Theorem C99_map : forall renamed x y, lookup x (name_map [] [] renamed) = Some y <-> exists k, filter (fun p => String.eqb x (fst p)) renamed = [(k, y)].
Proof.
  intros renamed x y. rewrite name_map_lookup by contradiction. cbn [mem existsb lookup]. destruct (filter _ renamed) as [|[k z] [|q l]]; split; intros H; try discriminate.
  - destruct H as [k H]. discriminate.
  - injection H as ->. eauto.
  - destruct H as [k' H]. injection H as _ ->. reflexivity.
  - destruct H as [k' H]. discriminate.
Qed.
Print Assumptions C99_map.

(** Partial: if no keyword is called like a helper, and every name of a helper stands for that helper, an expression
    keeps its value when helpers get new names; attributes called like helpers are no obstacle. *)
Theorem C99_value_partial : forall V attribute call (map : list (string * string)) (before after : string -> V),
  (forall x, after (renamed_name map x) = before x) ->
  forall e, (forall k, In k (keywords e) -> lookup k map = None) -> value attribute call after (rename_refs map e) = value attribute call before e.
Proof. intros V. apply rename_value. Qed.
Print Assumptions C99_value_partial.
Example C99_nonvacuous :
  let m := name_map [] [] [("norm", "quantized_norm")] in
  let e := Call (Name "map") [(None, Name "norm"); (Some "dim", Attr (Name "torch") "norm")] in
  let before x := if String.eqb x "norm" then 1 else if String.eqb x "quantized_norm" then 1 else 0 in
  let after x := if String.eqb x "quantized_norm" then 1 else 0 in
  rename_refs m e = Call (Name "map") [(None, Name "quantized_norm"); (Some "dim", Attr (Name "torch") "norm")] /\
  (forall x, after (renamed_name m x) = before x) /\ (forall k, In k (keywords e) -> lookup k m = None).
Proof.
  cbn zeta. split; [vm_compute; reflexivity|]. split.
  - intros x. cbn [name_map mem existsb lookup app]. unfold renamed_name. cbn [lookup]. destruct (String.eqb_spec x "norm") as [->|N]; reflexivity.
  - intros k I. cbn in I. destruct I as [<-|[]]. reflexivity.
Qed.

(** The claim fails for keywords called like a helper: a call passes another keyword. *)
Theorem C99_keyword_refuted : exists e, let m := name_map [] [] [("scale", "quantized_scale")] in
  e = Call (Name "f") [(Some "scale", Name "x")] /\ rename_refs m e = Call (Name "f") [(Some "quantized_scale", Name "x")].
Proof. exists (Call (Name "f") [(Some "scale", Name "x")]). split; vm_compute; reflexivity. Qed.
Print Assumptions C99_keyword_refuted.

(** The claim fails for code in which the name of a helper stands for something else, such as code of another module:
    it is renamed all the same. *)
Theorem C99_other_refuted : exists (before after : string -> nat) e, let m := name_map [] [] [("scale", "quantized_scale")] in
  (forall x, x <> "quantized_scale" -> after x = before x) /\ value (fun _ v => v) (fun v _ => v) after (rename_refs m e) <> value (fun _ v => v) (fun v _ => v) before e.
Proof.
  exists (fun x => if String.eqb x "scale" then 1 else 0), (fun x => if String.eqb x "scale" then 1 else if String.eqb x "quantized_scale" then 2 else 0), (Name "scale").
  split; [|vm_compute; discriminate]. intros x N. destruct (String.eqb_spec x "quantized_scale"); [contradiction|]. destruct (String.eqb x "scale"); reflexivity.
Qed.
Print Assumptions C99_other_refuted.
