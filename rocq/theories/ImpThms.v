(** C65 and C94. *)
From Coq Require Import String Ascii.
From Verif Require Import Prelude ImpModel ImpSpec ImpProofs.
Local Open Scope nat_scope.
Local Open Scope list_scope.
Local Open Scope string_scope.

(** Partial: in a module that is no package, the name computed for an import is the one Python resolves it to
    whenever Python accepts it. *)
Theorem C65_resolves_partial : forall module level target resolved,
  python_resolves module false level target = Some resolved -> resolve_relative module level target = resolved.
Proof. exact resolve_module. Qed.
Print Assumptions C65_resolves_partial.
Example C65_nonvacuous :
  python_resolves ["pkg"; "models"; "attention"] false 1 ["utils"] = Some ["pkg"; "models"; "utils"] /\
  python_resolves ["pkg"; "models"; "attention"] false 2 [] = Some ["pkg"] /\
  resolve_relative ["pkg"; "models"; "attention"] 1 ["utils"] = ["pkg"; "models"; "utils"].
Proof. repeat split. Qed.

(** Absolute imports are kept, in packages too. *)
Theorem C65_absolute : forall module is_package target,
  python_resolves module is_package 0 target = Some target /\ resolve_relative module 0 target = target.
Proof. split; reflexivity. Qed.
Print Assumptions C65_absolute.

(** The claim fails in a package's own module: [from .layers import x] in pkg/models/__init__.py means
    pkg.models.layers and is taken for pkg.layers. *)
Theorem C65_package_refuted :
  exists module level target resolved, python_resolves module true level target = Some resolved /\ resolve_relative module level target <> resolved.
Proof. exists ["pkg"; "models"], 1, ["layers"], ["pkg"; "models"; "layers"]. split; [reflexivity | vm_compute; discriminate]. Qed.
Print Assumptions C65_package_refuted.

(** Imports Python rejects are given a name: those that climb above the top package, and those of a module in
    no package. *)
Theorem C65_rejected_refuted :
  (python_resolves ["pkg"; "models"] false 2 ["layers"] = None /\ resolve_relative ["pkg"; "models"] 2 ["layers"] = ["pkg"; "layers"]) /\
  (python_resolves ["script"] false 1 ["layers"] = None /\ resolve_relative ["script"] 1 ["layers"] = ["script"; "layers"]).
Proof. repeat split; vm_compute; reflexivity. Qed.
Print Assumptions C65_rejected_refuted.

(** Partial: a name that generated code reads, that is neither local nor a builtin and that the source module
    binds, is imported, and to what the module binds it to.  Left out: names bound by dotted imports (see below),
    packages' own modules, and code with an attribute of an unnamed value, f(x).b, called like something the
    module binds. *)
Theorem C94_imported_partial : forall this module locals builtins e x b t,
  (forall b, In b module -> resolvable this b) ->
  attributes_apart (bound module) e ->
  (forall p, In (Import p None) module -> hd_error p = Some x -> p = [x]) ->
  reads x e -> locals x = false -> builtins x = false ->
  In b module -> binds this false b x t ->
  exists y, In y (visit this module locals builtins e) /\ brings y x t.
Proof. intros. apply visit_complete with (b := b); assumption. Qed.
Print Assumptions C94_imported_partial.

(** Partial: if the only binding of a name is a dotted import, code that reads what lies under the whole dotted
    name imports it. *)
Theorem C94_dotted_partial : forall this module locals builtins e x path rest,
  In (Import (x :: path) None) module ->
  (forall b, In b module -> bound_name b = Some x -> b = Import (x :: path) None) ->
  locals x = false -> builtins x = false -> attributes_apart (bound module) e ->
  In ((x :: path) ++ rest)%list (chains e) ->
  In (mkSymbol (x :: path) None None) (visit this module locals builtins e).
Proof. intros this module locals builtins e x path rest. apply visit_dotted. Qed.
Print Assumptions C94_dotted_partial.

(** Whatever is imported, the source module binds to the same thing, and no local name or builtin is hidden. *)
Theorem C94_nothing_else_partial : forall this module locals builtins e y x t,
  (forall b, In b module -> resolvable this b) ->
  In y (visit this module locals builtins e) -> brings y x t ->
  locals x = false /\ builtins x = false /\ exists b, In b module /\ binds this false b x t.
Proof. intros this module locals builtins e y x t H I B. apply (visit_sound this module locals builtins H e y x t I B). Qed.
Print Assumptions C94_nothing_else_partial.

Definition ex_module : list binding :=
  [Import ["torch"] None; Import ["torch"; "nn"; "functional"] (Some "F"); Import ["os"; "path"] None; FromImport 1 ["utils"] "scale" (Some "s"); Define "helper"].
Definition ex_this : list string := ["pkg"; "models"; "attention"].
Definition ex_locals (x : string) : bool := String.eqb x "self" || String.eqb x "x" || String.eqb x "forward".
Definition ex_builtins (x : string) : bool := String.eqb x "len".
(** [F.relu(s(self.w), helper(len(os.path.join(x).split)))] *)
Definition ex_expr : expr :=
  Parts [Attr (Name "F") "relu"; Parts [Name "s"; Attr (Name "self") "w"]; Parts [Name "helper"; Parts [Name "len"; Attr (Parts [Attr (Attr (Name "os") "path") "join"; Name "x"]) "split"]]].
Example C94_nonvacuous :
  (forall b, In b ex_module -> resolvable ex_this b) /\ attributes_apart (bound ex_module) ex_expr /\ reads "s" ex_expr /\
  (forall p, In (Import p None) ex_module -> hd_error p = Some "s" -> p = ["s"]) /\
  In (["os"; "path"] ++ ["join"])%list (chains ex_expr) /\
  (forall b, In b ex_module -> bound_name b = Some "os" -> b = Import ["os"; "path"] None) /\
  visit ex_this ex_module ex_locals ex_builtins ex_expr =
    [mkSymbol ["torch"; "nn"; "functional"] (Some "F") None; mkSymbol ["scale"] (Some "s") (Some ["pkg"; "models"; "utils"]);
     mkSymbol ["helper"] None (Some ex_this); mkSymbol ["os"; "path"] None None].
Proof.
  split; [|split; [|split; [|split; [|split; [|split]]]]].
  - intros b I. cbn in I. repeat (destruct I as [<-|I]; [cbn; try exact Logic.I; try (right; cbn; lia)|]). contradiction.
  - cbn. repeat split. intros b E (b' & I & B). injection E as <-. cbn in I. repeat (destruct I as [<-|I]; [discriminate|]). contradiction.
  - cbn. tauto.
  - intros p I. cbn in I. repeat (destruct I as [I|I]; [try discriminate; injection I as <-; discriminate|]). contradiction.
  - cbn. tauto.
  - intros b I B. cbn in I. repeat (destruct I as [<-|I]; [try discriminate; try reflexivity|]). contradiction.
  - vm_compute. reflexivity.
Qed.

(** The claim fails for parts of dotted imports: after [import os.path], code reading [os.sep] imports nothing. *)
Theorem C94_dotted_refuted : forall this locals builtins,
  binds this false (Import ["os"; "path"] None) "os" (Module ["os"]) /\
  visit this [Import ["os"; "path"] None] locals builtins (Attr (Name "os") "sep") = [].
Proof.
  intros this locals builtins. split; [exists ["path"]; split; reflexivity|]. cbn. destruct (locals "os" || builtins "os")%bool; reflexivity.
Qed.
Print Assumptions C94_dotted_refuted.

(** It fails for names of builtins: a module's own [sum] is not imported. *)
Theorem C94_builtin_refuted : forall this locals builtins, builtins "sum" = true ->
  binds this false (Define "sum") "sum" (Member this "sum") /\ visit this [Define "sum"] locals builtins (Name "sum") = [].
Proof. intros this locals builtins B. split; [split; reflexivity|]. cbn. rewrite B, orb_true_r. reflexivity. Qed.
Print Assumptions C94_builtin_refuted.

(** It fails for attributes of unnamed values: in a module that binds [cat], [x(y).cat] imports [cat], which is
    not read, and not [x], which is. *)
Theorem C94_attribute_refuted : forall this locals builtins, locals "cat" = false -> builtins "cat" = false ->
  let e := Attr (Parts [Name "x"]) "cat" in
  reads "x" e /\ ~ reads "cat" e /\
  visit this [Define "x"; Define "cat"] locals builtins e = [mkSymbol ["cat"] None (Some this)].
Proof.
  intros this locals builtins L B e. split; [cbn; auto|]. split; [cbn; intros [H|[]]; discriminate|]. cbn. rewrite L, B. reflexivity.
Qed.
Print Assumptions C94_attribute_refuted.

(** A name bound twice is imported twice, to different things; the one that counts is the
    last in alphabetical order, not the last in the source. *)
Theorem C94_rebound_refuted : forall this locals builtins, locals "F" = false -> builtins "F" = false ->
  exists y1 y2, visit this [Import ["a"] (Some "F"); Import ["b"] (Some "F")] locals builtins (Name "F") = [y1; y2] /\
    brings y1 "F" (Module ["a"]) /\ brings y2 "F" (Module ["b"]).
Proof. intros this locals builtins L B. eexists. eexists. split; [cbn; rewrite L, B; reflexivity|]. cbn. auto. Qed.
Print Assumptions C94_rebound_refuted.

(** Partial: functions and classes of a generated module share its imports.  Where all of them mean the same by a
    name, the name stands for that after the imports. *)
Theorem C94_merged_partial : forall required r y x t, In r required -> In y r -> brings y x t ->
  (forall r' y' t', In r' required -> In y' r' -> brings y' x t' -> t' = t) -> stands_for (import_statements required) x t.
Proof. exact merged. Qed.
Print Assumptions C94_merged_partial.
Example C94_merged_nonvacuous :
  let a := mkSymbol ["torch"] None None in let b := mkSymbol ["scale"] (Some "s") (Some ["pkg"; "utils"]) in
  import_statements [[b; a]; [a]] = [a; b] /\ brings b "s" (Member ["pkg"; "utils"] "scale").
Proof. split; [vm_compute; reflexivity|]. exists "scale". auto. Qed.

(** The claim fails for functions of different modules: two modules that each define [scale] give a generated module
    in which both uses of [scale] mean the same. *)
Theorem C94_merged_refuted : exists this1 this2 locals builtins,
  let module := [Define "scale"] in
  let required := [visit this1 module locals builtins (Name "scale"); visit this2 module locals builtins (Name "scale")] in
  binds this1 false (Define "scale") "scale" (Member this1 "scale") /\ binds this2 false (Define "scale") "scale" (Member this2 "scale") /\ this1 <> this2 /\
  stands_for (import_statements required) "scale" (Member this2 "scale") /\ ~ stands_for (import_statements required) "scale" (Member this1 "scale").
Proof.
  exists ["a"], ["b"], (fun _ => false), (fun _ => false). cbn zeta. split; [split; reflexivity|]. split; [split; reflexivity|]. split; [discriminate|].
  assert (S : stands_for (import_statements [visit ["a"] [Define "scale"] (fun _ => false) (fun _ => false) (Name "scale"); visit ["b"] [Define "scale"] (fun _ => false) (fun _ => false) (Name "scale")]) "scale" (Member ["b"] "scale")).
  { exists [mkSymbol ["scale"] None (Some ["a"])], (mkSymbol ["scale"] None (Some ["b"])), []. split; [vm_compute; reflexivity|]. split; [exists "scale"; auto | contradiction]. }
  split; [exact S|]. intros S'. pose proof (stands_unique _ _ _ _ S S'). discriminate.
Qed.
Print Assumptions C94_merged_refuted.
