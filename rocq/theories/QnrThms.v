(** C153 and C154: references by qualified names. *)
From Coq Require Import Ascii String List Arith Bool Lia.
From Verif Require Import Prelude QnrModel QnrSpec QnrProofs.
Import ListNotations.

Definition txt (s : string) : list ascii := list_ascii_of_string s.

(** ** C153 *)

(** Importing a name takes the longest beginning that is a module and follows the rest as attributes. It
    gives the object there, or ImportError if no beginning is a module or an attribute is missing, or the
    exception that the module raises; ModuleNotFoundError counts as not being a module. *)
Theorem C153_longest_module_then_attributes : forall (object : Type) (load : list ascii -> loaded object) attr l s,
  dotted l s ->
  match import load attr s with
  | Object o => exists a b m, l = a ++ b /\ longest load a b (Found m) /\ path attr m b o
  | ImportError => (forall a c n, l = a ++ c -> dotted a n -> load n = NotFound)
                   \/ exists a b m, l = a ++ b /\ longest load a b (Found m) /\ forall o, ~ path attr m b o
  | Raises e => exists a b, l = a ++ b /\ longest load a b (Fails e)
  end.
Proof. exact import_spec. Qed.
Print Assumptions C153_longest_module_then_attributes.

(** Every name is such a sequence, in one way. *)
Theorem C153_names_have_parts : forall s, exists l, dotted l s /\ forall l', dotted l' s -> l' = l.
Proof. intro s. exists (split s). split; [apply split_dotted|]. intros l' H. symmetry. now apply dotted_split. Qed.
Print Assumptions C153_names_have_parts.

(** What is there is found, and there is only one such object. *)
Theorem C153_found_if_there : forall (object : Type) (load : list ascii -> loaded object) attr a b s m o,
  dotted (a ++ b) s -> longest load a b (Found m) -> path attr m b o -> import load attr s = Object o.
Proof. intros object load attr a b s m o D L P. eapply import_conv; eauto. Qed.
Print Assumptions C153_found_if_there.

(** [import_module] gives that module and its name. *)
Theorem C153_module : forall (object : Type) (load : list ascii -> loaded object) l s m n,
  dotted l s -> import_module load s = Object (m, n) ->
  exists a b, l = a ++ b /\ longest load a b (Found m) /\ dotted a n.
Proof. exact import_module_spec. Qed.
Print Assumptions C153_module.

(** A package with number 1, which has a class 2 with a method 3, a submodule 4 called [sub] and a function
    5 called [sub]; [pkg.bad] is a module that raises an exception. *)
Definition load1 (s : list ascii) : loaded nat :=
  if list_eq_dec ascii_dec s (txt "pkg") then Found 1
  else if list_eq_dec ascii_dec s (txt "pkg.sub") then Found 4
  else if list_eq_dec ascii_dec s (txt "pkg.bad") then Fails RuntimeError
  else NotFound.
Definition attr1 (o : nat) (x : list ascii) : option nat :=
  match o with
  | 1 => if list_eq_dec ascii_dec x (txt "Net") then Some 2
         else if list_eq_dec ascii_dec x (txt "sub") then Some 5 else None
  | 2 => if list_eq_dec ascii_dec x (txt "forward") then Some 3 else None
  | _ => None
  end.
Example C153_nonvacuous :
  import load1 attr1 (txt "pkg.Net.forward") = Object 3
  /\ import_module load1 (txt "pkg.Net.forward") = Object (1, txt "pkg")
  /\ import load1 attr1 (txt "pkg.Net.backward") = ImportError
  /\ import load1 attr1 (txt "other.Net") = ImportError
  /\ import load1 attr1 (txt "pkg.bad.Net") = Raises RuntimeError
  /\ dotted [txt "pkg"; txt "Net"; txt "forward"] (txt "pkg.Net.forward").
Proof. repeat split. apply (split_dotted (txt "pkg.Net.forward")). Qed.

(** ** C154 *)

(** The qualified name of an object, imported, gives the object, if it is found in its module under its
    name and no beginning of that name is a module inside the module. *)
Theorem C154_names_lead_back_partial : forall (object : Type) (load : list ascii -> loaded object) attr ms qs module qualname m o,
  dotted ms module -> dotted qs qualname -> module <> txt "__builtin__" -> load module = Found m -> path attr m qs o ->
  (forall c d s, qs = c ++ d -> c <> [] -> dotted (ms ++ c) s -> load s = NotFound) ->
  import load attr (fully_qualified_name (Some module) qualname) = Object o.
Proof.
  intros object load attr ms qs module qualname m o Dm Dq B L P N. cbn [fully_qualified_name].
  fold (txt "__builtin__"). destruct (list_eq_dec ascii_dec module (txt "__builtin__")); [contradiction|].
  apply (C153_found_if_there object load attr ms qs _ m o).
  - now apply dotted_app.
  - split; [discriminate|]. split; [eauto|]. exact N.
  - exact P.
Qed.
Print Assumptions C154_names_lead_back_partial.

Example C154_nonvacuous :
  load1 (txt "pkg") = Found 1 /\ path attr1 1 [txt "Net"; txt "forward"] 3
  /\ dotted [txt "Net"; txt "forward"] (txt "Net.forward")
  /\ import load1 attr1 (fully_qualified_name (Some (txt "pkg")) (txt "Net.forward")) = Object 3.
Proof.
  split; [reflexivity|]. split; [eapply path_cons; [reflexivity|eapply path_cons; [reflexivity|constructor]]|].
  split; [apply (split_dotted (txt "Net.forward"))|reflexivity].
Qed.

(** A function that has the name of a submodule: the submodule is found instead. *)
Theorem C154_submodule_refuted : path attr1 1 [txt "sub"] 5
  /\ import load1 attr1 (fully_qualified_name (Some (txt "pkg")) (txt "sub")) = Object 4.
Proof. split; [eapply path_cons; [reflexivity|constructor]|reflexivity]. Qed.
Print Assumptions C154_submodule_refuted.

(** A function made inside another has no such path. *)
Theorem C154_local_refuted : import load1 attr1 (fully_qualified_name (Some (txt "pkg")) (txt "Net.<locals>.f")) = ImportError.
Proof. reflexivity. Qed.
Print Assumptions C154_local_refuted.

(** An object without module has its bare name, which is no reference to it. *)
Theorem C154_no_module_refuted : import load1 attr1 (fully_qualified_name None (txt "Net")) = ImportError.
Proof. reflexivity. Qed.
Print Assumptions C154_no_module_refuted.
