(** Specification vocabulary for bound data flows. *)
From Coq Require Import String Ascii Relations Permutation.
From Verif Require Import Prelude GraphModel GraphSpec RegModel BndModel.
Local Open Scope nat_scope.
Local Open Scope list_scope.

(** Nodes with what they depend on: each once, each after the nodes it takes input from, which are all there. *)
Definition runnable (g : graph) (l : list nat) : Prop :=
  NoDup l /\ (forall x, In x l -> is_leaf g x) /\ forall a b, In b l -> feeds g a b -> before l a b.

(** The plan gives what arrives at the region: its arguments, after the nodes the region depends on and no others. *)
Definition gives_inputs (g : graph) (region : gnode) (p : plan) : Prop :=
  runnable g (p_nodes p) /\ (forall x, In x (p_nodes p) <-> clos_trans nat (feeds g) x (n_id region)) /\
  p_reads p = n_args region /\ p_kwargs p = n_kwargs region.

(** The plan gives what leaves the region: its result, after the nodes the region depends on and the region, and
    no others. *)
Definition gives_output (g : graph) (region : gnode) (p : plan) : Prop :=
  runnable g (p_nodes p) /\ (forall x, In x (p_nodes p) <-> clos_refl_trans nat (feeds g) x (n_id region)) /\
  (exists name, p_reads p = [RNode (n_id region) name]) /\ p_kwargs p = [].

(** The plan is for the flow. *)
Definition answers (g : graph) (region : gnode) (f : flow) (p : plan) : Prop :=
  p_flow p = f /\
  match fl_kind f with
  | InputActivations => gives_inputs g region p
  | OutputActivations => gives_output g region p
  | OtherFlow => False
  end.
