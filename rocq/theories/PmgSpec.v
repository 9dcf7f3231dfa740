(** What passes do, as relations. *)
From Coq Require Import List Arith Bool.
From Verif Require Import Prelude PmgModel.
Import ListNotations.

Section Spec.
  Variables node cls : Type.
  Variable class_of : node -> cls.
  Variable below : cls -> cls -> bool.

  (** The visitor of a pass, and whether the statement is put into a module for it. *)
  Inductive means : pass node -> visitor node -> bool -> Prop :=
  | means_plain v : needs_metadata v = false -> means (Visitor v) v false
  | means_needs v : needs_metadata v = true -> means (Visitor v) v true
  | means_metadata v w : means (Metadata v w) v w
  | means_class p v w : means p v w -> means (Class (Ok p)) v w.

  (** The statements that a visitor leaves in place of one. *)
  Definition left_by (o : outcome node) : list node :=
    match o with Node a => [a] | Removed => [] | Flattened l => l end.
  Inductive leaves (v : visitor node) (n : node) : bool -> list node -> Prop :=
  | leaves_alone o : on_statement v n = Ok o -> leaves v n false (left_by o)
  | leaves_in_module o l : on_statement v n = Ok o -> on_module v (left_by o) = Ok (Module l) -> leaves v n true l.

  (** A pass turns a statement into exactly one, of its class. *)
  Definition turns (p : pass node) (n m : node) : Prop :=
    exists v w, means p v w /\ leaves v n w [m] /\ below (class_of m) (class_of n) = true.
  (** One after the other. *)
  Inductive chain : list (pass node) -> node -> node -> Prop :=
  | chain_nil n : chain [] n n
  | chain_cons p l n m k : turns p n m -> chain l m k -> chain (p :: l) n k.

  (** Visitors that do not answer with several statements, or with a list of one. *)
  Definition single (v : visitor node) : Prop :=
    (forall n l, on_statement v n <> Ok (Flattened l))
    /\ (forall b l, on_module v b = Ok (Module l) -> length l <= 1).
  Definition single_pass (p : pass node) : Prop := forall v w, means p v w -> single v.
End Spec.
Arguments means {node}. Arguments left_by {node}. Arguments leaves {node}. Arguments turns {node cls}.
Arguments chain {node cls}. Arguments single {node}. Arguments single_pass {node}.
