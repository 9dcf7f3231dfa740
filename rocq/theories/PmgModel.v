(** Running passes over syntax trees.

    Modelled code: src/fastforward/_autoquant/pass_manager.py. Nodes are of any type, with a class and a
    relation of subclasses. What a visitor makes of a statement and of the module around it is left open:
    libcst lets it return a node, remove it, replace it by several, or raise. Logging and the flag [altered],
    which only logging and an empty check use, are left out. *)
From Coq Require Import List Arith Bool.
From Verif Require Import Prelude.
Import ListNotations.

Section Pmg.
  Variables node cls : Type.
  Variable class_of : node -> cls.
  (** isinstance: the class of the node is the class or below it. *)
  Variable below : cls -> cls -> bool.
  Definition is_instance (n : node) (c : cls) : bool := below (class_of n) c.

  (** What node.visit(visitor) returns: a node, RemovalSentinel, FlattenSentinel. *)
  Inductive outcome := Node (n : node) | Removed | Flattened (l : list node).
  (** What visiting the module around statements returns: a module with statements, or something else. *)
  Inductive module_outcome := Module (body : list node) | NoModule.

  Record visitor := mkVisitor {
    needs_metadata : bool;
    on_statement : node -> result outcome;
    on_module : list node -> result module_outcome
  }.

  Inductive pass :=
  | Visitor (v : visitor)
  | Metadata (v : visitor) (wrap : bool)
  | Class (make : result pass)
  | Other.

  (** pass_manager.py:206-223 _visit_cst_same on a statement. *)
  Definition visit_same (v : visitor) (n : node) : result node :=
    let? o := on_statement v n in
    match o with
    | Node m => if is_instance m (class_of n) then Ok m else Err ValueError
    | _ => Err ValueError
    end.

  (** The same on a module with one statement; libcst splices what the visit of the statement returns. *)
  Definition visit_module (v : visitor) (n : node) : result (list node) :=
    let? o := on_statement v n in
    let? m := on_module v (match o with Node a => [a] | Removed => [] | Flattened l => l end) in
    match m with Module body => Ok body | NoModule => Err ValueError end.

  (** pass_manager.py:165-195 _apply_metadata_transformer *)
  Definition apply_metadata (v : visitor) (wrap : bool) (n : node) : result node :=
    if wrap then
      let? body := visit_module v n in
      match body with
      | [] => Err ValueError
      | m :: _ => if is_instance m (class_of n) then Ok m else Err ValueError
      end
    else visit_same v n.

  (** pass_manager.py:128-201 _apply_pass: dispatch on the type of the pass. *)
  Fixpoint apply_pass (p : pass) (n : node) : result node :=
    match p with
    | Visitor v => if needs_metadata v then apply_metadata v true n else visit_same v n
    | Metadata v wrap => apply_metadata v wrap n
    | Class make => match make with Ok p' => apply_pass p' n | Err e => Err e end
    | Other => Err NotImplementedError
    end.

  (** pass_manager.py:76-113 __call__; an error is a PassManagerError, with the number of the pass and the
      exception it comes from. *)
  Inductive answer := Done (n : node) | PassManagerError (pass_number : nat) (cause : exn).
  Fixpoint run_from (i : nat) (l : list pass) (n : node) : answer :=
    match l with
    | [] => Done n
    | p :: r =>
        match apply_pass p n with
        | Err e => PassManagerError i e
        | Ok m => run_from (S i) r m
        end
    end.
  Definition run (l : list pass) (n : node) : answer := run_from 0 l n.
End Pmg.
Arguments Node {node}. Arguments Removed {node}. Arguments Flattened {node}. Arguments Module {node}. Arguments NoModule {node}.
Arguments mkVisitor {node}. Arguments needs_metadata {node}. Arguments on_statement {node}. Arguments on_module {node}.
Arguments Visitor {node}. Arguments Metadata {node}. Arguments Class {node}. Arguments Other {node}.
Arguments Done {node}. Arguments PassManagerError {node}.
Arguments apply_pass {node cls}. Arguments run_from {node cls}. Arguments run {node cls}. Arguments visit_same {node cls}.
Arguments apply_metadata {node cls}. Arguments visit_module {node}. Arguments is_instance {node cls}.
