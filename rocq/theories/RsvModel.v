(** Resolution of qualified names to the names of definitions.

    Modelled code: src/fastforward/_autoquant/pysource/source_context.py:350-373 _resolve_name. The import system is
    arbitrary: which names are modules, which objects names have, and the qualified names of objects; see QnrModel
    for the first and C153. *)
From Coq Require Import List Arith Bool.
From Verif Require Import Prelude.
Import ListNotations.

Section Rsv.
  Variable object : Type.
  (** Whether the name is the name of a module, after the import of the longest module in it. *)
  Variable is_module : nat -> bool.
  (** The object of a name, or the exception of the import or of attrgetter. *)
  Variable object_at : nat -> result object.
  Variable qualified_name : object -> nat.
  Variable is_function : object -> bool.
  (** The values of the variables that a function captures. *)
  Variable captured : object -> list object.

  (** source_context.py:356-365: the name of the object, or the given name if the object is a wrapper of a
      function of that name. *)
  Definition resolved_name (name : nat) (o : object) : nat :=
    let r := qualified_name o in
    if negb (r =? name) && is_function o then
      if existsb (fun c => qualified_name c =? name) (captured o) then name else r
    else r.

  (** source_context.py:350-373 _resolve_name; [depth] is the number of calls that Python allows. *)
  Fixpoint resolve (depth : nat) (name : nat) : result nat :=
    match depth with
    | 0 => Err RecursionError
    | S depth' =>
        if is_module name then Ok name
        else let? o := object_at name in
             let r := resolved_name name o in
             if r =? name then Ok r else resolve depth' r
    end.
End Rsv.
Arguments resolved_name {object}. Arguments resolve {object}.
