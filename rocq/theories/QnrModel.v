(** References by qualified names.

    Modelled code: src/fastforward/_import.py:33-92 QualifiedNameReference, and 12-30 fully_qualified_name
    without the case of torch's functions. Python's import system is left open: [load] says what
    importlib.import_module does for a dotted name, [attr] what getattr finds. An error of getattr other
    than AttributeError is left out. *)
From Coq Require Import Ascii String List Arith Bool.
From Verif Require Import Prelude.
Import ListNotations.

Notation text := (list ascii).
Definition dot : ascii := "."%char.

(** str.split(".") *)
Fixpoint split (s : text) : list text :=
  match s with
  | [] => [[]]
  | c :: s' =>
      match split s' with
      | [] => [[c]]
      | p :: r => if Ascii.eqb c dot then [] :: p :: r else (c :: p) :: r
      end
  end.
(** ".".join *)
Fixpoint join (l : list text) : text :=
  match l with
  | [] => []
  | p :: r => match r with [] => p | _ => p ++ dot :: join r end
  end.

Section Import.
  Variable object : Type.
  (** importlib.import_module: a module, ModuleNotFoundError, or another exception. *)
  Inductive loaded := Found (m : object) | NotFound | Fails (e : exn).
  Variable load : text -> loaded.
  Variable attr : object -> text -> option object.

  Inductive answer (A : Type) := Object (a : A) | ImportError | Raises (e : exn).
  Arguments Object {A}. Arguments ImportError {A}. Arguments Raises {A}.

  (** _import.py:67-85 _import_module; the parts of the reference from the last to the first. *)
  Fixpoint import_prefix (parts : list text) (remainder : list text) : answer (object * text * list text) :=
    match parts with
    | [] => ImportError
    | stem :: parent =>
        match load (join (rev parts)) with
        | Found m => Object (m, join (rev parts), remainder)
        | NotFound => import_prefix parent (stem :: remainder)
        | Fails e => Raises e
        end
    end.
  (** _import.py:50-65 import_ *)
  Fixpoint follow (m : object) (members : list text) : option object :=
    match members with
    | [] => Some m
    | x :: r => match attr m x with Some o => follow o r | None => None end
    end.
  Definition import (name : text) : answer object :=
    match import_prefix (rev (split name)) [] with
    | Object (m, _, members) => match follow m members with Some o => Object o | None => ImportError end
    | ImportError => ImportError
    | Raises e => Raises e
    end.
  (** _import.py:87-89 import_module *)
  Definition import_module (name : text) : answer (object * text) :=
    match import_prefix (rev (split name)) [] with
    | Object (m, n, _) => Object (m, n)
    | ImportError => ImportError
    | Raises e => Raises e
    end.
  (** _import.py:12-30 fully_qualified_name of an object that is no module *)
  Definition fully_qualified_name (module : option text) (qualname : text) : text :=
    match module with
    | None => qualname
    | Some m => if list_eq_dec ascii_dec m (list_ascii_of_string "__builtin__") then qualname else m ++ dot :: qualname
    end.
End Import.
Arguments Found {object}. Arguments NotFound {object}. Arguments Fails {object}.
Arguments Object {A}. Arguments ImportError {A}. Arguments Raises {A}.
Arguments import_prefix {object}. Arguments follow {object}. Arguments import {object}. Arguments import_module {object}.
