(** Files that the writer may change. *)
From Coq Require Import Ascii String List Arith.
From Verif Require Import Prelude FwrModel.
Import ListNotations.
Local Open Scope list_scope.

(** The file for a path: the path itself if it is a name with a stem and .py, and __init__.py in it if not. *)
Inductive target : path -> path -> Prop :=
| target_py : forall front stem, stem <> [] -> target (front ++ [stem ++ list_ascii_of_string ".py"]) (front ++ [stem ++ list_ascii_of_string ".py"])
| target_dir : forall front name, (forall stem, stem <> [] -> name <> stem ++ list_ascii_of_string ".py") ->
    target (front ++ [name]) (front ++ [name; list_ascii_of_string "__init__.py"]).

(** What the file system has at the end. *)
Definition final (states : list fs) (s : fs) : Prop := exists before, states = before ++ [s].
