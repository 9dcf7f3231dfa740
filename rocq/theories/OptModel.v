(** Models the table of quantized operators: fastforward/_quantops/optable.py. *)
From Coq Require Import String.
From Verif Require Import Prelude OpsModel.
Local Open Scope nat_scope.
Local Open Scope list_scope.

(** An operator with its metadata.  Callables are numbers; [None] for [dispatch_op] is Python's [None].  Operators
    without metadata are left out: they are refused at once (134-135). *)
Record entry := mkEntry { e_op : operator; e_fallback : string; e_dispatch : option nat }.
(** 91-102: [_operator_specs], [_py_op_index], [_py_op_aliases] *)
Record table := mkTable { specs : list (list entry); index : list (nat * nat); names : list (string * nat) }.
Definition empty : table := mkTable [] [] [].
Fixpoint lookup_obj (k : nat) (l : list (nat * nat)) : option nat :=
  match l with [] => None | (x, i) :: l' => if x =? k then Some i else lookup_obj k l' end.
Fixpoint lookup_name {A} (k : string) (l : list (string * A)) : option A :=
  match l with [] => None | (x, a) :: l' => if String.eqb x k then Some a else lookup_name k l' end.
Fixpoint append_at (i : nat) (e : entry) (l : list (list entry)) : list (list entry) :=
  match i, l with
  | _, [] => []
  | 0, es :: l' => (es ++ [e]) :: l'
  | S i', es :: l' => es :: append_at i' e l'
  end.

Section Table.
  (** [QualifiedNameReference(name).import_()]: [None] if it raises ImportError or AttributeError *)
  Variable import : string -> option nat.
  (** [_resolve_dispatch], and whether [STR_ALIASES_EXTENSIONS] is given (44-50) *)
  Variable resolve_dispatch : bool.
  Variable fallback_names : bool.

  (** 247-254 *)
  Definition dispatch_op (name : string) : result nat :=
    match import (String.append "fastforward.nn.functional." name) with Some f => Ok f | None => Err ValueError end.
  (** 366-391: add_alias; the operation by reference or by name *)
  Inductive key := KObj (f : nat) | KName (s : string).
  Definition resolve_alias (t : table) (s : string) : result nat := match lookup_name s (names t) with Some f => Ok f | None => Err KeyError end.
  Definition add_alias (t : table) (alias : string) (k : key) : table * result unit :=
    match (match k with KObj f => Ok f | KName s => resolve_alias t s end) with
    | Ok f => (mkTable (specs t) (index t) (set_item alias f (names t)), Ok tt)
    | Err e => (t, Err e)
    end.
  (** 159-197: [_register_callable_alias] *)
  Definition register_alias (t : table) (name : string) (i : nat) : table * result unit :=
    match import name with
    | None => (t, Ok tt)
    | Some f =>
        match lookup_obj f (index t) with
        | Some j => if j =? i then (mkTable (specs t) (index t) (set_item name f (names t)), Ok tt) else (t, Err ValueError)
        | None => (mkTable (specs t) (index t ++ [(f, i)]) (set_item name f (names t)), Ok tt)
        end
    end.
  Fixpoint register_aliases (t : table) (l : list string) (i : nat) : table * result unit :=
    match l with
    | [] => (t, Ok tt)
    | a :: l' => match register_alias t a i with (t', Ok _) => register_aliases t' l' i | (t', Err e) => (t', Err e) end
    end.
  (** 104-157: append_operator.  A fallback that cannot be imported raises ImportError, for which [OSError] stands. *)
  Definition append_operator (t : table) (e : entry) (aliases : list string) : table * result unit :=
    match import (e_fallback e) with
    | None => (t, Err OSError)
    | Some f =>
        match (match e_dispatch e with
               | None => if resolve_dispatch then match dispatch_op (o_identifier (e_op e)) with Ok d => Ok (mkEntry (e_op e) (e_fallback e) (Some d)) | Err x => Err x end else Ok e
               | Some _ => Ok e end) with
        | Err x => (t, Err x)
        | Ok e' =>
            match lookup_obj f (index t) with
            | Some i => register_aliases (mkTable (append_at i e' (specs t)) (index t) (names t)) aliases i
            | None =>
                let i := length (specs t) in
                register_aliases
                  (mkTable (specs t ++ [[e']]) (index t ++ [(f, i)]) (if fallback_names then set_item (e_fallback e') f (names t) else names t)) aliases i
            end
        end
    end.
  (** 199-245: add, with the specification parsed; a dispatch operation given by name is looked up, if
      [_resolve_dispatch] *)
  Inductive dispatch_arg := DNone | DObj (f : nat) | DName (s : string).
  Definition add (t : table) (s : spec) (fallback : string) (d : dispatch_arg) (aliases : list string) : table * result unit :=
    match (match d with DNone => Ok None | DObj f => Ok (Some f) | DName x => if resolve_dispatch then match dispatch_op x with Ok f => Ok (Some f) | Err e => Err e end else Ok None end) with
    | Err e => (t, Err e)
    | Ok d' => match from_spec s with Err e => (t, Err e) | Ok o => append_operator t (mkEntry o fallback d') aliases end
    end.
  (** 256-304: from_yaml.  ValueErrors are collected, others end it *)
  Fixpoint load (t : table) (rows : list (spec * string * list string)) (errors : nat) : result table :=
    match rows with
    | [] => if errors =? 0 then Ok t else Err RuntimeError
    | (s, fallback, aliases) :: rows' =>
        match add t s fallback DNone aliases with
        | (t', Ok _) => load t' rows' errors
        | (t', Err ValueError) => load t' rows' (S errors)
        | (_, Err e) => Err e
        end
    end.
  Definition from_yaml (rows : list (spec * string * list string)) : result table := load empty rows 0.

  (** 306-313: operators *)
  Definition operators (t : table) : list entry := concat (specs t).
  (** 315-351: get: newest first.  An index out of range would be an IndexError *)
  Definition get (t : table) (k : key) : result (list entry) :=
    match (match k with KObj f => Ok f | KName s => resolve_alias t s end) with
    | Err e => Err e
    | Ok f =>
        match lookup_obj f (index t) with
        | None => Err KeyError
        | Some i => match nth_error (specs t) i with Some es => Ok (rev es) | None => Err IndexError end
        end
    end.
  (** 359-364: [in]; an empty list would be StopIteration *)
  Definition contains (t : table) (k : key) : result bool :=
    match get t k with Ok (_ :: _) => Ok true | Ok [] => Err StopIteration | Err KeyError => Ok false | Err e => Err e end.

  (** What is done to a table *)
  Inductive action := AAppend (e : entry) (aliases : list string) | AAlias (alias : string) (k : key).
  Definition do (t : table) (a : action) : table * result unit :=
    match a with AAppend e aliases => append_operator t e aliases | AAlias alias k => add_alias t alias k end.
  Definition history (l : list action) : table := fold_left (fun t a => fst (do t a)) l empty.
End Table.
