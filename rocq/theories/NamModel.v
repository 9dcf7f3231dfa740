(** Models how autoquant names quantizers, classes and helper functions:
    fastforward/_autoquant/pybuilder/quantizer_collection.py, and [QuantizedClassNameAllocator], the renaming of
    helpers and [_RenameHelperRefsTransformer] of fastforward/_autoquant/autoquant.py. *)
From Coq Require Import String Ascii DecimalString.
From Verif Require Import Prelude.
Local Open Scope nat_scope.
Local Open Scope list_scope.

(** A number in an f-string *)
Definition decimal (n : nat) : string := NilZero.string_of_uint (Nat.to_uint n).
(** [f"{x}_{n}"] *)
Definition numbered (x : string) (n : nat) : string := (x ++ "_" ++ decimal n)%string.

(** ** quantizer_collection.py *)
(** function_context.py: nothing known, an instance method of a module class, or any other function.  Classes and
    functions are numbers. *)
Inductive context := NoContext | InMethod (module func : nat) | InFunction (func : nat).
(** 121-134: keys of [quantizer_name_groups] *)
Inductive group := Global | OfModule (m : nat) | OfFunction (f : nat).
Definition group_of (c : context) : group :=
  match c with NoContext => Global | InMethod m _ => OfModule m | InFunction f => OfFunction f end.
Definition group_eqb (a b : group) : bool :=
  match a, b with Global, Global => true | OfModule m, OfModule n => m =? n | OfFunction f, OfFunction g => f =? g | _, _ => false end.
(** 235-256; reference numbers are positions *)
Record meta := mkMeta { m_name : string; m_context : context; m_final : option string }.
(** 44-66 *)
Definition create_reference (c : context) (name : string) (col : list meta) : list meta := col ++ [mkMeta name c None].
(** 136-144 *)
Definition get_name (prefix name : string) (idx count : nat) : string :=
  let full := if String.prefix prefix name then name else (prefix ++ name)%string in
  if 1 <? count then numbered full (idx + 1) else full.
(** 117-134: members of one list of one group, that is the references with the same key and name *)
Definition alike (a b : meta) : bool := group_eqb (group_of (m_context a)) (group_of (m_context b)) && String.eqb (m_name a) (m_name b).
(** 146-149; [before] are the references made earlier *)
Fixpoint name_all (prefix : string) (before col : list meta) : list meta :=
  match col with
  | [] => []
  | m :: col' =>
      mkMeta (m_name m) (m_context m)
        (Some (get_name prefix (m_name m) (length (filter (alike m) before)) (length (filter (alike m) (before ++ col)))))
      :: name_all prefix (before ++ [m]) col'
  end.
Definition disambiguate_all (prefix : string) (col : list meta) : list meta := name_all prefix [] col.
(** 151-173: the name and the collection after the call, or [KeyError] *)
Definition disambiguate_reference (prefix : string) (ref : nat) (col : list meta) : option (string * list meta) :=
  match nth_error col ref with
  | None => None
  | Some m =>
      match m_final m with
      | Some x => Some (x, col)
      | None => let col' := disambiguate_all prefix col in
                match nth_error col' ref with Some (mkMeta _ _ (Some x)) => Some (x, col') | _ => None end
      end
  end.
(** 210-232 and builder.py:308-316: what [__init_quantization__] of a class declares *)
Definition instance_quantizers (module : nat) (col : list meta) : list nat :=
  filter (fun i => match nth_error col i with Some m => match m_context m with InMethod k _ => k =? module | _ => false end | None => false end)
    (seq 0 (length col)).
(** builder.py:366-374 [_add_quantizer_args] *)
Definition add_quantizer_args (params quantizers : list string) : list string := params ++ quantizers.

(** ** autoquant.py:44-83 *)
Definition mem (x : string) (l : list string) : bool := existsb (String.eqb x) l.
(** 58-64: [while True]; [None] if nothing is found in [fuel] turns *)
Fixpoint search (fuel : nat) (preferred : string) (i : nat) (used : list string) : option string :=
  match fuel with
  | 0 => None
  | S n => if mem (numbered preferred i) used then search n preferred (S i) used else Some (numbered preferred i)
  end.
(** 53-64; more turns than used names cannot be needed *)
Definition alloc_unique (preferred : string) (used : list string) : option string :=
  if mem preferred used then search (S (length used)) preferred 1 used else Some preferred.
Definition occurrences (x : string) (l : list string) : nat := length (filter (String.eqb x) l).
(** 47-51: names seen so far (for the counters), used quantized names, used aliases *)
Record allocator := mkAllocator { a_seen : list string; a_quantized : list string; a_aliases : list string }.
(** 66-83; [totals] are the names of all types given at the start *)
Definition for_module_type (totals : list string) (a : allocator) (name : string) : option (string * string * allocator) :=
  let index := occurrences name (a_seen a) in
  let '(alias, quantized) :=
    if 1 <? occurrences name totals
    then (numbered ("__ffaq_base_" ++ name)%string index, numbered ("Quantized" ++ name)%string index)
    else (name, ("Quantized" ++ name)%string) in
  match alloc_unique alias (a_aliases a), alloc_unique quantized (a_quantized a) with
  | Some x, Some y => Some (x, y, mkAllocator (a_seen a ++ [name]) (y :: a_quantized a) (x :: a_aliases a))
  | _, _ => None
  end.
(** 118-132: one pair for every type *)
Fixpoint allocate (totals : list string) (a : allocator) (names : list string) : option (list (string * string)) :=
  match names with
  | [] => Some []
  | x :: names' =>
      match for_module_type totals a x with
      | Some (alias, quantized, a') => match allocate totals a' names' with Some l => Some ((alias, quantized) :: l) | None => None end
      | None => None
      end
  end.
Definition fresh_allocator : allocator := mkAllocator [] [] [].

(** ** autoquant.py:619-642: new names of helpers; [used] are the names of classes and methods *)
Definition helper_name (used : list string) (name : string) : option string :=
  let preferred := ("quantized_" ++ name)%string in
  if mem preferred used then search (S (length used)) preferred 2 used else Some preferred.
Fixpoint helper_names (used names : list string) : option (list string) :=
  match names with
  | [] => Some []
  | x :: names' =>
      match helper_name used x with
      | Some y => match helper_names (y :: used) names' with Some l => Some (y :: l) | None => None end
      | None => None
      end
  end.

(** ** autoquant.py:644-658 and 941-980: references to helpers *)
Fixpoint lookup (x : string) (l : list (string * string)) : option string :=
  match l with [] => None | (y, z) :: l' => if String.eqb x y then Some z else lookup x l' end.
(** 648-658; pairs of old and new names *)
Fixpoint name_map (ambiguous : list string) (map : list (string * string)) (renamed : list (string * string)) : list (string * string) :=
  match renamed with
  | [] => map
  | (old, new) :: l =>
      if mem old ambiguous then name_map ambiguous map l
      else match lookup old map with
           | Some _ => name_map (old :: ambiguous) (filter (fun p => negb (String.eqb old (fst p))) map) l
           | None => name_map ambiguous (map ++ [(old, new)]) l
           end
  end.
(** Expressions as far as names go: names, attributes, calls with positional and keyword arguments *)
Inductive expr := Name (x : string) | Attr (e : expr) (a : string) | Call (f : expr) (args : list (option string * expr)).
Definition renamed_name (map : list (string * string)) (x : string) : string := match lookup x map with Some y => y | None => x end.
(** [libcst.Arg.keyword] is a [Name] that is visited like any other; [libcst.Attribute.attr] is left alone *)
Fixpoint rename_refs (map : list (string * string)) (e : expr) : expr :=
  match e with
  | Name x => Name (renamed_name map x)
  | Attr e a => Attr (rename_refs map e) a
  | Call f args => Call (rename_refs map f) (List.map (fun p => (option_map (renamed_name map) (fst p), rename_refs map (snd p))) args)
  end.
