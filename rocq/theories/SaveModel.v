(** Model of src/fastforward/quantization/save_load.py and cache.py. *)
From Coq Require Import String Ascii QArith.
From Verif Require Import Prelude GgufModel.
Local Open Scope nat_scope.
Local Open Scope list_scope.

(** ** Shared tensors *)

(** A tensor as [_deduplicate_shared_tensors] sees it. *)
Record tref := mkRef {
  r_ptr : nat; r_shape : list nat; r_stride : list nat; r_device : nat; r_dtype : nat
}.
Definition key_eqb (a b : tref) : bool :=
  (r_ptr a =? r_ptr b) && size_eqb (r_shape a) (r_shape b) &&
  size_eqb (r_stride a) (r_stride b) && (r_device a =? r_device b).

(** [groups.setdefault(key, []).append(name)], save_load.py:85-88.  The key of a group is that of
    its first tensor. *)
Fixpoint add_group (t : tref) (n : string) (g : list (tref * list string)) : list (tref * list string) :=
  match g with
  | [] => [(t, [n])]
  | (k, ns) :: g' => if key_eqb t k then (k, ns ++ [n]) :: g' else (k, ns) :: add_group t n g'
  end.
Definition tensor_groups (d : list (string * tref)) : list (tref * list string) :=
  fold_left (fun g '(n, t) => add_group t n g) d [].

(** Python's [min] on strings; ValueError on an empty list *)
Definition min_name (ns : list string) : result string :=
  match ns with
  | [] => Err ValueError
  | n :: r => Ok (fold_left (fun m x => if String.ltb x m then x else m) r n)
  end.

Definition get_item {V} (d : list (string * V)) (k : string) : result V :=
  match assoc_str k d with Some v => Ok v | None => Err KeyError end.

(** save_load.py:90-97, the loop over the groups *)
Definition dedup_step (tensors : list (string * tref))
    (acc : result (list (string * tref) * list (string * string))) (names : list string) :=
  let? (unique, aliases) := acc in
  let? rep := min_name names in
  let? t := get_item tensors rep in
  Ok (dict_set rep t unique,
      fold_left (fun a n => if String.eqb n rep then a else dict_set n rep a) names aliases).

(** save_load.py:63-98 *)
Definition deduplicate_shared_tensors (tensors : list (string * tref))
    : result (list (string * tref) * list (string * string)) :=
  fold_left (dedup_step tensors) (map snd (tensor_groups tensors)) (Ok ([], [])).

(** save_load.py:101-125; the tensors may be anything. *)
Definition expand_step {V} (tensors : list (string * V)) (acc : result (list (string * V)))
    (a : string * string) : result (list (string * V)) :=
  let? expanded := acc in
  match assoc_str (snd a) tensors with
  | None => Err RuntimeError
  | Some t => Ok (dict_set (fst a) t expanded)
  end.
Definition expand_shared_tensors {V} (tensors : list (string * V)) (aliases : list (string * string))
    : result (list (string * V)) :=
  fold_left (expand_step tensors) aliases (Ok tensors).

(** ** Weights of an artifact *)

(** save_load.py:615-625 and 729-735: the entries that belong to no quantizer *)
Definition not_quantizer (quantizers : list string) (name : string) : bool :=
  negb (existsb (fun q => String.prefix (q ++ ".") name) quantizers).
Definition weight_entries {V} (quantizers : list string) (sd : list (string * V)) : list (string * V) :=
  filter (fun e => not_quantizer quantizers (fst e)) sd.

(** save_load.py:615-629: what is written.  Serialisation of the tensors is not modelled. *)
Definition save_weights (quantizers : list string) (sd : list (string * tref))
    : result (list (string * tref) * list (string * string)) :=
  deduplicate_shared_tensors (weight_entries quantizers sd).

Definition mem_str (n : string) (l : list string) : bool := existsb (String.eqb n) l.

(** save_load.py:720-746.  [place]: the storage of each entry of the model's state dict; storages
    are overwritten in the order of the loaded entries.  Shapes and dtypes are not modelled. *)
Definition load_weights {V} (keys quantizers : list string) (place : string -> nat)
    (tensors : list (string * V)) (aliases : list (string * string)) (storage : nat -> V)
    : result (nat -> V) :=
  let? ws := expand_shared_tensors tensors aliases in
  let expected := filter (not_quantizer quantizers) keys in
  let missing := filter (fun k => negb (mem_str k (map fst ws))) expected in
  let unexpected := filter (fun k => negb (mem_str k expected)) (map fst ws) in
  match missing ++ unexpected with
  | _ :: _ => Err RuntimeError
  | [] => Ok (fold_left (fun s '(k, v) => fun i => if i =? place k then v else s i) ws storage)
  end.

(** ** Quantizers *)

(** A parameter tensor: dtype, shape, values. *)
Record ten := mkTen { t_dtype : nat; t_shape : list nat; t_vals : list Q }.

(** A parameter or buffer in a state dict: lazy (of some dtype) or materialised. *)
Inductive slot := Uninit (d : nat) | Init (t : ten).

(** A quantizer: what YAML records (class, constructor arguments, attributes), and its state dict. *)
Record qobj (C : Type) := mkQ { q_config : C; q_params : list (string * slot) }.
Arguments mkQ {C}.
Arguments q_config {C}.
Arguments q_params {C}.

(** Where a quantizer hangs: owner module and attribute. *)
Definition cell : Type := nat * string.
Definition cell_eqb (a b : cell) : bool := (fst a =? fst b) && String.eqb (snd a) (snd b).
Inductive content := Stub | Concrete (q : nat) | NotQuantizer.

(** A model: the dotted names with the cell each resolves to (fixed by the module structure; a
    module registered twice gives two names for a cell), what the cells hold, and the quantizer
    objects.  Quantizers inside quantizers are not modelled. *)
Record world (C : Type) := mkW {
  w_names : list (string * cell); w_at : cell -> content; w_store : nat -> qobj C
}.
Arguments mkW {C}.
Arguments w_names {C}.
Arguments w_at {C}.
Arguments w_store {C}.

(** quantized_module.py:38-72 with remove_duplicate=False, skip_stubs=True *)
Definition named_quantizers {C} (w : world C) : list (string * nat) :=
  flat_map (fun '(n, c) => match w_at w c with Concrete q => [(n, q)] | _ => [] end) (w_names w).

(** save_load.py:158-160 *)
Fixpoint add_name (q : nat) (n : string) (g : list (nat * list string)) : list (nat * list string) :=
  match g with
  | [] => [(q, [n])]
  | (k, ns) :: g' => if q =? k then (k, ns ++ [n]) :: g' else (k, ns) :: add_name q n g'
  end.
Definition quantizer_groups (l : list (string * nat)) : list (nat * list string) :=
  fold_left (fun g '(n, q) => add_name q n g) l [].

Definition dotted (a b : string) : string := (a ++ "." ++ b)%string.
Definition is_lazy (s : slot) : bool := match s with Uninit _ => true | Init _ => false end.

(** save_load.py:189-193, one entry and the joined string *)
Definition meta_item (first : string) (p : string * slot) : string :=
  (fst p ++ "=" ++ dotted first (fst p) ++ (if is_lazy (snd p) then "::lazy" else ""))%string.
Definition meta_string (first : string) (ps : list (string * slot)) : string :=
  String.concat "," (map (meta_item first) ps).

(** What is written: model identifier, YAML [quantizers] (an object used under several names is
    one YAML anchor: names refer to positions in [f_objs]), SafeTensors entries and metadata. *)
Record saved (C : Type) := mkSaved {
  f_name : string; f_config : list (string * nat); f_objs : list C;
  f_state : list (string * ten); f_meta : list (string * string)
}.
Arguments mkSaved {C}.
Arguments f_name {C}.
Arguments f_config {C}.
Arguments f_objs {C}.
Arguments f_state {C}.
Arguments f_meta {C}.

(** save_load.py:165-193, the loop over the groups *)
Definition collect_step {C} (store : nat -> qobj C) (allow_lazy : bool)
    (acc : result (list (string * ten) * list (string * string))) (g : nat * list string) :=
  let? (state, metadata) := acc in
  let? first := min_name (snd g) in
  let ps := q_params (store (fst g)) in
  let state := fold_left (fun st '(k, s) =>
      match s with Uninit _ => st | Init t => dict_set (dotted first k) t st end) ps state in
  if existsb (fun p => is_lazy (snd p)) ps && negb allow_lazy then Err ValueError else
  Ok (state, fold_left (fun m n => dict_set n (meta_string first ps) m) (snd g) metadata).

(** save_load.py:128-198 and 225-276.  [f_config] is the dictionary comprehension of lines
    195-197 (names are distinct). *)
Fixpoint number_from {A} (i : nat) (l : list A) : list (nat * A) :=
  match l with [] => [] | a :: l' => (i, a) :: number_from (S i) l' end.
Definition empty_marker : string := "__ff_empty_quantizer_state__".
Definition write_quantizer_state {C} (w : world C) (name : string) (allow_lazy : bool)
    : result (saved C) :=
  let groups := quantizer_groups (named_quantizers w) in
  let? (state, metadata) := fold_left (collect_step (w_store w) allow_lazy) groups (Ok ([], [])) in
  let metadata := match state, metadata with [], [] => [(empty_marker, "true"%string)] | _, _ => metadata end in
  Ok (mkSaved name
        (flat_map (fun '(i, (_, ns)) => map (fun n => (n, i)) ns) (number_from 0 groups))
        (map (fun g => q_config (w_store w (fst g))) groups)
        state metadata).

(** ** Loading *)

(** [s.split(c)] for a character *)
Fixpoint split_char (c : ascii) (s : string) : list string :=
  match s with
  | EmptyString => [EmptyString]
  | String a r =>
      if Ascii.eqb a c then EmptyString :: split_char c r
      else match split_char c r with h :: t => String a h :: t | [] => [String a EmptyString] end
  end.
(** [s.split("::")] *)
Fixpoint split_colons (s : string) : list string :=
  match s with
  | EmptyString => [EmptyString]
  | String a r =>
      match r with
      | String b r' =>
          if Ascii.eqb a ":" && Ascii.eqb b ":" then EmptyString :: split_colons r'
          else match split_colons r with h :: t => String a h :: t | [] => [String a EmptyString] end
      | EmptyString => [String a EmptyString]
      end
  end.
(** [x in s] on strings *)
Fixpoint contains (x s : string) : bool :=
  String.prefix x s || match s with EmptyString => false | String _ r => contains x r end.

(** save_load.py:467-478: parameter, tensor key, lazy *)
Definition parse_item (key : string) : result (string * string * bool) :=
  match split_char "=" key with
  | [state_key; tensor_key] =>
      if contains "::" tensor_key then
        match split_colons tensor_key with
        | [tensor_key; decorators] => Ok (state_key, tensor_key, contains "lazy" decorators)
        | _ => Err ValueError
        end
      else Ok (state_key, tensor_key, contains "lazy" "")
  | _ => Err ValueError
  end.

(** [param.copy_(loaded)]: the values are cast to the dtype of the parameter. *)
Definition copy_into (cast : nat -> nat -> list Q -> list Q) (d : nat) (t : ten) : ten :=
  mkTen d (t_shape t) (cast (t_dtype t) d (t_vals t)).

(** [quantizer.load_state_dict(sd, strict=False)] with the pre-hook of quantizer.py:438-463:
    parameters, missing keys, unexpected keys.  A shape mismatch is a RuntimeError. *)
Definition load_slot (cast : nat -> nat -> list Q -> list Q) (sd : list (string * ten))
    (p : string * slot) : result (string * slot) :=
  match assoc_str (fst p) sd with
  | None => Ok p
  | Some t =>
      match snd p with
      | Uninit d => Ok (fst p, Init (copy_into cast d t))
      | Init t0 =>
          if size_eqb (t_shape t0) (t_shape t)
          then Ok (fst p, Init (copy_into cast (t_dtype t0) t)) else Err RuntimeError
      end
  end.
Definition load_state_dict (cast : nat -> nat -> list Q -> list Q) (ps : list (string * slot))
    (sd : list (string * ten)) : result (list (string * slot) * list string * list string) :=
  let? ps' := rmapM (load_slot cast sd) ps in
  Ok (ps', filter (fun k => negb (mem_str k (map fst sd))) (map fst ps),
      filter (fun k => negb (mem_str k (map fst ps))) (map fst sd)).

Definition set_nth {A} (l : list A) (i : nat) (a : A) : list A := firstn i l ++ a :: skipn (S i) l.

(** save_load.py:464-506, one name; [objs]: the parameters of the rebuilt quantizers *)
Definition load_step {C} (cast : nat -> nat -> list Q -> list Q) (f : saved C) (allow_lazy : bool)
    (objs : list (list (string * slot))) (e : string * nat) : result (list (list (string * slot))) :=
  let? meta := get_item (f_meta f) (fst e) in
  let? items := rmapM parse_item (split_char "," meta) in
  let lazies := map (fun i => fst (fst i)) (filter (fun i => snd i) items) in
  let keys := fold_left (fun d i => dict_set (fst (fst i)) (snd (fst i)) d)
                (filter (fun i => negb (snd i)) items) [] in
  let? sd := rmapM (fun e => let? t := get_item (f_state f) (snd e) in Ok (fst e, t)) keys in
  match nth_error objs (snd e) with
  | None => Err KeyError
  | Some ps =>
      let? (r, unexpected) := load_state_dict cast ps sd in
      let (ps', missing) := r in
      let? _ := match lazies with
                | _ :: _ => if allow_lazy then Ok tt else Err ValueError
                | [] => Ok tt
                end in
      let missing := filter (fun k => negb (mem_str k lazies)) missing in
      match missing ++ unexpected with
      | [] => Ok (set_nth objs (snd e) ps')
      | _ => Err RuntimeError
      end
  end.

Inductive policy := PError | PSkip | POverwrite | POther.

(** save_load.py:508-538, one name: the new content of its cell.  The rebuilt objects get the
    identities [base], [base + 1], ... *)
Definition attach_step (pol : policy) (names : list (string * cell)) (base : nat)
    (at_ : cell -> content) (e : string * nat) : result (cell -> content) :=
  match assoc_str (fst e) names with
  | None => Err AttributeError
  | Some c =>
      let put := fun c' => if cell_eqb c' c then Concrete (base + snd e) else at_ c' in
      match at_ c with
      | Concrete _ =>
          match pol with
          | PError => Err QuantizationError
          | PSkip => Ok at_
          | POverwrite => Ok put
          | POther => Err QuantizationError
          end
      | Stub => Ok put
      | NotQuantizer => Err ValueError
      end
  end.
(** the loop: what was attached before an exception stays *)
Fixpoint attach (pol : policy) (names : list (string * cell)) (base : nat) (at_ : cell -> content)
    (l : list (string * nat)) : (cell -> content) * result unit :=
  match l with
  | [] => (at_, Ok tt)
  | e :: l' => match attach_step pol names base at_ e with
               | Ok at' => attach pol names base at' l'
               | Err x => (at_, Err x)
               end
  end.

(** save_load.py:400-538.  [rebuild]: the state dict slots of the quantizer that YAML constructs
    from a configuration (serialization.py:104-145).  [expected]: the expected identifier, if any.
    The files are as written by [write_quantizer_state], version 1.0. *)
Definition load_quantizer_state {C} (cast : nat -> nat -> list Q -> list Q)
    (rebuild : C -> list (string * slot)) (pol : policy) (allow_lazy : bool)
    (expected : option string) (f : saved C) (base : nat) (w : world C) : world C * result unit :=
  let mismatch := match expected with Some n => negb (String.eqb (f_name f) n) | None => false end in
  if mismatch then (w, Err RuntimeError) else
  match fold_left (fun acc e => let? objs := acc in load_step cast f allow_lazy objs e)
          (f_config f) (Ok (map rebuild (f_objs f))) with
  | Err x => (w, Err x)
  | Ok objs =>
      let store := fun i => if i <? base then w_store w i else
                            match nth_error (f_objs f) (i - base), nth_error objs (i - base) with
                            | Some c, Some ps => mkQ c ps
                            | _, _ => w_store w i
                            end in
      let (at', r) := attach pol (w_names w) base (w_at w) (f_config f) in
      (mkW (w_names w) at' store, r)
  end.

(** ** The cache directory *)

Definition unsafe_char (c : ascii) : bool :=
  existsb (Ascii.eqb c) [" "%char; "/"%char; "\"%char; ":"%char; "<"%char; ">"%char; "|"%char].
(** cache.py:38-40.  Replacing the characters one after the other is the same as replacing all at
    once, because none of them occurs in the replacement. *)
Fixpoint sanitize (s : string) : string :=
  match s with
  | EmptyString => EmptyString
  | String c r => if unsafe_char c then ("--" ++ sanitize r)%string else String c (sanitize r)
  end.
(** cache.py:42 and save_load.py:322: the directory below the cache directory, as the operating
    system resolves it (pathlib drops the components "" and "."; ".." names the parent). *)
Definition state_dir (name tag : string) : list string :=
  let namespace := sanitize ("quantization-state/" ++ name) in
  let tag := sanitize tag in
  if String.eqb tag "" || String.eqb tag "." then [namespace]
  else if String.eqb tag ".." then []
  else [namespace; tag].

(** The cache as a map from directories to the files of a saved state, save_load.py:321-334. *)
Definition cache (F : Type) := list string -> option F.
Definition dir_eqb (a b : list string) : bool := if list_eq_dec string_dec a b then true else false.
Definition cache_save {F} (c : cache F) (name tag : string) (f : F) : cache F :=
  fun d => if dir_eqb d (state_dir name tag) then Some f else c d.
(** save_load.py:374-388; a missing file is FileNotFoundError (an OSError) *)
Definition cache_load {F} (c : cache F) (name tag : string) : result F :=
  match c (state_dir name tag) with Some f => Ok f | None => Err OSError end.
