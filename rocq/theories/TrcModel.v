(** Models tracing: fastforward/_orchestration/trace.py: the conversion of an exported fx program into
    a [GraphModule] (lines 66-100, 123-151, 173-459).  UniModel has the placeholders for uninitialised
    parameters (27-63) and the cache of traced graphs (465-544). *)
From Coq Require Import String Ascii.
From Verif Require Import Prelude GraphModel EngineModel CoarseModel BuildModel NamModel.
Local Open Scope nat_scope.
Local Open Scope list_scope.

(** ** Exported programs *)

(** Arguments of fx nodes: other nodes, containers, and any other object (a number).  A tuple has field
    names if it is a named tuple; keys of dictionaries are strings. *)
Inductive farg :=
| ANode (n : nat)
| AAtom (c : nat)
| ATuple (names : list string) (l : list farg)
| AList (l : list farg)
| ASlice (a b c : farg)
| ADict (l : list (string * farg)).
(** [fx.Node.op] with the target; functions are numbers *)
Inductive fop := Placeholder | FGetAttr (t : string) | FCallModule (t : string) | FCallFunction (fn : nat) | FCallMethod (m : string) | FOutput | FOther.
Record fxnode := mkFx { x_id : nat; x_name : string; x_op : fop; x_args : list farg; x_kwargs : list (string * farg) }.
(** A module of the unflattened program: a number, the attributes that are no submodules, the graph if it has
    one, and the modules [get_submodule] finds, by target. *)
Inductive fmod := FMod (self : nat) (attrs : list string) (graph : option (list fxnode)) (children : list (string * fmod)).
Definition m_self (m : fmod) : nat := match m with FMod n _ _ _ => n end.
Definition m_attrs (m : fmod) : list string := match m with FMod _ a _ _ => a end.
Definition m_fx (m : fmod) : list fxnode := match m with FMod _ _ (Some g) _ => g | _ => [] end.
Definition m_children (m : fmod) : list (string * fmod) := match m with FMod _ _ _ c => c end.

(** trace.py:132-144 [_contains_fx_node] *)
Fixpoint contains_node (x : farg) : bool :=
  match x with
  | ANode _ => true
  | AAtom _ => false
  | ATuple _ l | AList l => existsb contains_node l
  | ASlice a b c => contains_node a || contains_node b || contains_node c
  | ADict l => existsb (fun e => contains_node (snd e)) l
  end.

Definition is_call_module (n : fxnode) : bool := match x_op n with FCallModule _ => true | _ => false end.
Definition is_output (n : fxnode) : bool := match x_op n with FOutput => true | _ => false end.
(** trace.py:187-199 [_is_non_leaf_graph_module] *)
Definition non_leaf (m : fmod) : bool := match m with FMod _ _ (Some g) _ => existsb is_call_module g | _ => false end.

(** ** Targets of the traced graph *)

(** What the nodes of the traced graph call: 66-79 the container makers, 82-89 [_make_method_caller], 92-102
    [_make_get_attr], 123-129 [_prepare_output], fx functions, original modules and captured modules. *)
Inductive target :=
| TTuple | TList | TSlice | TDict
| TMethod (name : string)
| TAttr (path : string)
| TOutput
| TFn (fn : nat)
| TOriginal (m : nat)
| TCaptured (m : nat).

(** What user code does: functions, methods, attributes of the original module by path, calls of original and of
    captured modules, [slice], [tree_unflatten] for the structure of the output, values of objects. *)
Record host (X : Type) := mkHost {
  h_fn : nat -> list (val X) -> list (string * val X) -> result (val X);
  h_method : string -> val X -> list (val X) -> list (string * val X) -> result (val X);
  h_attr : string -> result (val X);
  h_original : nat -> list (val X) -> list (string * val X) -> result (val X);
  h_captured : nat -> list (val X) -> list (string * val X) -> result (val X);
  h_slice : val X -> val X -> val X -> val X;
  h_unflatten : list (val X) -> result (val X);
  h_none : val X }.
Arguments mkHost {X}. Arguments h_fn {X}. Arguments h_method {X}. Arguments h_attr {X}. Arguments h_original {X}.
Arguments h_captured {X}. Arguments h_slice {X}. Arguments h_unflatten {X}. Arguments h_none {X}.

(** [_make_slice(start=None, stop=None, step=None)] called with keywords only, as the builder does *)
Definition keyword {X} (d : val X) (k : string) (kw : list (string * val X)) : val X :=
  match aget String.eqb k kw with Some v => v | None => d end.
Definition has_key {A} (k : string) (kw : list (string * A)) : bool := existsb (fun e => String.eqb (fst e) k) kw.

(** trace.py:66-102, 123-129: calling a target.  Only the argument errors of the bridges themselves are told. *)
Definition call_target {X} (h : host X) (t : target) (args : list (val X)) (kwargs : list (string * val X)) : result (val X) :=
  match t with
  | TTuple => match kwargs with [] => Ok (Tup [] args) | _ => Err TypeError end          (* 66-67 *)
  | TList => match kwargs with [] => Ok (Lst args) | _ => Err TypeError end              (* 70-71 *)
  | TSlice => match args with                                                            (* 74-75 *)
              | [] => Ok (h_slice h (keyword (h_none h) "start" kwargs) (keyword (h_none h) "stop" kwargs) (keyword (h_none h) "step" kwargs))
              | _ => Err TypeError
              end
  | TDict => match args with [] => Ok (Dic kwargs) | _ => Err TypeError end              (* 78-79 *)
  | TMethod m => match args with                                                         (* 82-89 *)
                 | [] => Err TypeError
                 | o :: a => if has_key "self" kwargs then Err TypeError else h_method h m o a kwargs
                 end
  | TAttr p => match args, kwargs with [], [] => h_attr h p | _, _ => Err TypeError end  (* 92-102 *)
  | TOutput => match kwargs with [] => h_unflatten h args | _ => Err TypeError end       (* 123-129 *)
  | TFn n => h_fn h n args kwargs
  | TOriginal m => h_original h m args kwargs
  | TCaptured m => h_captured h m args kwargs
  end.

(** ** Names of placeholders *)

Definition digit (c : ascii) : bool := let n := nat_of_ascii c in (48 <=? n) && (n <=? 57).
Fixpoint all_digits (t : string) : bool := match t with EmptyString => true | String c t' => digit c && all_digits t' end.
(** the text between a prefix and a final underscore, if it is not empty *)
Definition between (pre t : string) : option string :=
  if String.prefix pre t then
    let rest := String.substring (String.length pre) (String.length t - String.length pre) t in
    let n := String.length rest in
    if (2 <=? n) && String.eqb (String.substring (n - 1) 1 rest) "_" then Some (String.substring 0 (n - 1) rest) else None
  else None.
(** [int(digits)] *)
Fixpoint int_of (acc : nat) (t : string) : nat :=
  match t with EmptyString => acc | String c t' => int_of (10 * acc + (nat_of_ascii c - 48)) t' end.

(** trace.py:173-184 [_unmangle_placeholder]; names have no line breaks and digits are ASCII *)
Definition unmangle (name : string) (positional : list string) : string :=
  match between "l_kw_" name with
  | Some k => k
  | None =>
      match between "l_a_" name with
      | Some d => if all_digits d then match nth_error positional (int_of 0 d) with
                                        | Some p => p
                                        | None => ("arg_" ++ decimal (int_of 0 d))%string
                                        end
                  else name
      | None => name
      end
  end.

(** ** Which module is called *)

(** a parameter of [forward]: may it be given by position, has it a default *)
Record parameter := mkParam { p_positional : bool; p_default : bool }.
(** trace.py:219-257 [_can_call_original]; [None] if there is no signature *)
Definition can_call_original (sig : option (list parameter)) (m : fmod) (n : fxnode) : bool :=
  match sig with
  | None => false
  | Some ps =>
      if length (x_args n) + length (x_kwargs n) <? length (filter (fun p => p_positional p && negb (p_default p)) ps) then false
      else match find is_output (m_fx m) with
           | Some o => match x_args o with
                       | ATuple _ l :: _ | AList l :: _ => negb (1 <? length l)
                       | _ => true
                       end
           | None => true
           end
  end.

(** ** Building *)

(** The original module: [get_submodule], which raises [AttributeError]; whether an attribute path exists
    (276-283); and the signatures of its modules.  Targets and constants as the numbers graphs have for them; the
    functions that are skipped (383-387). *)
Record origin := mkOrigin {
  o_submodule : string -> option nat;
  o_has : string -> bool;
  o_signature : nat -> option (list parameter);
  o_target : target -> nat;
  o_const : farg -> nat;
  o_const_attr : nat -> string -> nat;
  o_skipped : nat -> bool }.

(** 263-279: the graph under construction and the map from fx nodes to references.  New ids ([uuid4]) are numbers
    not used before. *)
Record builder := mkB { b_graph : graph; b_env : list (nat * ref); b_next : nat }.

Section Build.
  Variable o : origin.

  (** 276-277 [_absolute_path] *)
  Definition absolute (prefix t : string) : string := if String.eqb prefix "" then t else (prefix ++ "." ++ t)%string.

  (** [self._graph.add_node(name, target, args, kwargs, op=op)] *)
  Definition new_node (b : builder) (name : string) (t : target) (args : list ref) (kwargs : list (string * ref)) (op : op) : result (builder * ref) :=
    let? g := add_node (b_graph b) (mkNode (b_next b) name (o_target o t) args op kwargs None None) in
    Ok (mkB g (b_env b) (S (b_next b)), RNode (b_next b) name).
  Definition record_ref (b : builder) (n : nat) (r : ref) : builder := mkB (b_graph b) ((n, r) :: b_env b) (b_next b).

  (** the elements of a container, from the left; [name i] is the name for the i-th *)
  Section Elements.
    Variable conv : builder -> farg -> string -> result (builder * ref).
    Fixpoint convert_elements (b : builder) (l : list farg) (name : nat -> string) (i : nat) : result (builder * list ref) :=
      match l with
      | [] => Ok (b, [])
      | x :: l' => let? (b, r) := conv b x (name i) in
                   let? (b, rs) := convert_elements b l' name (S i) in Ok (b, r :: rs)
      end.
    Fixpoint convert_items (b : builder) (l : list (string * farg)) (name : string) : result (builder * list (string * ref)) :=
      match l with
      | [] => Ok (b, [])
      | (k, x) :: l' => let? (b, r) := conv b x (name ++ "_" ++ k)%string in
                        let? (b, rs) := convert_items b l' name in Ok (b, (k, r) :: rs)
      end.
  End Elements.
  Definition indexed (name : string) (i : nat) : string := (name ++ "_" ++ decimal i)%string.

  (** 293-328 [_convert_arg]; the last case there cannot be reached *)
  Fixpoint convert_arg (b : builder) (x : farg) (name : string) {struct x} : result (builder * ref) :=
    match x with
    | ANode n => match aget Nat.eqb n (b_env b) with Some r => Ok (b, r) | None => Err KeyError end
    | _ =>
        if negb (contains_node x) then Ok (b, RConst (o_const o x))
        else match x with
             | ATuple _ l => let? (b, rs) := convert_elements convert_arg b l (indexed name) 0 in
                             new_node b (name ++ "__make_tuple") TTuple rs [] CallFunction
             | AList l => let? (b, rs) := convert_elements convert_arg b l (indexed name) 0 in
                          new_node b (name ++ "__make_list") TList rs [] CallFunction
             | ASlice s t p =>
                 let? (b, rs) := convert_arg b s (name ++ "_start") in
                 let? (b, rt) := convert_arg b t (name ++ "_stop") in
                 let? (b, rp) := convert_arg b p (name ++ "_step") in
                 new_node b (name ++ "_make_slice") TSlice [] [("start"%string, rs); ("stop"%string, rt); ("step"%string, rp)] CallFunction
             | ADict l => let? (b, rs) := convert_items convert_arg b l name in
                          new_node b (name ++ "_make_dict") TDict [] rs CallFunction
             | _ => Err TypeError
             end
    end.

  (** 330-336 [_convert_args] *)
  Definition convert_args (b : builder) (n : fxnode) : result (builder * (list ref * list (string * ref))) :=
    let? (b, args) := convert_elements convert_arg b (x_args n) (fun i => x_name n ++ "_arg" ++ decimal i)%string 0 in
    let? (b, kwargs) := convert_items convert_arg b (x_kwargs n) (x_name n) in
    Ok (b, (args, kwargs)).

  (** 338-347 [_add_op_node], recorded for the fx node *)
  Definition op_node (b : builder) (n : fxnode) (name : string) (t : target) (op : op) : result builder :=
    let? (b, (args, kwargs)) := convert_args b n in
    let? (b, r) := new_node b name t args kwargs op in
    Ok (record_ref b (x_id n) r).

  Definition is_node_ref (r : ref) : bool := match r with RNode _ _ => true | _ => false end.
  (** [tuple(self._fx_to_ff[a] for a in raw if isinstance(a, fx.Node))] *)
  Fixpoint output_refs (env : list (nat * ref)) (l : list farg) : result (list ref) :=
    match l with
    | [] => Ok []
    | ANode n :: l' => match aget Nat.eqb n env with
                       | Some r => let? rs := output_refs env l' in Ok (r :: rs)
                       | None => Err KeyError
                       end
    | _ :: l' => output_refs env l'
    end.
  (** 378-381 *)
  Definition raw_outputs (args : list farg) : list farg :=
    match args with
    | [ATuple _ l] | [AList l] => l
    | _ => args
    end.
  (** 377-399 [_handle_output] *)
  Definition handle_output (is_root : bool) (b : builder) (n : fxnode) : result builder :=
    let? refs := output_refs (b_env b) (raw_outputs (x_args n)) in
    if negb (forallb is_node_ref refs) then Err AssertionError
    else if is_root then
      let? (b, r) := new_node b "_prepare_output" TOutput refs [] CallFunction in
      let '(g, e) := add_output (b_graph b) [r] in
      let? _ := e in Ok (mkB g (b_env b) (b_next b))
    else
      let '(g, e) := add_output (b_graph b) refs in
      let? _ := e in Ok (mkB g (b_env b) (b_next b)).

  (** 349-375 [_handle_call_module]; a submodule comes with what builds its graph from its path and the next id.  The
      submodule called "" would be the module itself, which is then built without end. *)
  Definition handle_call_module (prefix : string) (subs : list (string * (fmod * (string -> nat -> result (graph * nat))))) (b : builder) (n : fxnode) (t : string) : result builder :=
    if String.eqb t "" then Err RecursionError else
    match aget String.eqb t subs with
    | None => Err AttributeError
    | Some (m, sub) =>
        let path := absolute prefix t in
        if non_leaf m then
          let? (g', next) := sub path (b_next b) in
          let? (b, (args, kwargs)) := convert_args (mkB (b_graph b) (b_env b) next) n in
          match o_submodule o path with
          | None => Err AttributeError
          | Some original =>
              let '(g, r) := add_subgraph (b_graph b) (b_next b) t g' args kwargs (Some (o_target o (TOriginal original))) in
              let? outs := r in
              let b := mkB g (b_env b) (S (b_next b)) in
              match outs with
              | [r] => Ok (record_ref b (x_id n) r)
              | _ => let? (b, r) := new_node b (t ++ "_pack_outputs") TTuple outs [] CallFunction in
                     Ok (record_ref b (x_id n) r)
              end
          end
        else
          match o_submodule o path with
          | None => Err AttributeError
          | Some original =>
              op_node b n t (if can_call_original (o_signature o original) m n then TOriginal original else TCaptured (m_self m)) TorchModule
          end
    end.

  (** 401-459 [build]: one node.  [is_root] with the positional names of the module, or [None] for a submodule. *)
  Definition build_node (root : option (list string)) (prefix : string) (self : nat) (attrs : list string)
      (subs : list (string * (fmod * (string -> nat -> result (graph * nat))))) (b : builder) (n : fxnode) : result builder :=
    match x_op n with
    | Placeholder =>
        let name := match root with Some positional => unmangle (x_name n) positional | None => x_name n end in
        let? g := add_input (b_graph b) name (b_next b) in
        Ok (record_ref (mkB g (b_env b) (S (b_next b))) (x_id n) (RInput (b_next b) name))
    | FGetAttr t =>
        let path := absolute prefix t in
        if smem t attrs && negb (o_has o path) then Ok (record_ref b (x_id n) (RConst (o_const_attr o self t)))
        else let? (b, r) := new_node b (x_name n ++ "_get_attr") (TAttr path) [] [] GetAttr in
             Ok (record_ref b (x_id n) r)
    | FCallModule t => handle_call_module prefix subs b n t
    | FCallFunction fn => if o_skipped o fn then Ok b else op_node b n (x_name n ++ "_call_function") (TFn fn) CallFunction
    | FCallMethod m => op_node b n (x_name n ++ "_call_method") (TMethod m) CallMethod
    | FOutput => handle_output match root with Some _ => true | None => false end b n
    | FOther => Err ValueError
    end.
  Fixpoint build_nodes (step : builder -> fxnode -> result builder) (b : builder) (l : list fxnode) : result builder :=
    match l with
    | [] => Ok b
    | n :: l' => let? b := step b n in build_nodes step b l'
    end.
  Definition empty_graph : graph := mkGraph [] [] [] [].
  (** a submodule, from its path and the next id *)
  Fixpoint build_sub (m : fmod) (prefix : string) (next : nat) {struct m} : result (graph * nat) :=
    match m with
    | FMod self attrs g ch =>
        let subs := map (fun e => (fst e, (snd e, build_sub (snd e)))) ch in
        let? b := build_nodes (build_node None prefix self attrs subs) (mkB empty_graph [] next) match g with Some l => l | None => [] end in
        Ok (b_graph b, b_next b)
    end.
  (** 534-542: the root *)
  Definition build_root (m : fmod) (positional : list string) (next : nat) : result (graph * nat) :=
    match m with
    | FMod self attrs g ch =>
        let subs := map (fun e => (fst e, (snd e, build_sub (snd e)))) ch in
        let? b := build_nodes (build_node (Some positional) "" self attrs subs) (mkB empty_graph [] next) match g with Some l => l | None => [] end in
        Ok (b_graph b, b_next b)
    end.
End Build.
