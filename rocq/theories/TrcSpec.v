(** Specification vocabulary for tracing. *)
From Coq Require Import String Ascii Relations.
From Verif Require Import Prelude GraphModel GraphSpec EngineModel EngineSpec CoarseModel CoarseSpec BuildModel BuildSpec NamModel TrcModel.
Local Open Scope nat_scope.
Local Open Scope list_scope.

(** ** What an exported program computes *)
Section Run.
  Context {X : Type} (h : host X).
  Notation V := (val X).
  (** The values of objects in arguments, and of the attributes of captured modules. *)
  Variable atom : nat -> V.
  Variable attribute : nat -> string -> result V.

  Definition known {A} (o : option A) : result A := match o with Some v => Ok v | None => Err KeyError end.
  Section Elements.
    Context {A B : Type} (ev : A -> result B).
    Fixpoint each (l : list A) : result (list B) :=
      match l with [] => Ok [] | x :: l' => let? v := ev x in let? vs := each l' in Ok (v :: vs) end.
    Fixpoint each_item (l : list (string * A)) : result (list (string * B)) :=
      match l with [] => Ok [] | (k, x) :: l' => let? v := ev x in let? vs := each_item l' in Ok ((k, v) :: vs) end.
  End Elements.
  (** The value of an argument, given the results of the nodes before. *)
  Fixpoint arg_value (env : list (nat * V)) (x : farg) : result V :=
    match x with
    | ANode n => known (aget Nat.eqb n env)
    | AAtom c => Ok (atom c)
    | ATuple names l => let? vs := each (arg_value env) l in Ok (Tup names vs)
    | AList l => let? vs := each (arg_value env) l in Ok (Lst vs)
    | ASlice a b c => let? va := arg_value env a in let? vb := arg_value env b in let? vc := arg_value env c in Ok (h_slice h va vb vc)
    | ADict l => let? vs := each_item (arg_value env) l in Ok (Dic vs)
    end.

  (** The names of the placeholders of a module; calling it binds arguments to them. *)
  Definition is_placeholder (n : fxnode) : bool := match x_op n with Placeholder => true | _ => false end.
  Definition input_names (m : fmod) : list string := map x_name (filter is_placeholder (m_fx m)).
  Definition call_named (names : list string) (run : list V -> result V) (args : list V) (kwargs : list (string * V)) : result V :=
    if length args + length kwargs =? length names then
      let? rest := each (fun n => known (aget String.eqb n kwargs)) (skipn (length args) names) in run (args ++ rest)
    else Err TypeError.

  (** Nodes are run in order, placeholders take the inputs, the output is returned. *)
  Definition run_node (self : nat) (subs : list (string * (fmod * (list V -> result V)))) (env : list (nat * V)) (n : fxnode) : result V :=
    let? args := each (arg_value env) (x_args n) in
    let? kwargs := each_item (arg_value env) (x_kwargs n) in
    match x_op n with
    | FGetAttr t => attribute self t
    | FCallFunction fn => h_fn h fn args kwargs
    | FCallMethod m => match args with o :: a => h_method h m o a kwargs | [] => Err TypeError end
    | FCallModule t => match aget String.eqb t subs with Some (m, run) => call_named (input_names m) run args kwargs | None => Err AttributeError end
    | _ => Err ValueError
    end.
  Fixpoint run_nodes (self : nat) (subs : list (string * (fmod * (list V -> result V)))) (env : list (nat * V)) (inputs : list V) (l : list fxnode) : result V :=
    match l with
    | [] => Err ValueError
    | n :: l' =>
        match x_op n with
        | FOutput => match x_args n with x :: _ => arg_value env x | [] => Err IndexError end
        | Placeholder => match inputs with v :: vs => run_nodes self subs ((x_id n, v) :: env) vs l' | [] => Err TypeError end
        | _ => let? v := run_node self subs env n in run_nodes self subs ((x_id n, v) :: env) inputs l'
        end
    end.
  Fixpoint run (m : fmod) (vs : list V) {struct m} : result V :=
    match m with
    | FMod self _ g ch => run_nodes self (map (fun e => (fst e, (snd e, run (snd e)))) ch) [] vs match g with Some l => l | None => [] end
    end.
  Definition run_call (m : fmod) (args : list V) (kwargs : list (string * V)) : result V := call_named (input_names m) (run m) args kwargs.
  (** The program returns the leaves of the result, which are put together. *)
  Definition run_program (m : fmod) (vs : list V) : result V :=
    let? v := run m vs in h_unflatten h match v with Tup _ l | Lst l => l | _ => [v] end.
End Run.

(** ** Programs *)

(** The module found at a path. *)
Definition join (p t : string) : string := match p with EmptyString => t | _ => (p ++ "." ++ t)%string end.
Inductive at_path (root : fmod) : string -> fmod -> Prop :=
| at_root : at_path root "" root
| at_child p m t c : at_path root p m -> t <> ""%string -> In (t, c) (m_children m) -> at_path root (join p t) c.

(** A node occurs in an argument. *)
Inductive occurs : nat -> farg -> Prop :=
| occ_node n : occurs n (ANode n)
| occ_tuple n names l x : In x l -> occurs n x -> occurs n (ATuple names l)
| occ_list n l x : In x l -> occurs n x -> occurs n (AList l)
| occ_slice n a b c x : In x [a; b; c] -> occurs n x -> occurs n (ASlice a b c)
| occ_dict n l k x : In (k, x) l -> occurs n x -> occurs n (ADict l).
(** [y] is part of [x]. *)
Inductive part (y : farg) : farg -> Prop :=
| part_here : part y y
| part_tuple names l x : In x l -> part y x -> part y (ATuple names l)
| part_list l x : In x l -> part y x -> part y (AList l)
| part_slice a b c x : In x [a; b; c] -> part y x -> part y (ASlice a b c)
| part_dict l k x : In (k, x) l -> part y x -> part y (ADict l).
(** Named tuples hold no results of nodes. *)
Definition no_named (x : farg) : Prop := forall n names l, part (ATuple names l) x -> occurs n (ATuple names l) -> names = [].
(** [x] is part of an argument of a node of the program. *)
Definition argument_of (root : fmod) (x : farg) : Prop :=
  exists p m n y, at_path root p m /\ In n (m_fx m) /\ In y (x_args n ++ map snd (x_kwargs n)) /\ part x y.
Definition all_nodes (l : list farg) : Prop := forall x, In x l -> exists n, x = ANode n.

(** Programs as captured: nodes differ, the output is last, it returns results of nodes: the root a tuple or
    list of them, other modules one, or a tuple of several.  Named tuples hold no results, attributes are those of
    the original module or of the captured one, no method is given an argument named self. *)
Record regular (o : origin) (root : bool) (path : string) (m : fmod) : Prop := mkRegular {
  reg_ids : NoDup (map x_id (m_fx m));
  reg_output : exists body out, m_fx m = body ++ [out] /\ x_op out = FOutput /\ (forall n, In n body -> x_op n <> FOutput) /\
    if root then exists l, all_nodes l /\ ((exists names, x_args out = [ATuple names l]) \/ x_args out = [AList l])
    else (exists n, x_args out = [ANode n]) \/ exists l, all_nodes l /\ length l <> 1 /\ x_args out = [ATuple [] l];
  reg_tuples : forall n x, In n (m_fx m) -> x_op n <> FOutput -> In x (x_args n ++ map snd (x_kwargs n)) -> no_named x;
  reg_attrs : forall n t, In n (m_fx m) -> x_op n = FGetAttr t -> In t (m_attrs m) \/ o_has o (join path t) = true;
  reg_self : forall n t k x, In n (m_fx m) -> x_op n = FCallMethod t -> In (k, x) (x_kwargs n) -> k <> "self"%string }.
Definition regular_program (o : origin) (root : fmod) : Prop :=
  regular o true "" root /\ forall p m t c, at_path root p m -> t <> ""%string -> In (t, c) (m_children m) -> regular o false (join p t) c.

(** ** The environment *)
Definition required (ps : list parameter) : nat := length (filter (fun p => p_positional p && negb (p_default p)) ps).
(** The captured module does not return a tuple or list of several results. *)
Definition one_result (m : fmod) : Prop :=
  forall n, In n (m_fx m) -> x_op n = FOutput -> forall x l, In x (x_args n) -> (exists names, x = ATuple names l) \/ x = AList l -> length l <= 1.

Section Environment.
  Context {X U : Type} (h : host X) (s : semantics X U) (f : nat -> nat -> list (val X) -> list (string * val X) -> result (val X)).
  Variables (atom : nat -> val X) (attribute : nat -> string -> result (val X)) (o : origin) (root : fmod).
  (** The nodes of graphs call what they are made to call, constants are what they were made of. *)
  Definition targets_called : Prop := forall c t a k, f c (o_target o t) a k = call_target h t a k.
  Definition constants_held : Prop :=
    (forall x v, argument_of root x -> (forall n, ~ occurs n x) -> arg_value h atom [] x = Ok v -> constv s (o_const o x) = v) /\
    forall m t v, attribute m t = Ok v -> constv s (o_const_attr o m t) = v.
  (** What the captured program stores is what the original module stores; calling a captured module runs it;
      calling the original instead gives the same if it is given the arguments it needs and returns one result. *)
  Definition attributes_shared : Prop := forall p m t v, at_path root p m -> o_has o (join p t) = true -> attribute (m_self m) t = Ok v -> h_attr h (join p t) = Ok v.
  Definition captured_run : Prop := forall p m a k v, at_path root p m -> run_call h atom attribute m a k = Ok v -> h_captured h (m_self m) a k = Ok v.
  Definition originals_run : Prop := forall p m q a k v ps, at_path root p m -> o_submodule o p = Some q -> o_signature o q = Some ps ->
    required ps <= length a + length k -> one_result m -> run_call h atom attribute m a k = Ok v -> h_original h q a k = Ok v.
End Environment.
