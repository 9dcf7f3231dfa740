(** Specification vocabulary for the instruction engine. *)
From Coq Require Import String Ascii Permutation Relations.
From Verif Require Import Prelude GraphModel GraphSpec EngineModel.
Local Open Scope nat_scope.
Local Open Scope list_scope.

(** Two references are the same: names do not matter. *)
Inductive same_ref : ref -> ref -> Prop :=
| same_node i n n' : same_ref (RNode i n) (RNode i n')
| same_input i n n' : same_ref (RInput i n) (RInput i n')
| same_const i : same_ref (RConst i) (RConst i)
| same_attr r r' a : same_ref r r' -> same_ref (RAttr r a) (RAttr r' a).
(** The reference is mentioned (read, written or moved) by an instruction of the program. *)
Definition mentioned {X} (is : list (instr X)) (r : ref) : Prop :=
  exists i r', In i is /\ (In r' (uses i) \/ In r' (produces i)) /\ same_ref r r'.
(** The reference is an output of the program. *)
Definition returned {X} (is : list (instr X)) (r : ref) : Prop :=
  exists os r', In (ReturnOutputs os) is /\ In r' os /\ same_ref r r'.
Definition is_return {X} (i : instr X) : Prop := match i with ReturnOutputs _ => True | _ => False end.
(** Only the last instruction returns. *)
Definition returns_last {X} (is : list (instr X)) : Prop :=
  forall is1 i is2, is = is1 ++ i :: is2 -> is_return i -> is2 = [].

(** What a call observes: names bound to values as in a Python call. *)
Definition bound {A} (names : list string) (args : list A) (kwargs : list (string * A)) (n : string) (v : A) : Prop :=
  (exists i, nth_error names i = Some n /\ nth_error args i = Some v) \/ In (n, v) kwargs.
Definition call_ok {A} (names : list string) (args : list A) (kwargs : list (string * A)) : Prop :=
  length args <= length names /\
  (forall k v, In (k, v) kwargs -> exists i, nth_error names i = Some k /\ length args <= i) /\
  (forall i n, nth_error names i = Some n -> length args <= i -> exists v, In (n, v) kwargs).

(** Element [i] of a stream that may be a singleton standing for any number of batches. *)
Definition element {A} (d : list A) (i : nat) (a : A) : Prop := nth_error d i = Some a \/ d = [a].

(** User code observed from outside: every call of a module and every call of an optimizer is
    recorded with its arguments, in order. *)
Inductive event (X : Type) :=
| Called (c m : nat) (args : list (val X)) (kwargs : list (string * val X))
| Optimized (fn m : nat) (bundles : list (bundle (val X))).
Arguments Called {X} c m args kwargs. Arguments Optimized {X} fn m bundles.
Definition traced {X U} (calls : bool) (s : semantics X U) : semantics X (U * list (event X)) :=
  mkSem (constv s) (item s) (getattr s)
    (fun pl u c m a k => let '(r, u') := call s pl (fst u) c m a k in (r, (u', if calls then snd u ++ [Called c m a k] else snd u)))
    (fun pl u f m bs => let '(r, u') := optimize s pl (fst u) f m bs in (r, (u', snd u ++ [Optimized f m bs])))
    (is_module s) (weights s).
(** Calling modules has no side effect (what they return may depend on the state, which optimizers change). *)
Definition calls_pure {X U} (s : semantics X U) : Prop := forall pl u c m a k, snd (call s pl u c m a k) = u.

(** Programs as scheduled: values are stored only for constants, whose attributes are not taken; nothing is
    moved or deleted; the last instruction alone may return. *)
Definition plain_instr {X} (i : instr X) : Prop :=
  match i with
  | StoreValue (RConst _) _ _ => True
  | StoreValue _ _ _ => False
  | LoadAttribute (RConst _) _ _ | LoadAttribute _ (RConst _) _ => False
  | CallModule _ _ _ (RConst _) _ => False
  | DeleteRegisterEntries _ | MoveModule _ _ | MoveActivations _ _ => False
  | _ => True
  end.
Definition plain_program {X} (is : list (instr X)) : Prop := returns_last is /\ forall i, In i is -> plain_instr i.

(** Programs that may also delete: values are stored only for constants, results are not, every call and every
    optimizer has a context, and the result of a call is used before it is deleted. *)
Definition orderly_instr {X} (i : instr X) : Prop :=
  match i with
  | StoreValue t _ _ => exists c, t = RConst c
  | CallModule _ _ _ t cs => (forall c, t <> RConst c) /\ cs <> []
  | OptimizeModule _ _ _ d => d_contexts d <> []
  | MoveModule _ _ | MoveActivations _ _ => False
  | _ => True
  end.
Definition used_before_deleted {X} (is : list (instr X)) : Prop :=
  forall l1 m a k t cs l2 ts l3 t', is = l1 ++ CallModule m a k t cs :: l2 ++ DeleteRegisterEntries ts :: l3 -> In t' ts -> same_ref t t' ->
    exists i u, In i l2 /\ In u (uses i) /\ same_ref (unwrap u) (unwrap t).
Definition orderly_program {X} (is : list (instr X)) : Prop := (forall i, In i is -> orderly_instr i) /\ used_before_deleted is.

(** ** The meaning of a graph *)
(** The contexts a node must be evaluated in: outputs in the default context, what a node takes as
    input in the node's contexts, and what an optimized node takes as input in the contexts of its optimizer. *)
Inductive wanted (g : graph) : nat -> nat -> Prop :=
| want_output o x : In o (g_outputs g) -> about o x -> wanted g default_context x
| want_input c x y : is_leaf g y -> feeds g x y -> wanted g c y -> wanted g c x
| want_delegate c x n d : In n (g_nodes g) -> is_leaf g (n_id n) -> feeds g x (n_id n) -> n_delegate n = Some d -> In c (d_contexts d) -> wanted g c x.

Section Meaning.
  Context {X U : Type} (s : semantics X U).
  (** what calling a module or function in a context returns *)
  Variable f : nat -> nat -> list (val X) -> list (string * val X) -> result (val X).
  (** Taking an item of every element of a stream; attributes instead if that raises a [KeyError] or [TypeError]. *)
  Definition attr_stream (a : attr) (d d' : list (val X)) : Prop :=
    Forall2 (fun v v' => item s v a = Ok v') d d' \/
    exists k, a = AStr k /\ (exists v, In v d /\ (item s v a = Err KeyError \/ item s v a = Err TypeError)) /\
              Forall2 (fun v v' => getattr s v k = Ok v') d d'.
  (** Streams of length 1 or [N]. *)
  Definition common_length (ds : list (list (val X))) (N : nat) : Prop :=
    (forall d, In d ds -> length d = 1 \/ length d = N) /\ exists d, In d ds /\ length d = N.
  (** A node applied to streams of arguments and keyword arguments, batch by batch. *)
  Inductive applied (c : nat) (n : gnode) : list (list (val X)) -> list (list (val X)) -> list (val X) -> Prop :=
  | applied_once v : f c (n_target n) [] [] = Ok v -> applied c n [] [] [v]
  | applied_batches a k N outs : common_length (a ++ k) N -> length outs = N ->
      (forall i v, nth_error outs i = Some v -> exists xs ys,
         Forall2 (fun d x => element d i x) a xs /\ Forall2 (fun d y => element d i y) k ys /\
         f c (n_target n) xs (combine (map fst (n_kwargs n)) ys) = Ok v) ->
      applied c n a k outs.
  (** The stream a reference stands for in a context, given the streams of the inputs. *)
  Inductive means (g : graph) (inp : nat -> list (val X) -> Prop) (c : nat) : ref -> list (val X) -> Prop :=
  | means_input i n d : inp i d -> means g inp c (RInput i n) d
  | means_const i : means g inp c (RConst i) [constv s i]
  | means_attr r a d d' : means g inp c r d -> attr_stream a d d' -> means g inp c (RAttr r a) d'
  | means_node x nm a k outs : In x (g_nodes g) ->
      Forall2 (means g inp c) (n_args x) a -> Forall2 (means g inp c) (map snd (n_kwargs x)) k -> applied c x a k outs ->
      means g inp c (RNode (n_id x) nm) outs.
  (** The bundle of a node's inputs in a context: streams of a common length, shorter ones repeated. *)
  Definition stretched (N : nat) (d d' : list (val X)) : Prop := length d' = N /\ forall i v, nth_error d' i = Some v -> element d i v.
  Definition bundle_means (g : graph) (inp : nat -> list (val X) -> Prop) (n : gnode) (c : nat) (b : bundle (val X)) : Prop :=
    exists N a k, Forall2 (means g inp c) (n_args n) a /\ Forall2 (means g inp c) (map snd (n_kwargs n)) k /\
      (call_refs n <> [] -> common_length (a ++ k) N) /\ Forall2 (stretched N) a (b_args b) /\
      map fst (b_kwargs b) = map fst (n_kwargs n) /\ Forall2 (stretched N) k (map snd (b_kwargs b)).
  (** What the optimizer of a node is called with: a bundle for each of its contexts. *)
  Definition optimized_with (g : graph) (inp : nat -> list (val X) -> Prop) (n : gnode) (e : event X) : Prop :=
    exists d bs, n_delegate n = Some d /\ e = Optimized (d_fn d) (n_target n) bs /\ Forall2 (bundle_means g inp n) (d_contexts d) bs.
  (** The streams do not fit: a node takes streams of two different lengths other than 1, or two outputs have different lengths. *)
  Definition misfit (g : graph) (inp : nat -> list (val X) -> Prop) : Prop :=
    (exists c n a k, In n (g_nodes g) /\ Forall2 (means g inp c) (n_args n) a /\ Forall2 (means g inp c) (map snd (n_kwargs n)) k /\
       call_refs n <> [] /\ forall N, ~ common_length (a ++ k) N) \/
    (exists c o o' d d', In o (g_outputs g) /\ In o' (g_outputs g) /\ means g inp c o d /\ means g inp c o' d' /\ length d <> length d').
  (** The errors user code raises: calls, optimizers, items and attributes. Errors of items that lead to trying
      attributes do not count. *)
  Definition user_error (e : exn) : Prop :=
    (exists c m a k, f c m a k = Err e) \/ (exists pl u fn m bs, fst (optimize s pl u fn m bs) = Err e) \/
    (exists v i, item s v (AInt i) = Err e) \/ (exists v k, item s v (AStr k) = Err e /\ e <> KeyError /\ e <> TypeError) \/
    (exists v k, getattr s v k = Err e).
End Meaning.

(** The streams given to the inputs of a graph. *)
Definition given_inputs {X} (g : graph) (args : list (given (X:=X))) (kwargs : list (string * given)) (id : nat) (d : list (val X)) : Prop :=
  exists n v, In (n, id) (g_inputs g) /\ bound (map fst (g_inputs g)) args kwargs n v /\ d = from_value v.
(** The reference is about an input or a node. *)
Definition available (g : graph) (r : ref) : Prop :=
  match unwrap r with RInput id _ => In id (map snd (g_inputs g)) | RNode x _ => is_leaf g x | _ => False end.
(** An item of an item. *)
Definition nested (r : ref) : Prop := match r with RAttr (RAttr _ _) _ => True | _ => False end.
(** Constants, and references to inputs and nodes; items of items only of nodes that are evaluated at all. *)
Definition usable (g : graph) (r : ref) : Prop :=
  (exists i, r = RConst i) \/ (available g r /\ (nested r -> forall x, about r x -> exists c, wanted g c x)).
Definition refs_usable (g : graph) : Prop :=
  (forall n r, In n (g_nodes g) -> is_leaf g (n_id n) -> In r (call_refs n) -> usable g r) /\
  (forall o, In o (g_outputs g) -> exists x, about o x /\ is_leaf g x).
(** What a program returns for streams of outputs: a single one, or tuples. *)
Definition returned_for {X} (ds : list (list (val X))) (o : outs X) : Prop :=
  match ds with
  | [] => False
  | [d] => o = Single d
  | _ => exists rows, o = Multi rows /\ (forall d, In d ds -> length d = length rows) /\
           forall i row, nth_error rows i = Some row -> Forall2 (fun d v => nth_error d i = Some v) ds row
  end.

(** ** Devices *)
(** What a value is apart from devices and the field names of tuples. *)
Fixpoint content {X} (v : val X) : val X :=
  match v with
  | Tensor _ x => Tensor 0 x
  | Tup _ l => Tup [] (map content l)
  | Lst l => Lst (map content l)
  | Dic l => Dic (map (fun e => (fst e, content (snd e))) l)
  | Obj x f => Obj x f
  end.
Definition same_content {X} (v v' : val X) : Prop := content v = content v'.
Definition same_stream {X} : list (val X) -> list (val X) -> Prop := Forall2 same_content.
Definition same_named {X} (R : X -> X -> Prop) (k k' : list (string * X)) : Prop := Forall2 (fun e e' => fst e = fst e' /\ R (snd e) (snd e')) k k'.
Definition same_bundle {X} (b b' : bundle (val X)) : Prop := Forall2 same_stream (b_args b) (b_args b') /\ same_named same_stream (b_kwargs b) (b_kwargs b').
Definition same_result {A} (R : A -> A -> Prop) (r r' : result A) : Prop := match r, r' with Ok a, Ok a' => R a a' | Err e, Err e' => e = e' | _, _ => False end.
Definition same_outs {X} (o o' : outs X) : Prop :=
  match o, o' with Single l, Single l' => same_stream l l' | Multi l, Multi l' => Forall2 same_stream l l' | _, _ => False end.
Definition same_output {X} (o o' : option (list (nat * outs X))) : Prop :=
  match o, o' with Some l, Some l' => Forall2 (fun e e' => fst e = fst e' /\ same_outs (snd e) (snd e')) l l' | None, None => True | _, _ => False end.
(** User code that does not depend on devices or on the field names of tuples. *)
Record device_blind {X U} (s : semantics X U) : Prop := mkBlind {
  blind_item : forall v v' a, same_content v v' -> same_result same_content (item s v a) (item s v' a);
  blind_getattr : forall v v' k, same_content v v' -> same_result same_content (getattr s v k) (getattr s v' k);
  blind_call : forall pl pl' u c m a a' k k', Forall2 same_content a a' -> same_named same_content k k' ->
    same_result same_content (fst (call s pl u c m a k)) (fst (call s pl' u c m a' k')) /\ snd (call s pl u c m a k) = snd (call s pl' u c m a' k');
  blind_optimize : forall pl pl' u f m bs bs', Forall2 same_bundle bs bs' -> optimize s pl u f m bs = optimize s pl' u f m bs' }.
Definition no_moves {X} (is : list (instr X)) : Prop := forall i, In i is -> match i with MoveModule _ _ | MoveActivations _ _ => False | _ => True end.

(** Every tensor of the value is on the device. *)
Fixpoint on_device {X} (d : nat) (v : val X) : bool :=
  match v with
  | Tensor d' _ => d' =? d
  | Tup _ l | Lst l => forallb (on_device d) l
  | Dic l => forallb (fun e => on_device d (snd e)) l
  | Obj _ f => forallb (fun e => on_device d (snd e)) f
  end.
Fixpoint tensorless {X} (v : val X) : bool :=
  match v with
  | Tensor _ _ => false
  | Tup _ l | Lst l => forallb tensorless l
  | Dic l => forallb (fun e => tensorless (snd e)) l
  | Obj _ f => forallb (fun e => tensorless (snd e)) f
  end.
(** Tensors occur in tuples, lists and dictionaries only. *)
Fixpoint movable {X} (v : val X) : bool :=
  match v with
  | Tensor _ _ => true
  | Tup _ l | Lst l => forallb movable l
  | Dic l => forallb (fun e => movable (snd e)) l
  | Obj _ f => forallb (fun e => tensorless (snd e)) f
  end.
(** User code watched from outside: the flag stays up as long as every call of a module and every optimizer
    finds the weights of its module and all tensors it is given on the device. *)
Definition ready_at {X U} (s : semantics X U) (d : nat) (pl : nat -> nat) (m : nat) (vs : list (val X)) : bool :=
  forallb (on_device d) vs && forallb (fun e => pl (snd e) =? d) (weights s m).
Definition watched {X U} (d : nat) (s : semantics X U) : semantics X (U * bool) :=
  mkSem (constv s) (item s) (getattr s)
    (fun pl u c m a k => let '(r, u') := call s pl (fst u) c m a k in
       (r, (u', snd u && (negb (is_module s m) || ready_at s d pl m (a ++ map snd k)))))
    (fun pl u f m bs => let '(r, u') := optimize s pl (fst u) f m bs in
       (r, (u', snd u && ready_at s d pl m (flat_map (fun b => concat (b_args b ++ map snd (b_kwargs b))) bs))))
    (is_module s) (weights s).
(** No items or attributes of values are taken; values are stored only for constants; optimizers are given modules. *)
Definition item_free {X U} (s : semantics X U) (is : list (instr X)) : Prop :=
  forall i, In i is -> (forall r b a, In r (uses i) -> r <> RAttr b a) /\
    match i with
    | StoreValue t _ _ => exists c, t = RConst c
    | OptimizeModule m _ _ _ => is_module s m = true
    | LoadAttribute _ _ _ | MoveModule _ _ | MoveActivations _ _ => False
    | _ => True
    end.
(** Every call writes the result of another node. *)
Definition single_assignment {X} (is : list (instr X)) : Prop :=
  (forall m a k t cs, In (CallModule m a k t cs) is -> exists id n, t = RNode id n) /\
  (forall l1 m a k t cs l2 m' a' k' t' cs' l3, is = l1 ++ CallModule m a k t cs :: l2 ++ CallModule m' a' k' t' cs' :: l3 -> ~ same_ref t t').
Definition given_movable {X} (v : given (X:=X)) : Prop :=
  match v with GDataset l | GLoader l => forall x, In x l -> movable x = true | GValue x => movable x = true end.
(** Weights of a module are on a device. *)
Definition loaded_on {X U} (s : semantics X U) (d : nat) (pl : nat -> nat) (m : nat) : Prop := forall n x, In (n, x) (weights s m) -> pl x = d.
(** Modules and functions whose tensor arguments (and weights) are on a device return tensors on that device. *)
Definition stays_on {X U} (s : semantics X U) (d : nat) : Prop :=
  forall pl u c m a k v u', call s pl u c m a k = (Ok v, u') ->
    movable v = true /\
    ((a ++ map snd k <> [] \/ is_module s m = true) -> (forall x, In x (a ++ map snd k) -> on_device d x = true) ->
     (is_module s m = true -> loaded_on s d pl m) -> on_device d v = true).
Definition module_node {X U} (s : semantics X U) (n : gnode) : Prop := n_op n = TorchModule /\ is_module s (n_target n) = true.
(** The program begins by calling or optimizing the module. *)
Definition begins_with {X U} (s : semantics X U) (is : list (instr X)) (m : nat) : Prop :=
  is_module s m = true /\ exists i is', is = i :: is' /\ ((exists a k t cs, i = CallModule m a k t cs) \/ (exists a k d, i = OptimizeModule m a k d)).
(** Another module makes its first appearance among the nodes of the graph after this one. *)
Definition not_last {X U} (s : semantics X U) (g : graph) (m : nat) : Prop :=
  exists l1 n l2, g_nodes g = l1 ++ n :: l2 /\ module_node s n /\ n_target n <> m /\
    (forall n', In n' l1 -> module_node s n' -> n_target n' <> n_target n) /\
    (forall n', In n' l2 -> module_node s n' -> n_target n' = m -> exists n'', In n'' l1 /\ module_node s n'' /\ n_target n'' = m).
(** The module shares no weight with another module of the graph. *)
Definition untied {X U} (s : semantics X U) (g : graph) (m : nat) : Prop :=
  forall n x a b, In n (g_nodes g) -> module_node s n -> n_target n <> m -> In (a, x) (weights s (n_target n)) -> ~ In (b, x) (weights s m).
