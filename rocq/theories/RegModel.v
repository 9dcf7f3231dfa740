(** Models fastforward/_orchestration/registry.py, data_flow.py and the target resolution of
    [layerwise_optimize] (orchestration.py). *)
From Coq Require Import String.
From Verif Require Import Prelude.
Local Open Scope nat_scope.
Local Open Scope list_scope.

(** ** Algorithms, targets and selectors *)

(** A callable: a function, or a [functools.partial] with bound arguments. *)
Inductive alg := AFun (f : nat) | APartial (bound : nat) (a : alg).

(** registry.py:29-33 [_algorithm_key] *)
Fixpoint algorithm_key (a : alg) : nat := match a with AFun f => f | APartial _ a' => algorithm_key a' end.

(** Selectors: registry.py:63-108 and user subclasses of [Selector].  Types, modules and
    queries are numbers. *)
Inductive selector :=
| STypes (ts : list nat)              (* 63-70 *)
| SModules (ms : list nat)            (* 73-88; a frozenset *)
| SQuery (q : nat)                    (* 91-98 *)
| SComposite (l : list selector)      (* 101-115 *)
| SCustom (k : nat).                  (* 51-60 *)

(** What users give as a target. *)
Inductive target :=
| TSelector (s : selector)
| TType (t : nat) (is_module : bool)
| TQuery (q : nat)
| TModule (m : nat)
| TIter (l : list target)
| TString
| TOther.

(** A model: its modules in the order of [model.modules()] and [isinstance]; the results of
    queries and user selectors, which may give any regions. *)
Record model := mkModel {
  modules : list nat; isinst : nat -> nat -> bool;
  search : nat -> result (list nat); custom : nat -> result (list nat) }.

Fixpoint rseq {A} (l : list (result A)) : result (list A) :=
  match l with [] => Ok [] | r :: l' => let? a := r in let? bs := rseq l' in Ok (a :: bs) end.

Definition nin (x : nat) (l : list nat) : bool := existsb (Nat.eqb x) l.

Section Order.
  (** Iteration order of a frozenset of modules. *)
  Variable order : list nat -> list nat.

  (** registry.py:109-115: regions in order, each once *)
  Fixpoint unique (seen : list nat) (l : list nat) : list nat :=
    match l with
    | [] => []
    | x :: l' => if nin x seen then unique seen l' else x :: unique (x :: seen) l'
    end.

  (** registry.py:69-70, 82-88, 97-98, 107-115 [resolve] *)
  Fixpoint select (s : selector) (m : model) : result (list nat) :=
    match s with
    | STypes ts => Ok (filter (fun x => existsb (isinst m x) ts) (modules m))
    | SModules ms => if forallb (fun x => nin x (modules m)) ms then Ok (order ms) else Err ValueError
    | SQuery q => search m q
    | SComposite l => let? ls := rseq (map (fun s => select s m) l) in Ok (unique [] (concat ls))
    | SCustom k => custom m k
    end.

  (** registry.py:118-159 [normalize].  Classes that are themselves iterable are left out. *)
  Fixpoint normalize (t : target) : result selector :=
    match t with
    | TSelector s => Ok s
    | TType t true => Ok (STypes [t])
    | TQuery q => Ok (SQuery q)
    | TModule m => Ok (SModules [m])
    | TIter [] => Err TypeError
    | TIter l =>
        match rseq (map (fun t => match t with TType t true => Ok t | _ => Err TypeError end) l) with
        | Ok ts => Ok (STypes ts)
        | Err _ => let? ss := rseq (map normalize l) in Ok (SComposite ss)
        end
    | TType _ false | TString | TOther => Err TypeError
    end.

  (** ** Registry *)

  (** registry.py:166-178 [AlgorithmSpec]; flows are a number. *)
  Record spec := mkSpec { sp_fn : alg; sp_selector : selector; sp_flows : nat }.

  (** The dict [_specs]. *)
  Definition registry := list (nat * spec).

  Fixpoint lookup (r : registry) (k : nat) : option spec :=
    match r with [] => None | (k', s) :: r' => if k' =? k then Some s else lookup r' k end.
  Fixpoint assign (r : registry) (k : nat) (s : spec) : registry :=
    match r with
    | [] => [(k, s)]
    | (k', s') :: r' => if k' =? k then (k, s) :: r' else (k', s') :: assign r' k s
    end.

  (** registry.py:201-219 [register] *)
  Definition register (r : registry) (a : alg) (t : target) (flows : nat) : result registry :=
    let? s := normalize t in Ok (assign r (algorithm_key a) (mkSpec a s flows)).

  (** graph_module.py:1013-1036 [SubgraphSpec]: its delegate runs in the default context
      (None) unless contexts are given. *)
  Record subspec := mkSub { su_region : nat; su_fn : alg; su_flows : nat; su_contexts : list (option nat) }.

  (** registry.py:255-261 *)
  Definition resolve_specs (m : model) (l : list spec) : result (list subspec) :=
    let? ls := rseq (map (fun s => let? rs := select (sp_selector s) m in
                                   Ok (map (fun x => mkSub x (sp_fn s) (sp_flows s) [None]) rs)) l) in
    match concat ls with
    | [] => Err NoTargetsFound
    | subs => Ok subs
    end.

  (** registry.py:221-270 [resolve] *)
  Definition resolve (r : registry) (m : model) (algorithm : option alg) (specs : option (list spec)) : result (list subspec) :=
    match algorithm, specs with
    | Some _, Some _ => Err TypeError
    | None, None => Err TypeError
    | None, Some [] => Err ValueError
    | None, Some l => resolve_specs m l
    | Some a, None =>
        match lookup r (algorithm_key a) with
        | None => Err NoTargetsFound
        | Some s => resolve_specs m [s]
        end
    end.

  (** registry.py:325-337: entering and leaving [override] with targets.  Entering gives the
      key and the previous spec. *)
  Definition enter (r : registry) (a : alg) (t : target) : result (registry * (nat * spec)) :=
    let key := algorithm_key a in
    match lookup r key with
    | None => Err ValueError
    | Some previous => let? r' := register r a t (sp_flows previous) in Ok (r', (key, previous))
    end.
  Definition leave (r : registry) (saved : nat * spec) : registry := assign r (fst saved) (snd saved).

  (** Programs that use the registry. *)
  Inductive prog :=
  | PSkip
  | PSeq (p q : prog)
  | PRegister (a : alg) (t : target) (flows : nat)
  | POverride (a : alg) (t : option target) (body : prog)
  | PResolve (a : alg) (m : model)
  | PTry (body : prog)                 (* except Exception: pass *)
  | PRaise.

  (** State after, what the resolutions gave, and the exception if one is raised. *)
  Fixpoint exec (p : prog) (r : registry) : registry * list (result (list subspec)) * option exn :=
    match p with
    | PSkip => (r, [], None)
    | PSeq p q =>
        match exec p r with
        | (r1, o1, Some e) => (r1, o1, Some e)
        | (r1, o1, None) => let '(r2, o2, e) := exec q r1 in (r2, o1 ++ o2, e)
        end
    | PRegister a t f => match register r a t f with Ok r' => (r', [], None) | Err e => (r, [], Some e) end
    | POverride a None body => exec body r
    | POverride a (Some t) body =>
        match enter r a t with
        | Err e => (r, [], Some e)
        | Ok (r1, saved) => let '(r2, o, e) := exec body r1 in (leave r2 saved, o, e)
        end
    | PResolve a m =>
        match resolve r m (Some a) None with
        | Ok l => (r, [Ok l], None)
        | Err e => (r, [Err e], Some e)
        end
    | PTry body => let '(r', o, _) := exec body r in (r', o, None)
    | PRaise => (r, [], Some RuntimeError)
    end.

  (** ** layerwise_optimize *)

  (** The [algorithm] argument of [layerwise_optimize]. *)
  Inductive given := GAlg (a : alg) | GSpec (s : spec) | GList (l : list spec) | GOther.

  (** orchestration.py:119-133: the specs that are run, and the registry afterwards *)
  Definition optimization_specs (r : registry) (m : model) (g : given) (targets : option target)
      : registry * result (list subspec) :=
    match g, targets with
    | GSpec _, Some _ | GList _, Some _ => (r, Err TypeError)
    | GList l, None => (r, resolve r m None (Some l))
    | GSpec s, None => (r, resolve r m None (Some [s]))
    | GAlg a, None => (r, resolve r m (Some a) None)
    | GAlg a, Some t =>
        match enter r a t with
        | Err e => (r, Err e)
        | Ok (r1, saved) => (leave r1 saved, resolve r1 m (Some a) None)
        end
    | GOther, _ => (r, Err TypeError)
    end.
End Order.

(** ** Flow generators *)

(** data_flow.py:46-59 [FlowGenerator] and its context factory: [CNull] gives a null context,
    [CDisable] disables quantization, [CGiven cm] returns the context manager [cm],
    [CUser f] is a user's factory. *)
Inductive factory := CNull | CDisable | CGiven (cm : nat) | CUser (f : nat).
Record generator := mkGen { ge_key : string; ge_context : factory; ge_order : nat }.

(** The dict [_generators]. *)
Definition generators := list (string * generator).
Fixpoint find_gen (g : generators) (k : string) : option generator :=
  match g with [] => None | (k', x) :: g' => if String.eqb k' k then Some x else find_gen g' k end.
(** data_flow.py:65-78 [register_generator] *)
Fixpoint register_generator (g : generators) (x : generator) : generators :=
  match g with
  | [] => [(ge_key x, x)]
  | (k', y) :: g' => if String.eqb k' (ge_key x) then (k', x) :: g' else (k', y) :: register_generator g' x
  end.

(** data_flow.py:85-94 *)
Definition builtin : generators :=
  register_generator (register_generator (register_generator []
    (mkGen "original" CDisable 2)) (mkGen "quantized" CNull 5)) (mkGen "any" CNull 10).

(** What a flow is declared with: a generator, a key, or a context manager, which is an
    object with the qualified name of its class. *)
Inductive declared := DGen (g : generator) | DKey (k : string) | DManager (cm : nat) (qualname : string).

(** data_flow.py:97-119 [_to_generator] *)
Definition to_generator (g : generators) (d : declared) : result generator * generators :=
  match d with
  | DGen x => (Ok x, g)
  | DKey k => match find_gen g k with Some x => (Ok x, g) | None => (Err KeyError, g) end
  | DManager cm k =>
      match find_gen g k with
      | Some x => (Ok x, g)
      | None => let x := mkGen k (CGiven cm) 0 in (Ok x, register_generator g x)
      end
  end.

(** A history: declarations and registrations. *)
Inductive flow_op := Declare (d : declared) | RegisterGen (x : generator).

Fixpoint flow_run (ops : list flow_op) (g : generators) : list (result generator) * generators :=
  match ops with
  | [] => ([], g)
  | Declare d :: ops' => let '(x, g1) := to_generator g d in let '(xs, g2) := flow_run ops' g1 in (x :: xs, g2)
  | RegisterGen x :: ops' => let '(xs, g2) := flow_run ops' (register_generator g x) in (Ok x :: xs, g2)
  end.
