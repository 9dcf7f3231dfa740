(** Models the instruction engine: fastforward/_orchestration/instruction_engine.py: activation
    datasets and register, instructions, engine, scheduler, instruction passes. *)
From Coq Require Import String Ascii.
From Verif Require Import Prelude GraphModel.
Local Open Scope nat_scope.
Local Open Scope list_scope.

(** Devices, contexts, modules (or other callables) and delegate functions are numbers; so are the
    weights (parameters and buffers) of modules. [DEFAULT_CONTEXT] is context 0. *)
Definition default_context : nat := 0.

(** dictionaries with a given key comparison *)
Fixpoint aget {K A} (eqb : K -> K -> bool) (k : K) (l : list (K * A)) : option A :=
  match l with [] => None | (k', a) :: l' => if eqb k' k then Some a else aget eqb k l' end.
Fixpoint aset {K A} (eqb : K -> K -> bool) (k : K) (a : A) (l : list (K * A)) : list (K * A) :=
  match l with [] => [(k, a)] | (k', b) :: l' => if eqb k' k then (k', a) :: l' else (k', b) :: aset eqb k a l' end.
Definition adel {K A} (eqb : K -> K -> bool) (k : K) (l : list (K * A)) : list (K * A) :=
  filter (fun e => negb (eqb (fst e) k)) l.
Definition rmem (r : ref) (l : list ref) : bool := existsb (ref_eqb r) l.
Definition nmem (n : nat) (l : list nat) : bool := existsb (Nat.eqb n) l.
Fixpoint union (l s : list nat) : list nat :=   (* [s |= l] *)
  match l with [] => s | x :: l' => union l' (if nmem x s then s else s ++ [x]) end.

(** instruction_engine.py:534-561: the kinds of values told apart when moving between devices: [X] is the content of
    tensors and of other objects. [Tup] has field names if it is a named tuple. *)
Inductive val (X : Type) : Type :=
| Tensor (d : nat) (x : X)
| Tup (names : list string) (l : list (val X))
| Lst (l : list (val X))
| Dic (l : list (string * val X))
| Obj (x : X) (fields : list (string * val X)).
Arguments Tensor {X} d x. Arguments Tup {X} names l. Arguments Lst {X} l. Arguments Dic {X} l. Arguments Obj {X} x fields.

(** instruction_engine.py:534-561 [_move_to_device]. Subclasses of [dict] are rebuilt as the same
    class by their constructor: they are [Dic] here. *)
Fixpoint move {X} (d : nat) (v : val X) : val X :=
  match v with
  | Tensor _ x => Tensor d x
  | Tup _ l => Tup [] (map (move d) l)
  | Lst l => Lst (map (move d) l)
  | Dic l => Dic (map (fun e => (fst e, move d (snd e))) l)
  | Obj x f => Obj x f
  end.

Inductive device_spec := OneDevice (d : nat) | PerName (l : list (string * nat)).
(** outputs of one context: of a single output, or tuples of several *)
Inductive outs (X : Type) := Single (l : list (val X)) | Multi (l : list (list (val X))).
Arguments Single {X} l. Arguments Multi {X} l.
(** what the register holds: a dataset, or a [Const] reference stored by [StoreValue] *)
Inductive entry (X : Type) := Data (l : list (val X)) | AConst (id : nat).
Arguments Data {X} l. Arguments AConst {X} id.

(** instruction_engine.py:293-597 *)
Inductive instr (X : Type) : Type :=
| StoreValue (t : ref) (e : entry X) (cs : list nat)
| LoadAttribute (s t : ref) (a : attr)
| CallModule (m : nat) (args : list ref) (kwargs : list (string * ref)) (t : ref) (cs : list nat)
| OptimizeModule (m : nat) (args : list ref) (kwargs : list (string * ref)) (d : delegate)
| ReturnOutputs (outputs : list ref)
| DeleteRegisterEntries (ts : list ref)
| MoveModule (d : device_spec) (m : nat)
| MoveActivations (d : nat) (r : ref).
Arguments StoreValue {X} t e cs. Arguments LoadAttribute {X} s t a. Arguments CallModule {X} m args kwargs t cs.
Arguments OptimizeModule {X} m args kwargs d. Arguments ReturnOutputs {X} outputs. Arguments DeleteRegisterEntries {X} ts.
Arguments MoveModule {X} d m. Arguments MoveActivations {X} d r.

Definition uses {X} (i : instr X) : list ref :=
  match i with
  | StoreValue t _ _ => [t]                                       (* 342-343 *)
  | LoadAttribute s _ _ => [s]                                    (* 373-374 *)
  | CallModule _ a k _ _ | OptimizeModule _ a k _ => a ++ map snd k   (* 417-419, 457-459 *)
  | ReturnOutputs o => o                                          (* 487-488 *)
  | MoveActivations _ r => [r]                                    (* 596-597 *)
  | _ => []                                                       (* 315-317 *)
  end.
Definition produces {X} (i : instr X) : list ref :=
  match i with
  | LoadAttribute _ t _ => [t]                                    (* 376-377 *)
  | CallModule _ _ _ t _ => [t]                                   (* 421-422 *)
  | _ => []                                                       (* 319-321 *)
  end.

(** instruction_engine.py:167-210 [ActivationRegister]: ref -> context -> data *)
Definition register (X : Type) := list (ref * list (nat * entry X)).
Definition rget {X} (r : ref) (g : register X) : option (list (nat * entry X)) := aget ref_eqb r g.
Definition streams {X} (r : ref) (g : register X) : list (nat * entry X) := match rget r g with Some l => l | None => [] end.
(** 173-177 [store] *)
Definition store {X} (r : ref) (c : nat) (e : entry X) (g : register X) : register X :=
  aset ref_eqb r (aset Nat.eqb c e (streams r g)) g.
(** 179-181 [store_all] *)
Definition store_all {X} (r : ref) (m : list (nat * entry X)) (g : register X) : register X :=
  aset ref_eqb r (fold_left (fun l e => aset Nat.eqb (fst e) (snd e) l) m (streams r g)) g.
(** 183-185 [load] *)
Definition load {X} (r : ref) (c : nat) (g : register X) : result (entry X) :=
  match rget r g with
  | None => Err KeyError
  | Some l => match aget Nat.eqb c l with Some e => Ok e | None => Err KeyError end
  end.
(** 187-189 [items_for] *)
Definition items_for {X} (r : ref) (g : register X) : result (list (nat * entry X)) :=
  match rget r g with Some l => Ok l | None => Err KeyError end.
(** 195-207 [delete] without a context *)
Definition delete {X} (r : ref) (g : register X) : register X := adel ref_eqb r g.

(** instruction_engine.py:136-164 [ActivationDataset.broadcast]; datasets are lists of batches *)
Definition broadcast {A} (ds : list (list A)) : result (list (list A)) :=
  match ds with
  | [] => Ok []
  | _ =>
      let lengths := nodup Nat.eq_dec (map (@length A) ds) in
      if length lengths <=? 1 then Ok ds
      else match filter (fun n => negb (n =? 1)) lengths with
           | [target] => Ok (map (fun d => match d with [a] => repeat a target | _ => d end) ds)
           | _ => Err ValueError
           end
  end.

(** instruction_engine.py:213-293 [ActivationBundle] *)
Record bundle (A : Type) := mkBundle { b_args : list (list A); b_kwargs : list (string * list A) }.
Arguments mkBundle {A} b_args b_kwargs. Arguments b_args {A} b. Arguments b_kwargs {A} b.
(** 266-276 [__len__] *)
Definition bundle_len {A} (b : bundle A) : nat :=
  match b_args b with
  | d :: _ => length d
  | [] => match b_kwargs b with (_, d) :: _ => length d | [] => 0 end
  end.
(** 278-293 [__iter__]: batch [i]; an index past the end of a stream raises *)
Definition batch {A} (b : bundle A) (i : nat) : result (list A * list (string * A)) :=
  let at_i (d : list A) : result A := match nth_error d i with Some a => Ok a | None => Err IndexError end in
  let? a := rmapM at_i (b_args b) in
  let? k := rmapM (fun e => let? v := at_i (snd e) in Ok (fst e, v)) (b_kwargs b) in
  Ok (a, k).

Fixpoint rfold {A B} (f : B -> A -> result B) (l : list A) (b : B) : result B :=
  match l with [] => Ok b | a :: l' => let? b' := f b a in rfold f l' b' end.

(** the world outside the register: the device of each weight and the state of user code *)
Record world (U : Type) := mkWorld { w_place : nat -> nat; w_user : U }.
Arguments mkWorld {U} w_place w_user. Arguments w_place {U} w. Arguments w_user {U} w.

(** User code. [constv] is the value of a [Const]. [item] is [v[a]], [getattr] is [getattr(v, a)].
    [call] is calling a module or function in a context; it sees where weights are. [optimize] is
    calling a delegate's function. Both may change the user's state and raise. *)
Record semantics (X U : Type) := mkSem {
  constv : nat -> val X;
  item : val X -> attr -> result (val X);
  getattr : val X -> string -> result (val X);
  call : (nat -> nat) -> U -> nat -> nat -> list (val X) -> list (string * val X) -> result (val X) * U;
  optimize : (nat -> nat) -> U -> nat -> nat -> list (bundle (val X)) -> result unit * U;
  is_module : nat -> bool;                      (* isinstance(target, torch.nn.Module) *)
  weights : nat -> list (string * nat) }.       (* named_parameters(), then named_buffers() *)
Arguments mkSem {X U}. Arguments constv {X U}. Arguments item {X U}. Arguments getattr {X U}. Arguments call {X U}.
Arguments optimize {X U}. Arguments is_module {X U}. Arguments weights {X U}.

Section Engine.
  Context {X U : Type} (s : semantics X U).
  Notation V := (val X).

  (** 251-254 [get_dataset] *)
  Definition dataset_of (g : register X) (c : nat) (r : ref) : result (list V) :=
    match r with
    | RConst i => Ok [constv s i]
    | _ => let? e := load r c g in
           match e with Data l => Ok l | AConst _ => Err TypeError (* len(Const) *) end
    end.
  (** 230-264 [gather] *)
  Definition gather (g : register X) (c : nat) (args : list ref) (kwargs : list (string * ref)) : result (bundle V) :=
    let? a := rmapM (dataset_of g c) args in
    let? k := rmapM (fun e => dataset_of g c (snd e)) kwargs in
    let? b := broadcast (a ++ k) in
    Ok (mkBundle (firstn (length a) b) (combine (map fst kwargs) (skipn (length a) b))).

  (** the list comprehension of 412: batches from [i], [n] of them *)
  Fixpoint call_batches (pl : nat -> nat) (u : U) (c m : nat) (b : bundle V) (i n : nat) : result (list V) * U :=
    match n with
    | 0 => (Ok [], u)
    | S n' =>
        match batch b i with
        | Err e => (Err e, u)
        | Ok (a, k) =>
            match call s pl u c m a k with
            | (Err e, u') => (Err e, u')
            | (Ok v, u') =>
                let '(r, u'') := call_batches pl u' c m b (S i) n' in (rmap (cons v) r, u'')
            end
        end
    end.
  (** 404-413: one context *)
  Definition call_context (pl : nat -> nat) (u : U) (c m : nat) (args : list ref) (kwargs : list (string * ref)) (g : register X)
    : result (list V) * U :=
    match gather g c args kwargs with
    | Err e => (Err e, u)
    | Ok b =>
        match args, kwargs with
        | [], [] => let '(r, u') := call s pl u c m [] [] in (rmap (fun v => [v]) r, u')
        | _, _ => call_batches pl u c m b 0 (bundle_len b)
        end
    end.
  Fixpoint call_contexts (pl : nat -> nat) (u : U) (cs : list nat) (m : nat) (args : list ref) (kwargs : list (string * ref)) (g : register X)
    : result (list (nat * entry X)) * U :=
    match cs with
    | [] => (Ok [], u)
    | c :: cs' =>
        match call_context pl u c m args kwargs g with
        | (Err e, u') => (Err e, u')
        | (Ok l, u') => let '(r, u'') := call_contexts pl u' cs' m args kwargs g in (rmap (cons (c, Data l)) r, u'')
        end
    end.

  (** 358-371 [_extract_attribute]. A [Const] is iterated with its [__getitem__], which never ends:
      the list under construction fills the memory. *)
  Definition extract (a : attr) (e : entry X) : result (entry X) :=
    match e with
    | AConst _ => Err OutOfMemory
    | Data l =>
        let items := rmapM (fun v => item s v a) l in
        match a with
        | AInt _ => rmap Data items
        | AStr k =>
            match items with
            | Err KeyError | Err TypeError => rmap Data (rmapM (fun v => getattr s v k) l)
            | r => rmap Data r
            end
        end
    end.

  (** 102-134 [merge] and 480-483 *)
  Definition merge (es : list (entry X)) : result (outs X) :=
    match es with
    | [] => Err ValueError
    | [Data l] => Ok (Single l)
    | [AConst _] => Err OutOfMemory
    | _ =>
        let? ds := rmapM (fun e => match e with Data l => Ok l | AConst _ => Err TypeError end) es in
        match ds with
        | [] => Err ValueError
        | d :: _ =>
            if forallb (fun d' => length d' =? length d) ds
            then Ok (Multi (map (fun i => flat_map (fun d' => match nth_error d' i with Some v => [v] | None => [] end) ds) (seq 0 (length d))))
            else Err ValueError
        end
    end.
  (** 473-478: invert to one list of datasets per context, in the order contexts are met *)
  Fixpoint by_context (l : list (nat * entry X)) (acc : list (nat * list (entry X))) : list (nat * list (entry X)) :=
    match l with
    | [] => acc
    | (c, e) :: l' => by_context l' (aset Nat.eqb c (match aget Nat.eqb c acc with Some es => es | None => [] end ++ [e]) acc)
    end.
  Definition output := list (nat * outs X).

  (** 564-578 [_move_register_entries_to_device]; a [Const] has no [batches] to replace *)
  Definition move_entry (d : nat) (e : entry X) : result (entry X) :=
    match e with Data l => Ok (Data (map (move d) l)) | AConst _ => Err TypeError end.
  (** 519-531 [MoveModule.execute] *)
  Definition move_weights (sp : device_spec) (m : nat) (pl : nat -> nat) : nat -> nat :=
    fold_left (fun pl e => match (match sp with OneDevice d => Some d | PerName l => aget String.eqb (fst e) l end) with
                           | Some d => fun w => if w =? snd e then d else pl w
                           | None => pl
                           end) (weights s m) pl.

  Definition state := (world U * register X)%type.
  (** [execute]: the new world, and the new register and result unless it raises *)
  Definition exec (i : instr X) (w : world U) (g : register X) : world U * result (register X * option output) :=
    let pl := w_place w in
    let u := w_user w in
    let done (r : result (register X)) := (w, rmap (fun g => (g, None)) r) in
    match i with
    | StoreValue t e cs => done (Ok (fold_left (fun g c => store t c e g) cs g))                          (* 338-340 *)
    | LoadAttribute src t a =>                                                                            (* 354-357 *)
        done (let? l := items_for src g in
              let? l' := rmapM (fun e => let? x := extract a (snd e) in Ok (fst e, x)) l in
              Ok (fold_left (fun g e => store t (fst e) (snd e) g) l' g))
    | CallModule m args kwargs t cs =>                                                                    (* 401-415 *)
        let '(r, u') := call_contexts pl u cs m args kwargs g in
        (mkWorld pl u', rmap (fun l => (store_all t l g, None)) r)
    | OptimizeModule m args kwargs d =>                                                                   (* 450-455 *)
        match rmapM (fun c => gather g c args kwargs) (d_contexts d) with
        | Err e => (w, Err e)
        | Ok bs => let '(r, u') := optimize s pl u (d_fn d) m bs in (mkWorld pl u', rmap (fun _ => (g, None)) r)
        end
    | ReturnOutputs os =>                                                                                 (* 472-485 *)
        (w, let? ls := rmapM (fun r => items_for r g) os in
            let? o := rmapM (fun ce => let? v := merge (snd ce) in Ok (fst ce, v)) (by_context (concat ls) []) in
            Ok (g, Some o))
    | DeleteRegisterEntries ts => done (Ok (fold_left (fun g t => delete t g) ts g))                      (* 497-499 *)
    | MoveModule sp m => (mkWorld (move_weights sp m pl) u, Ok (g, None))                                 (* 519-531 *)
    | MoveActivations d r =>                                                                              (* 593-594 *)
        done (let? l := items_for r g in
              let? l' := rmapM (fun e => let? x := move_entry d (snd e) in Ok (fst e, x)) l in
              Ok (fold_left (fun g e => store r (fst e) (snd e) g) l' g))
    end.
  (** 729-741 [run_instructions]; the final register is visible to the caller *)
  Fixpoint run_instructions (is : list (instr X)) (w : world U) (g : register X) : world U * result (register X * option output) :=
    match is with
    | [] => (w, Ok (g, None))
    | i :: is' =>
        match exec i w g with
        | (w', Ok (g', None)) => run_instructions is' w' g'
        | r => r
        end
    end.

  (** 84-100 [ActivationDataset.from_value] *)
  Inductive given := GDataset (l : list V) | GLoader (l : list V) | GValue (v : V).
  Definition from_value (v : given) : list V :=
    match v with GDataset l | GLoader l => l | GValue (Lst l) => l | GValue v => [v] end.
  (** 698-717: the binding of names *)
  Fixpoint bind_keywords (names : list string) (kwargs : list (string * given)) (inputs : list (string * given)) : result (list (string * given)) :=
    match kwargs with
    | [] => Ok inputs
    | (k, v) :: kw =>
        if negb (existsb (String.eqb k) names) then Err TypeError
        else if existsb (fun e => String.eqb (fst e) k) inputs then Err TypeError
        else bind_keywords names kw (inputs ++ [(k, v)])
    end.
  Definition bind_inputs (names : list string) (args : list given) (kwargs : list (string * given)) : result (list (string * given)) :=
    if length names <? length args then Err TypeError
    else
      let? inputs := bind_keywords names kwargs (combine (firstn (length args) names) args) in
      if forallb (fun n => existsb (fun e => String.eqb (fst e) n) inputs) names then Ok inputs else Err TypeError.
  (** 678-726 [prepare_input_register] *)
  Definition prepare_input_register (input_refs : list (string * nat)) (args : list given) (kwargs : list (string * given)) (contexts : list nat)
    : result (register X) :=
    let? inputs := bind_inputs (map fst input_refs) args kwargs in
    rfold (fun g e => match aget String.eqb (fst e) input_refs with
                      | None => Err KeyError
                      | Some id => Ok (fold_left (fun g c => store (RInput id (fst e)) c (Data (from_value (snd e))) g) contexts g)
                      end) inputs [].

  (** 638-665 [InstructionProgram]; [order] is the order in which Python lists a set *)
  Record program := mkProgram { p_instrs : list (instr X); p_inputs : list (string * nat) }.
  Definition contexts_of (i : instr X) : list nat :=
    match i with
    | CallModule _ _ _ _ cs | StoreValue _ _ cs => cs
    | OptimizeModule _ _ _ d => d_contexts d
    | _ => []
    end.
  Definition program_contexts (order : list nat -> list nat) (p : program) : list nat :=
    order (union (flat_map contexts_of (p_instrs p)) []).
  (** 743-755 [run] *)
  Definition run (order : list nat -> list nat) (p : program) (args : list given) (kwargs : list (string * given)) (w : world U)
    : world U * result (register X * option output) :=
    match prepare_input_register (p_inputs p) args kwargs (program_contexts order p) with
    | Err e => (w, Err e)
    | Ok g => run_instructions (p_instrs p) w g
    end.

  (** 604-635 [_propagate_contexts]: contexts per node id *)
  Definition cx_of (cx : list (nat * list nat)) (x : nat) : list nat := match aget Nat.eqb x cx with Some l => l | None => [] end.
  Definition cx_add (x : nat) (l : list nat) (cx : list (nat * list nat)) : list (nat * list nat) :=
    aset Nat.eqb x (union l (cx_of cx x)) cx.
  Definition cx_node (n : gnode) (cx : list (nat * list nat)) : list (nat * list nat) :=
    fold_left (fun cx inp =>
      let cx := cx_add inp (cx_of cx (n_id n)) cx in
      match n_delegate n with Some d => cx_add inp (union (d_contexts d) []) cx | None => cx end) (inputs_of n) cx.
  Definition seed (g : graph) : list (nat * list nat) :=
    fold_left (fun cx o => match unwrap o with RNode i _ => cx_add i [default_context] cx | _ => cx end) (g_outputs g) [].
  Definition propagate_contexts (g : graph) (nodes : list gnode) : list (nat * list nat) :=
    fold_left (fun cx n => cx_node n cx) (rev nodes) (seed g).

  (** 1212-1240 [_schedule_ref_id]: the instructions; the reference itself is the slot *)
  Fixpoint schedule_ref (r : ref) : list (instr X) :=
    match r with
    | RNode _ _ | RInput _ _ => []
    | RConst i => [StoreValue r (AConst i) [default_context]]
    | RAttr b a => schedule_ref b ++ [LoadAttribute b r a]
    end.
  (** 1143-1186 [_schedule_node] *)
  Definition schedule_node (order : list nat -> list nat) (cx : list (nat * list nat)) (n : gnode) : list (instr X) :=
    flat_map schedule_ref (n_args n) ++ flat_map (fun e => schedule_ref (snd e)) (n_kwargs n) ++
    (match n_delegate n with
     | Some d => if is_module s (n_target n) then [OptimizeModule (n_target n) (n_args n) (n_kwargs n) d] else []
     | None => []
     end) ++
    [CallModule (n_target n) (n_args n) (n_kwargs n) (node_ref_of n) (order (cx_of cx (n_id n)))].
  (** 1122-1141 [_schedule], 1188-1210 [_schedule_return] *)
  Definition schedule_nodes (order : list nat -> list nat) (g : graph) (nodes : list gnode) : list (instr X) :=
    flat_map (schedule_node order (propagate_contexts g nodes)) nodes ++
    match g_outputs g with
    | [] => []
    | os => flat_map schedule_ref os ++ [ReturnOutputs os]
    end.
  (** 1103-1120 [schedule], with the default ordering strategy *)
  Definition schedule (order : list nat -> list nat) (g : graph) : result program :=
    let? ids := topological_sort g None in
    let? nodes := rmapM (fun i => match get_node g i with Some n => Ok n | None => Err KeyError end) ids in
    Ok (mkProgram (schedule_nodes order g nodes) (g_inputs g)).

  (** 784-821 [lifetime_management_pass] *)
  Definition mentions (i : instr X) : list ref := uses i ++ produces i.
  Definition keep_alive (is : list (instr X)) : list ref :=
    flat_map (fun i => match i with ReturnOutputs _ => uses i | _ => [] end) is.
  Definition note_use (idx : nat) (lu : list (ref * nat)) (r : ref) : list (ref * nat) :=
    match aget ref_eqb r lu with Some _ => lu | None => lu ++ [(r, idx)] end.
  (** the loop of 800-804: [is] reversed, the first one having index [n - 1] *)
  Fixpoint last_use_rev (is : list (instr X)) (n : nat) (lu : list (ref * nat)) : list (ref * nat) :=
    match is with
    | [] => lu
    | i :: is' => last_use_rev is' (pred n) (fold_left (note_use (pred n)) (mentions i) lu)
    end.
  Definition last_use (is : list (instr X)) : list (ref * nat) := last_use_rev (rev is) (length is) [].
  Definition to_delete (is : list (instr X)) (idx : nat) : list ref :=
    map fst (filter (fun e => (snd e =? idx) && negb (rmem (fst e) (keep_alive is))) (last_use is)).
  Definition lifetime_management_pass (is : list (instr X)) : list (instr X) :=
    flat_map (fun p => let ds := to_delete is (fst p) in
                       snd p :: match ds with [] => [] | _ => [DeleteRegisterEntries ds] end)
             (combine (seq 0 (length is)) is).

  (** 824-859 [optimization_only_pass] *)
  Definition is_optimize (i : instr X) : bool := match i with OptimizeModule _ _ _ _ => true | _ => false end.
  (** the loop over the reversed instructions: required values, and retained ones in program order *)
  Definition retain (i : instr X) (st : list ref * list (instr X)) : list ref * list (instr X) :=
    let '(req, kept) := st in
    if is_optimize i || existsb (fun o => rmem o req) (produces i) then (uses i ++ req, i :: kept) else st.
  Definition optimization_only_pass (is : list (instr X)) : list (instr X) :=
    if existsb is_optimize is then snd (fold_right retain ([], []) is) else is.

  (** 862-926 [_weight_offloading_pass] *)
  Definition all_modules (g : graph) : list nat :=
    dedup [] (map n_target (filter (fun n => match n_op n with TorchModule => is_module s (n_target n) | _ => false end) (g_nodes g))).
  Definition post_restore (g : graph) (pl : nat -> nat) : list (instr X) :=
    flat_map (fun m => match weights s m with [] => [] | ws => [MoveModule (PerName (map (fun e => (fst e, pl (snd e))) ws)) m] end) (all_modules g).
  Definition wrap_weights (compute storage : nat) (i : instr X) : list (instr X) :=
    match i with
    | CallModule m _ _ _ _ | OptimizeModule m _ _ _ =>
        if is_module s m then [MoveModule (OneDevice compute) m; i; MoveModule (OneDevice storage) m] else [i]
    | _ => [i]
    end.
  Definition weight_offloading_pass (is : list (instr X)) (compute storage : nat) (g : graph) (pl : nat -> nat) : list (instr X) :=
    map (fun m => MoveModule (OneDevice storage) m) (all_modules g) ++
    flat_map (wrap_weights compute storage) is ++ post_restore g pl.
  (** 929-967 [_activation_offloading_pass] *)
  Definition is_const (r : ref) : bool := match r with RConst _ => true | _ => false end.
  Definition wrap_activations (compute storage : nat) (i : instr X) : list (instr X) :=
    match i with
    | CallModule _ _ _ t _ =>
        map (MoveActivations compute) (filter (fun r => negb (is_const (unwrap r))) (uses i)) ++ [i; MoveActivations storage t]
    | OptimizeModule _ _ _ _ =>
        map (MoveActivations compute) (filter (fun r => negb (is_const (unwrap r))) (uses i)) ++ [i]
    | _ => [i]
    end.
  Definition activation_offloading_pass (is : list (instr X)) (compute storage : nat) : list (instr X) :=
    flat_map (wrap_activations compute storage) is.
  (** 1001-1026 [_cancel_module_round_trips] *)
  Definition is_round_trip (compute storage : nat) (a b : instr X) : bool :=
    match a, b with
    | MoveModule (OneDevice d1) m1, MoveModule (OneDevice d2) m2 =>
        (m1 =? m2) && (* {d1, d2} == {compute, storage} *)
        ((d1 =? compute) && (d2 =? storage) || (d1 =? storage) && (d2 =? compute))
    | _, _ => false
    end.
  Fixpoint cancel_module_round_trips (compute storage : nat) (is : list (instr X)) : list (instr X) :=
    match is with
    | a :: (b :: is'') as is' =>
        if is_round_trip compute storage a b then cancel_module_round_trips compute storage is''
        else a :: cancel_module_round_trips compute storage is'
    | _ => is
    end.
  (** 1029-1083 [_cancel_redundant_activation_moves]: devices of references, pending moves *)
  Definition devmap := list (ref * nat).
  Definition infer_output (compute : nat) (i : instr X) (rd : devmap) : devmap :=
    match i with
    | CallModule m args _ t _ =>
        if is_module s m then aset ref_eqb (unwrap t) compute rd
        else match nodup Nat.eq_dec (flat_map (fun a => match aget ref_eqb (unwrap a) rd with Some d => [d] | None => [] end) args) with
             | [d] => aset ref_eqb (unwrap t) d rd
             | _ => rd
             end
    | _ => rd
    end.
  Definition flush (st : devmap * list (ref * (nat * ref)) * list (instr X)) (r : ref)
    : devmap * list (ref * (nat * ref)) * list (instr X) :=
    let '(rd, pend, out) := st in
    let key := unwrap r in
    match aget ref_eqb key pend with
    | None => st
    | Some (d, r') =>
        let pend := adel ref_eqb key pend in
        if match aget ref_eqb key rd with Some d' => d' =? d | None => false end then (rd, pend, out)
        else (aset ref_eqb key d rd, pend, out ++ [MoveActivations d r'])
    end.
  Fixpoint cancel_moves (compute : nat) (is : list (instr X)) (rd : devmap) (pend : list (ref * (nat * ref))) : list (instr X) :=
    match is with
    | [] =>
        flat_map (fun p => let '(k, (d, r)) := p in
                           if match aget ref_eqb (unwrap r) rd with Some d' => d' =? d | None => false end then [] else [MoveActivations d r]) pend
    | MoveActivations d r :: is' => cancel_moves compute is' rd (aset ref_eqb (unwrap r) (d, r) pend)
    | i :: is' =>
        let '(rd', pend', out) := fold_left flush (uses i) (rd, pend, []) in
        out ++ i :: cancel_moves compute is' (infer_output compute i rd') pend'
    end.
  Definition cancel_redundant_activation_moves (is : list (instr X)) (compute : nat) : list (instr X) := cancel_moves compute is [] [].
  (** 970-998 [_offloading_pass]; [pl]: where the weights are when the pass is applied *)
  Definition offloading_pass (is : list (instr X)) (compute storage : nat) (g : graph) (pl : nat -> nat) : list (instr X) :=
    let is := weight_offloading_pass is compute storage g pl in
    let is := activation_offloading_pass is compute storage in
    let is := cancel_module_round_trips compute storage is in
    cancel_redundant_activation_moves is compute.
End Engine.
