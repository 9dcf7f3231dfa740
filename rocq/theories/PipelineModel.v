(** Models export pipelines: fastforward/export/pipeline/core.py. *)
From Coq Require Import String.
From Verif Require Import Prelude.
Local Open Scope nat_scope.
Local Open Scope list_scope.

(** core.py:23-56 [StageReference]. References are compared by identity: a number that points into
    the list of all references made so far. The function of a stage is a number too. [_dependencies] is a dictionary with keys in
    insertion order whose values are not used. *)
Record stage := mkStage { st_fn : nat; st_name : string; st_deps : list nat }.
(** core.py:103-113 [Pipeline]: the references made so far, and the keys of [_stages], [_result_stages] and [_evaluation_stages]. The values
    of these dictionaries are the names of their keys. [_pipeline_kwargs] is passed through to the stage functions and part of the user's state. *)
Record pipe := mkPipe { p_refs : list stage; p_stages : list nat; p_results : list nat; p_evals : list nat }.
Definition empty_pipe : pipe := mkPipe [] [] [] [].

Definition nin (x : nat) (l : list nat) : bool := existsb (Nat.eqb x) l.
Definition drop (x : nat) (l : list nat) : list nat := filter (fun y => negb (y =? x)) l.
Definition deps (P : pipe) (x : nat) : list nat := match nth_error (p_refs P) x with Some s => st_deps s | None => [] end.
Definition name_of (P : pipe) (x : nat) : string := match nth_error (p_refs P) x with Some s => st_name s | None => EmptyString end.
Definition fn_of (P : pipe) (x : nat) : nat := match nth_error (p_refs P) x with Some s => st_fn s | None => 0 end.
Fixpoint update (x : nat) (f : stage -> stage) (l : list stage) : list stage :=
  match l, x with
  | [], _ => []
  | s :: l', 0 => f s :: l'
  | s :: l', S x' => s :: update x' f l'
  end.
Definition with_deps (x : nat) (f : list nat -> list nat) (P : pipe) : pipe :=
  mkPipe (update x (fun s => mkStage (st_fn s) (st_name s) (f (st_deps s))) (p_refs P)) (p_stages P) (p_results P) (p_evals P).

(** core.py:31-36 [StageReference.depends_on] *)
Definition add_dep (l : list nat) (d : nat) : list nat := if nin d l then l else l ++ [d].
Definition depends_on (x : nat) (ds : list nat) (P : pipe) : pipe := with_deps x (fun l => fold_left add_dep ds l) P.
(** core.py:43-44 [_set_dependencies] *)
Definition set_dependencies (x : nat) (ds : list nat) (P : pipe) : pipe := with_deps x (fun _ => fold_left add_dep ds []) P.
(** core.py:46-50 [_remove_dependency] *)
Definition remove_dep (x d : nat) (P : pipe) : result pipe :=
  if nin d (deps P x) then Ok (with_deps x (drop d) P) else Err KeyError.

(** core.py:115-127 [register_stage] *)
Definition register_stage (fn : nat) (name : string) (capture : bool) (P : pipe) : result (nat * pipe) :=
  if existsb (fun x => String.eqb (name_of P x) name) (p_stages P) then Err ValueError
  else let x := length (p_refs P) in
       Ok (x, mkPipe (p_refs P ++ [mkStage fn name []]) (p_stages P ++ [x]) (if capture then p_results P ++ [x] else p_results P) (p_evals P)).
(** core.py:129-135 [register_eval_stage] *)
Definition register_eval_stage (fn : nat) (name : string) (capture : bool) (P : pipe) : result (nat * pipe) :=
  let? (x, P) := register_stage fn name capture P in
  Ok (x, mkPipe (p_refs P) (p_stages P) (p_results P) (p_evals P ++ [x])).
(** core.py:137-153 [get_stage] *)
Definition get_stage (name : string) (P : pipe) : result nat :=
  match find (fun x => String.eqb (name_of P x) name) (p_stages P) with Some x => Ok x | None => Err KeyError end.
(** core.py:338-339 [_dependents_of] *)
Definition dependents_of (t : nat) (P : pipe) : list nat := filter (fun x => nin t (deps P x)) (p_stages P).
(** the loops of core.py:238-240 and 297-299 *)
Fixpoint rewire (t n : nat) (l : list nat) (P : pipe) : result pipe :=
  match l with
  | [] => Ok P
  | x :: l' => let? P := remove_dep x t P in rewire t n l' (depends_on x [n] P)
  end.
(** core.py:155-200 [insert_stage_before] *)
Definition insert_stage_before (target : string) (fn : nat) (name : string) (depends : option (list string)) (capture : bool) (P : pipe) : result (nat * pipe) :=
  let? t := get_stage target P in
  match depends with
  | None =>
      let inherited := deps P t in
      let? (n, P) := register_stage fn name capture P in
      Ok (n, set_dependencies t [n] (depends_on n inherited P))
  | Some names =>
      let? explicit := rmapM (fun d => get_stage d P) names in
      let? (n, P) := register_stage fn name capture P in
      Ok (n, depends_on n explicit P)
  end.
(** core.py:202-241 [insert_stage_after] *)
Definition insert_stage_after (target : string) (fn : nat) (name : string) (capture : bool) (P : pipe) : result (nat * pipe) :=
  let? t := get_stage target P in
  let existing := dependents_of t P in
  let? (n, P) := register_stage fn name capture P in
  let? P := rewire t n existing (depends_on n [t] P) in
  Ok (n, P).
(** core.py:243-300 [replace_stage] *)
Definition replace_stage (target : string) (fn : nat) (name : option string) (capture : option bool) (P : pipe) : result (nat * pipe) :=
  let? t := get_stage target P in
  let new_name := match name with Some n => n | None => name_of P t end in
  if negb (String.eqb new_name (name_of P t)) && existsb (fun x => String.eqb (name_of P x) new_name) (p_stages P) then Err ValueError
  else
    let was_eval := nin t (p_evals P) in
    let cap := match capture with Some b => b | None => nin t (p_results P) end in
    let inherited := deps P t in
    let dependents := dependents_of t P in
    let P := mkPipe (p_refs P) (drop t (p_stages P)) (drop t (p_results P)) (drop t (p_evals P)) in
    let? (n, P) := (if was_eval then register_eval_stage else register_stage) fn new_name cap P in
    let? P := rewire t n dependents (depends_on n inherited P) in
    Ok (n, P).
(** core.py:341-353 [_reaches]; the head of [stack] is its last element in Python. Every round uses up fuel. *)
Fixpoint reaches (fuel : nat) (P : pipe) (dst : nat) (stack seen : list nat) : result bool :=
  match fuel with
  | 0 => Err RecursionError
  | S k =>
      match stack with
      | [] => Ok false
      | x :: stack' =>
          if x =? dst then Ok true
          else if nin x seen then reaches k P dst stack' seen
          else reaches k P dst (rev (deps P x) ++ stack') (x :: seen)
      end
  end.
(** core.py:302-322 [add_dependency] *)
Definition add_dependency (fuel : nat) (stage dependency : string) (P : pipe) : result pipe :=
  let? t := get_stage stage P in
  let? d := get_stage dependency P in
  let? r := reaches fuel P t [d] [] in
  if r then Err ValueError else Ok (depends_on t [d] P).
(** core.py:324-336 [remove_dependency] *)
Definition remove_dependency (stage dependency : string) (P : pipe) : result pipe :=
  let? t := get_stage stage P in
  let? d := get_stage dependency P in
  remove_dep t d P.

Fixpoint walk {A B} (f : B -> A -> result B) (l : list A) (b : B) : result B :=
  match l with [] => Ok b | a :: l' => let? b' := f b a in walk f l' b' end.
(** core.py:355-389 [_build_pipeline]: [visit] is the nested function; [order] is the list [pipeline], whose elements
    are those of [visited]. *)
Fixpoint visit (fuel : nat) (P : pipe) (visiting : list nat) (order : list nat) (x : nat) : result (list nat) :=
  match fuel with
  | 0 => Err RecursionError
  | S k =>
      if nin x visiting then Err ValueError
      else if nin x order then Ok order
      else let? order' := walk (fun o d => if nin d (p_stages P) then visit k P (x :: visiting) o d else Err ValueError) (deps P x) order in
           Ok (order' ++ [x])
  end.
Definition build_pipeline (fuel : nat) (P : pipe) (target : option nat) : result (list nat) :=
  match target with
  | Some t => if nin t (p_stages P) then walk (visit fuel P []) [t] [] else Err ValueError
  | None => walk (visit fuel P []) (p_stages P) []
  end.

Section Running.
  Context {V U M : Type}.
  (** calling a stage function with its tuple of inputs *)
  Variable call : nat -> U -> list V -> result V * U.
  (** comparing the results of two evaluation stages: core.py:84-100 and its mean over batches *)
  Variable metric : V -> V -> result M.

  Fixpoint lookup (x : nat) (res : list (nat * V)) : result V :=
    match res with [] => Err KeyError | (y, v) :: res' => if y =? x then Ok v else lookup x res' end.
  (** core.py:75-81 [resolve_stage_inputs] *)
  Definition stage_inputs (P : pipe) (input : V) (res : list (nat * V)) (x : nat) : result (list V) :=
    match deps P x with [] => Ok [input] | ds => rmapM (fun d => lookup d res) ds end.
  (** core.py:391-405 [_execute_pipeline] *)
  Fixpoint execute (P : pipe) (input : V) (order : list nat) (res : list (nat * V)) (u : U) : result (list (nat * V)) * U :=
    match order with
    | [] => (Ok res, u)
    | x :: order' =>
        match stage_inputs P input res x with
        | Err e => (Err e, u)
        | Ok args =>
            match call (fn_of P x) u args with
            | (Err e, u') => (Err e, u')
            | (Ok v, u') => execute P input order' (res ++ [(x, v)]) u'
            end
        end
    end.
  (** core.py:84-100 [_EvaluationAggregator]: pairs in the order of [itertools.combinations] *)
  Fixpoint pairs (l : list (nat * V)) : list ((nat * V) * (nat * V)) :=
    match l with [] => [] | a :: l' => map (pair a) l' ++ pairs l' end.
  Definition compare (l : list (nat * V)) : result (list ((nat * nat) * M)) :=
    rmapM (fun p => let? m := metric (snd (fst p)) (snd (snd p)) in Ok ((fst (fst p), fst (snd p)), m)) (pairs l).
  (** core.py:407-416 [_compare_eval_stages] *)
  Definition compare_eval_stages (P : pipe) (res : list (nat * V)) : result (list ((nat * nat) * M)) :=
    compare (flat_map (fun x => match lookup x res with Ok v => [(x, v)] | Err _ => [] end) (p_evals P)).
  (** core.py:418-442 [__call__] *)
  Definition run_pipeline (fuel : nat) (P : pipe) (input : V) (last : bool) (u : U) : result (list (string * V) * list ((nat * nat) * M)) * U :=
    match build_pipeline fuel P None with
    | Err e => (Err e, u)
    | Ok order =>
        match execute P input order [] u with
        | (Err e, u') => (Err e, u')
        | (Ok res, u') =>
            (let? ev := compare_eval_stages P res in
             let? out := (if last
                          then match rev order with [] => Err ValueError | x :: _ => let? v := lookup x res in Ok [(name_of P x, v)] end
                          else rmapM (fun x => let? v := lookup x res in Ok (name_of P x, v)) (p_results P)) in
             Ok (out, ev), u')
        end
    end.
End Running.
