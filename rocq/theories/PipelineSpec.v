(** Specification vocabulary for export pipelines. *)
From Coq Require Import String Relations.
From Verif Require Import Prelude PipelineModel.
Local Open Scope nat_scope.
Local Open Scope list_scope.

(** The pipelines that calls of the API can make; [wiring]: stages may also be wired without checks through their references. *)
Inductive made (wiring : bool) : pipe -> Prop :=
| made_empty : made wiring empty_pipe
| made_stage P fn n c x P' : made wiring P -> register_stage fn n c P = Ok (x, P') -> made wiring P'
| made_eval P fn n c x P' : made wiring P -> register_eval_stage fn n c P = Ok (x, P') -> made wiring P'
| made_elsewhere P s : wiring = true -> made wiring P -> st_deps s = [] ->   (* a stage of another pipeline *)
    made wiring (mkPipe (p_refs P ++ [s]) (p_stages P) (p_results P) (p_evals P))
| made_wired P x ds : wiring = true -> made wiring P -> (forall d, In d ds -> d < length (p_refs P)) -> made wiring (depends_on x ds P)
| made_before P t fn n ds c x P' : made wiring P -> insert_stage_before t fn n ds c P = Ok (x, P') -> made wiring P'
| made_after P t fn n c x P' : made wiring P -> insert_stage_after t fn n c P = Ok (x, P') -> made wiring P'
| made_replace P t fn n c x P' : made wiring P -> replace_stage t fn n c P = Ok (x, P') -> made wiring P'
| made_add P fuel a b P' : made wiring P -> add_dependency fuel a b P = Ok P' -> made wiring P'
| made_remove P a b P' : made wiring P -> remove_dependency a b P = Ok P' -> made wiring P'.

Definition depends (P : pipe) (a d : nat) : Prop := In d (deps P a).
Definition registered (P : pipe) (x : nat) : Prop := In x (p_stages P).
(** All dependencies are registered and there is no cycle. *)
Definition executable (P : pipe) : Prop :=
  (forall a d, registered P a -> depends P a d -> registered P d) /\ forall a, registered P a -> ~ clos_trans nat (depends P) a a.
(** An order of all stages, each once and after the stages it depends on. *)
Definition execution_order (P : pipe) (order : list nat) : Prop :=
  NoDup order /\ (forall x, In x order <-> registered P x) /\
  forall l1 x l2, order = l1 ++ x :: l2 -> forall d, depends P x d -> In d l1.
(** The stage with this name. *)
Definition named (P : pipe) (n : string) (x : nat) : Prop := registered P x /\ name_of P x = n.

Section Run.
  Context {V U M : Type} (call : nat -> U -> list V -> result V * U) (metric : V -> V -> result M) (P : pipe) (input : V).
  (** What a stage is given: the input of the pipeline if it has no dependencies, else their results in order. *)
  Definition given_to (res : list (nat * V)) (x : nat) (args : list V) : Prop :=
    (deps P x = [] /\ args = [input]) \/ (deps P x <> [] /\ Forall2 (fun d v => In (d, v) res) (deps P x) args).
  (** Running stages one after another; [res]: the results so far. *)
  Inductive ran : list nat -> list (nat * V) -> U -> list (nat * V) -> U -> Prop :=
  | ran_nil res u : ran [] res u res u
  | ran_cons x l res u args v u' res' u'' : given_to res x args -> call (fn_of P x) u args = (Ok v, u') ->
      ran l (res ++ [(x, v)]) u' res' u'' -> ran (x :: l) res u res' u''.
  (** What a run returns: the captured stages and their results, or only the last stage that ran. *)
  Definition returned (last : bool) (order : list nat) (res : list (nat * V)) (out : list (string * V)) : Prop :=
    if last then exists l x v, order = l ++ [x] /\ In (x, v) res /\ out = [(name_of P x, v)]
    else Forall2 (fun x o => fst o = name_of P x /\ In (x, snd o) res) (p_results P) out.
  (** Two evaluation stages, one registered before the other, and the metric of their results. *)
  Definition compared (res : list (nat * V)) (a b : nat) (m : M) : Prop :=
    exists l1 l2 l3 va vb, p_evals P = l1 ++ a :: l2 ++ b :: l3 /\ In (a, va) res /\ In (b, vb) res /\ metric va vb = Ok m.
End Run.
