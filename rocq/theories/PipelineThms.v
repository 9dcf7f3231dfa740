(** Property theorems about export pipelines: C56, C57, C58. *)
From Coq Require Import String Relations Permutation.
From Verif Require Import Prelude PipelineModel PipelineSpec PipelineProofs PipelineEditProofs PipelineRunProofs PipelineTopProofs.
Local Open Scope nat_scope.
Local Open Scope list_scope.

(** C56: running a pipeline, made and wired in any way through the API. *)
Theorem C56_run : forall {V U M : Type} (call : nat -> U -> list V -> result V * U) (metric : V -> V -> result M) (P : pipe) (input : V), made true P ->
  exists N, forall fuel last u, N <= fuel ->
    match run_pipeline call metric fuel P input last u with
    | (Ok (out, ev), u') => executable P /\ exists order res, execution_order P order /\ ran call P input order [] u res u' /\ returned P last order res out /\
        forall a b m, In ((a, b), m) ev <-> compared metric P res a b m
    | (Err e, u') =>
        (e = ValueError /\ ~ executable P /\ u' = u) \/
        (executable P /\ exists order, execution_order P order /\
           ((exists l1 x l2 res u1 args, order = l1 ++ x :: l2 /\ ran call P input l1 [] u res u1 /\ given_to P input res x args /\ call (fn_of P x) u1 args = (Err e, u')) \/
            (exists res, ran call P input order [] u res u' /\
               ((exists a va b vb, In (a, va) res /\ In (b, vb) res /\ In a (p_evals P) /\ In b (p_evals P) /\ metric va vb = Err e) \/ (last = true /\ order = [] /\ e = ValueError)))))
    end.
Proof. intros V U M call metric P input Md. exact (run_exactly call metric P input (made_wf _ _ Md)). Qed.
Print Assumptions C56_run.
Example C56_nonvacuous : made true ex_pipe /\ run_pipeline ex_call ex_metric 9 ex_pipe 7 false tt = (Ok ([("c"%string, 12)], [((1, 2), 7)]), tt) /\
  made true (depends_on 0 [2] ex_pipe) /\ run_pipeline ex_call ex_metric 9 (depends_on 0 [2] ex_pipe) 7 false tt = (Err ValueError, tt).
Proof.
  split; [apply ex_made|]. split; [reflexivity|]. split; [|reflexivity]. apply made_wired; [reflexivity|apply ex_made|]. intros d [<-|[]]. cbn. lia.
Qed.

(** C57, [insert_stage_before] without explicit dependencies: as documented. *)
Theorem C57_insert_before : forall w P target fn name c n P', made w P -> insert_stage_before target fn name None c P = Ok (n, P') ->
  exists t, named P target t /\ ~ registered P n /\ named P' name n /\ fn_of P' n = fn /\
    (forall x, registered P' x <-> registered P x \/ x = n) /\ (forall x, In x (p_results P') <-> In x (p_results P) \/ (x = n /\ c = true)) /\ p_evals P' = p_evals P /\
    deps P' n = deps P t /\ deps P' t = [n] /\ (forall y, y <> n -> y <> t -> deps P' y = deps P y) /\
    (forall y, y <> n -> name_of P' y = name_of P y /\ fn_of P' y = fn_of P y) /\
    (executable P -> executable P') /\
    forall fuel order, build_pipeline fuel P' None = Ok order -> exists l1 l2, order = l1 ++ n :: t :: l2.
Proof. exact before_wiring. Qed.
Print Assumptions C57_insert_before.
(** C57, [insert_stage_before] with explicit dependencies. Missing: the new stage runs before the target (refuted below). *)
Theorem C57_insert_before_explicit_partial : forall w P target fn name names c n P', made w P -> insert_stage_before target fn name (Some names) c P = Ok (n, P') ->
  exists ds, Forall2 (named P) names ds /\ ~ registered P n /\ named P' name n /\ fn_of P' n = fn /\
    (forall x, registered P' x <-> registered P x \/ x = n) /\ (forall d, depends P' n d <-> In d ds) /\ (forall y, y <> n -> deps P' y = deps P y) /\
    (forall y, y <> n -> name_of P' y = name_of P y /\ fn_of P' y = fn_of P y) /\ (executable P -> executable P').
Proof. exact explicit_wiring. Qed.
Print Assumptions C57_insert_before_explicit_partial.
(** C57, [insert_stage_after]. Missing: the new stage takes the position of the target among the inputs of a dependent: it comes last. *)
Theorem C57_insert_after_partial : forall w P target fn name c n P', made w P -> insert_stage_after target fn name c P = Ok (n, P') ->
  exists t, named P target t /\ ~ registered P n /\ named P' name n /\ fn_of P' n = fn /\
    (forall x, registered P' x <-> registered P x \/ x = n) /\ (forall x, In x (p_results P') <-> In x (p_results P) \/ (x = n /\ c = true)) /\ p_evals P' = p_evals P /\
    deps P' n = [t] /\
    (forall y, registered P y -> (forall l1 l2, deps P y = l1 ++ t :: l2 -> deps P' y = l1 ++ l2 ++ [n]) /\ (~ depends P y t -> deps P' y = deps P y)) /\
    (forall y, y <> n -> name_of P' y = name_of P y /\ fn_of P' y = fn_of P y) /\ (executable P -> executable P').
Proof. exact after_wiring. Qed.
Print Assumptions C57_insert_after_partial.
(** C57, [replace_stage]. Missing: the replacement takes the position of the target among the inputs of a dependent: it comes last. *)
Theorem C57_replace_partial : forall w P target fn name c n P', made w P -> replace_stage target fn name c P = Ok (n, P') ->
  exists t, named P target t /\ ~ registered P n /\ named P' (match name with Some a => a | None => target end) n /\ fn_of P' n = fn /\
    (forall x, registered P' x <-> (registered P x /\ x <> t) \/ x = n) /\
    (forall x, In x (p_results P') <-> (In x (p_results P) /\ x <> t) \/ (x = n /\ (c = Some true \/ (c = None /\ In t (p_results P))))) /\
    (forall x, In x (p_evals P') <-> (In x (p_evals P) /\ x <> t) \/ (x = n /\ In t (p_evals P))) /\
    deps P' n = deps P t /\
    (forall y, registered P y -> (forall l1 l2, deps P y = l1 ++ t :: l2 -> deps P' y = l1 ++ l2 ++ [n]) /\ (~ depends P y t -> deps P' y = deps P y)) /\
    (forall y, y <> n -> name_of P' y = name_of P y /\ fn_of P' y = fn_of P y) /\ (executable P -> executable P').
Proof. exact replace_wiring. Qed.
Print Assumptions C57_replace_partial.
(** C57: when the edits raise. [unknown P a]: no registered stage has the name [a]. *)
Theorem C57_edits_raise : forall w P target fn name c, made w P ->
  let unknown P n := forall x, ~ named P n x in
  (match insert_stage_before target fn name None c P with Ok _ => ~ unknown P target /\ unknown P name | Err e => (e = KeyError /\ unknown P target) \/ (e = ValueError /\ ~ unknown P target /\ ~ unknown P name) end) /\
  (match insert_stage_after target fn name c P with Ok _ => ~ unknown P target /\ unknown P name | Err e => (e = KeyError /\ unknown P target) \/ (e = ValueError /\ ~ unknown P target /\ ~ unknown P name) end) /\
  forall name' c', match replace_stage target fn name' c' P with
    | Ok _ => ~ unknown P target /\ (forall a, name' = Some a -> a = target \/ unknown P a)
    | Err e => (e = KeyError /\ unknown P target) \/ (e = ValueError /\ ~ unknown P target /\ exists a, name' = Some a /\ a <> target /\ ~ unknown P a) end.
Proof. exact edits_raise. Qed.
Print Assumptions C57_edits_raise.
Local Open Scope string_scope.
Local Open Scope list_scope.
Example C57_nonvacuous : made false ex_pipe /\
  (exists P', insert_stage_before "c" 3 "n" None false ex_pipe = Ok (3, P') /\ build_pipeline 9 P' None = Ok [0; 1; 3; 2]) /\
  (exists P', insert_stage_after "b" 3 "n" false ex_pipe = Ok (3, P') /\ deps P' 2 = [0; 3]) /\ (exists P', replace_stage "b" 3 None None ex_pipe = Ok (3, P') /\ p_evals P' = [2; 3]).
Proof.
  split; [apply ex_made|]. split; [|split]; eexists; (split; [reflexivity|reflexivity]).
Qed.

(** Replacing a stage by one with the same function swaps the inputs of a later stage, which computes 60/5 before and 5/60 after. *)
Theorem C57_replace_swaps_inputs_refuted :
  ~ (forall P target x n P', made false P -> named P target x -> replace_stage target (fn_of P x) None None P = Ok (n, P') ->
       fst (run_pipeline ex_call ex_metric 9 P' 7 true tt) = fst (run_pipeline ex_call ex_metric 9 P 7 true tt)).
Proof.
  intros H. destruct (replace_stage "a" 0 None None ex_pipe) as [[n P']|] eqn:E; [|discriminate].
  specialize (H ex_pipe "a" 0 n P' (ex_made _)). cbn in E. injection E as <- <-.
  discriminate H; [split; [cbn; auto|reflexivity]|reflexivity].
Qed.
Print Assumptions C57_replace_swaps_inputs_refuted.
(** So does inserting a stage that returns what it is given. *)
Theorem C57_insert_after_swaps_inputs_refuted :
  ~ (forall P target n P', made false P -> (forall u v, ex_call 3 u [v] = (Ok v, u)) -> insert_stage_after target 3 "new" false P = Ok (n, P') ->
       fst (run_pipeline ex_call ex_metric 9 P' 7 false tt) = fst (run_pipeline ex_call ex_metric 9 P 7 false tt)).
Proof.
  intros H. destruct (insert_stage_after "a" 3 "new" false ex_pipe) as [[n P']|] eqn:E; [|discriminate].
  specialize (H ex_pipe "a" n P' (ex_made _)). cbn in E. injection E as <- <-.
  discriminate H; [intros [] v; reflexivity|reflexivity].
Qed.
Print Assumptions C57_insert_after_swaps_inputs_refuted.
(** The stage inserted after another one need not run directly after it. *)
Theorem C57_insert_after_immediately_refuted :
  ~ (forall P target t fn name c n P' fuel order, made false P -> named P target t -> insert_stage_after target fn name c P = Ok (n, P') -> build_pipeline fuel P' None = Ok order ->
       exists l1 l2, order = l1 ++ t :: n :: l2).
Proof.
  intros H. destruct (insert_stage_after "a" 3 "new" false ex_ab) as [[n P']|] eqn:E; [|discriminate].
  destruct (H ex_ab "a" 0 3 "new" false n P' 9 [0; 1; 2]) as (l1 & l2 & Eo); [apply ex_ab_made|split; [cbn; auto|reflexivity]|exact E|cbn in E; injection E as <- <-; reflexivity|].
  cbn in E. injection E as <- <-. destruct l1 as [|? [|? [|? r]]]; try discriminate; destruct r; discriminate.
Qed.
Print Assumptions C57_insert_after_immediately_refuted.
(** With explicit dependencies the stage inserted "before" another one runs after it. *)
Theorem C57_insert_before_explicit_refuted :
  ~ (forall P target t fn name names c n P' fuel order, made false P -> named P target t -> insert_stage_before target fn name (Some names) c P = Ok (n, P') -> build_pipeline fuel P' None = Ok order ->
       exists l1 l2 l3, order = l1 ++ n :: l2 ++ t :: l3).
Proof.
  intros H. destruct (insert_stage_before "b" 3 "new" (Some ["a"]) false ex_ab) as [[n P']|] eqn:E; [|discriminate].
  destruct (H ex_ab "b" 1 3 "new" ["a"] false n P' 9 [0; 1; 2]) as (l1 & l2 & l3 & Eo); [apply ex_ab_made|split; [cbn; auto|reflexivity]|exact E|cbn in E; injection E as <- <-; reflexivity|].
  cbn in E. injection E as <- <-. destruct l1 as [|? [|? [|? r]]]; try discriminate; [destruct l2; discriminate|destruct r; discriminate].
Qed.
Print Assumptions C57_insert_before_explicit_refuted.

(** C58: [add_dependency] raises exactly if the edge would close a cycle, and adds exactly this edge otherwise. *)
Theorem C58_add_dependency : forall w P a b, made w P -> exists N, forall fuel, N <= fuel ->
  match add_dependency fuel a b P with
  | Ok P' => exists t d, named P a t /\ named P b d /\ ~ clos_refl_trans nat (depends P) d t /\
      (forall x y, depends P' x y <-> depends P x y \/ (x = t /\ y = d)) /\ p_stages P' = p_stages P /\ p_results P' = p_results P /\ p_evals P' = p_evals P /\
      (forall x, name_of P' x = name_of P x /\ fn_of P' x = fn_of P x)
  | Err e => (e = KeyError /\ (forall t d, ~ (named P a t /\ named P b d))) \/
      (e = ValueError /\ exists t d, named P a t /\ named P b d /\ clos_refl_trans nat (depends P) d t)
  end.
Proof. intros w P a b M. exact (add_dependency_exactly P a b (made_wf _ _ M)). Qed.
Print Assumptions C58_add_dependency.
(** C58: pipelines that are only wired through the pipeline's own methods can always be run. *)
Theorem C58_always_executable : forall P, made false P -> executable P.
Proof. exact made_executable. Qed.
Print Assumptions C58_always_executable.
(** C58: [remove_dependency] removes exactly one edge. *)
Theorem C58_remove_dependency : forall w P a b, made w P ->
  match remove_dependency a b P with
  | Ok P' => exists t d, named P a t /\ named P b d /\ depends P t d /\ (forall l1 l2, deps P t = l1 ++ d :: l2 -> deps P' t = l1 ++ l2) /\
      (forall x, x <> t -> deps P' x = deps P x) /\ p_stages P' = p_stages P /\ p_results P' = p_results P /\ p_evals P' = p_evals P /\ (executable P -> executable P')
  | Err e => e = KeyError /\ forall t d, named P a t -> named P b d -> ~ depends P t d
  end.
Proof. exact remove_exactly. Qed.
Print Assumptions C58_remove_dependency.
Example C58_nonvacuous : made false ex_pipe /\ add_dependency 9 "a" "c" ex_pipe = Err ValueError /\ add_dependency 9 "z" "c" ex_pipe = Err KeyError /\
  exists P', add_dependency 9 "b" "a" ex_pipe = Ok P' /\ deps P' 1 = [0].
Proof. split; [apply ex_made|]. split; [reflexivity|]. split; [reflexivity|]. eexists. split; reflexivity. Qed.
