(** Properties of the algorithm registry and of flow declarations: C53, C54, C85 and C86. *)
From Coq Require Import String.
From Verif Require Import Prelude RegModel RegSpec RegProofs.
From Coq Require Import Permutation.
Local Open Scope nat_scope.
Local Open Scope list_scope.

(** ** C53 *)

(** Whatever a program does with overrides, nested or left by an exception, an algorithm that
    is not registered outside an override of it has the same entry afterwards. *)
Theorem C53_entry_restored : forall order p r k, ~ rebinds k p ->
  lookup (fst (fst (exec order p r))) k = lookup r k.
Proof. exact exec_lookup. Qed.
Print Assumptions C53_entry_restored.

(** So resolving it gives what it gave before. *)
Theorem C53_resolution_restored : forall order p r a m, ~ rebinds (algorithm_key a) p ->
  resolve order (fst (fst (exec order p r))) m (Some a) None = resolve order r m (Some a) None.
Proof. intros order p r a m N. apply resolve_lookup. now apply exec_lookup. Qed.
Print Assumptions C53_resolution_restored.

(** The block runs with the given algorithm on the given targets and the flows of the
    registration; other algorithms are as before, and it ends as the block does. *)
Theorem C53_inside_block : forall order, (forall l, Permutation (order l) l) ->
  forall r a t prev p, lookup r (algorithm_key a) = Some prev -> valid t ->
  exists r1 s, lookup r1 (algorithm_key a) = Some (mkSpec a s (sp_flows prev)) /\
    (forall m l, select order s m = Ok l -> forall x, In x l <-> matches m t x) /\
    (forall k, k <> algorithm_key a -> lookup r1 k = lookup r k) /\
    snd (fst (exec order (POverride a (Some t) p) r)) = snd (fst (exec order p r1)) /\
    snd (exec order (POverride a (Some t) p) r) = snd (exec order p r1) /\
    forall k, k <> algorithm_key a ->
      lookup (fst (fst (exec order (POverride a (Some t) p) r))) k = lookup (fst (fst (exec order p r1))) k.
Proof.
  intros order Ho r a t prev p L V. apply normalize_valid in V. destruct V as [s N].
  destruct (override_inside order r a t prev s p L N) as (r1 & A & B & C & D & E).
  exists r1, s. repeat split; try assumption; eapply target_exact; eassumption.
Qed.
Print Assumptions C53_inside_block.

(** Unregistered algorithms and targets that mean nothing are refused, the block does not run
    and nothing changes; without targets the block runs as it is. *)
Theorem C53_refused : forall order r a t p,
  (lookup r (algorithm_key a) = None -> exec order (POverride a (Some t) p) r = (r, [], Some ValueError)) /\
  (forall prev, lookup r (algorithm_key a) = Some prev -> ~ valid t ->
     exec order (POverride a (Some t) p) r = (r, [], Some TypeError)) /\
  exec order (POverride a None p) r = exec order p r.
Proof.
  intros order r a t p. split; [apply override_unregistered|]. split; [|reflexivity].
  intros prev L V. cbn [exec]. unfold enter. rewrite L. unfold register. destruct (normalize t) as [s|e] eqn:N.
  - exfalso. apply V. apply normalize_valid. now exists s.
  - cbn [rbind]. now rewrite (normalize_error t e N).
Qed.
Print Assumptions C53_refused.

(** [layerwise_optimize] with or without targets leaves every entry as it was. *)
Theorem C53_optimize_leaves_registry : forall order r m g targets k,
  lookup (fst (optimization_specs order r m g targets)) k = lookup r k.
Proof.
  intros order r m g targets k. destruct g as [a|s|l|], targets as [t|]; try reflexivity. cbn [optimization_specs].
  destruct (enter r a t) as [[r1 saved]|] eqn:E; [|reflexivity]. apply enter_ok in E. destruct E as (prev & s & L & _ & -> & ->).
  cbn [fst]. unfold leave. cbn [fst snd]. rewrite !lookup_assign. destruct (Nat.eqb_spec (algorithm_key a) k) as [<-|]; [now rewrite L|reflexivity].
Qed.
Print Assumptions C53_optimize_leaves_registry.

(** Example: in a block that retargets algorithm 7, another block retargets it again, the
    program registers it anew, and fails. *)
Definition ex_model := mkModel [1; 2; 3; 4] (fun x t => x mod 2 =? t) (fun q => Ok [4; 1]) (fun _ => Err ValueError).
Definition ex_registry : registry := assign (assign [] 7 (mkSpec (AFun 7) (STypes [0]) 5)) 8 (mkSpec (AFun 8) (STypes [1]) 6).
Definition ex_prog : prog :=
  POverride (AFun 7) (Some (TModule 3))
    (PSeq (PResolve (AFun 7) ex_model)
    (PSeq (PTry (POverride (APartial 1 (AFun 7)) (Some (TQuery 0)) (PSeq (PResolve (AFun 7) ex_model) PRaise)))
    (PSeq (PRegister (AFun 7) (TType 1 true) 0)
          PRaise))).

Example C53_nonvacuous :
  ~ rebinds 7 ex_prog /\ valid (TModule 3) /\ lookup ex_registry 7 <> None /\
  map (fun x => match x with Ok l => map su_region l | Err _ => [] end) (snd (fst (exec (fun l => l) ex_prog ex_registry))) = [[3]; [4; 1]] /\
  snd (exec (fun l => l) ex_prog ex_registry) = Some RuntimeError.
Proof.
  split; [|split; [constructor|split; [discriminate|split; reflexivity]]].
  intros H. inversion H as [| | |? ? ? N| |]; subst. apply N. reflexivity.
Qed.

(** Blocks that do not nest (say, in two threads or in generators) do not restore: the one
    that is left last puts back the other's targets. *)
Theorem C53_interleaved_blocks_refuted : exists r a t1 t2 r1 s1 r2 s2,
  enter r a t1 = Ok (r1, s1) /\ enter r1 a t2 = Ok (r2, s2) /\
  lookup (leave (leave r2 s1) s2) (algorithm_key a) <> lookup r (algorithm_key a).
Proof. exists ex_registry, (AFun 7), (TModule 3), (TModule 4). do 4 eexists. repeat split. discriminate. Qed.
Print Assumptions C53_interleaved_blocks_refuted.

(** ** C54 *)

(** A context manager declared for a flow is the one that is used, as long as no other manager
    or generator goes by the name of its class. *)
Theorem C54_manager_used_partial : forall ops ops' cm k g, find_gen g k = None ->
  (forall y, In (RegisterGen y) ops -> ge_key y <> k) ->
  (forall cm', In (Declare (DManager cm' k)) ops -> cm' = cm) ->
  nth_error (fst (flow_run (ops ++ Declare (DManager cm k) :: ops') g)) (length ops) = Some (Ok (mkGen k (CGiven cm) 0)).
Proof. exact manager_own. Qed.
Print Assumptions C54_manager_used_partial.

(** A generator is used as given; a key gives the generator registered last for it, and a key
    nobody registered is refused and changes nothing. *)
Theorem C54_generator_used : forall ops ops' x g,
  nth_error (fst (flow_run (ops ++ Declare (DGen x) :: ops') g)) (length ops) = Some (Ok x).
Proof. intros. rewrite got_last. reflexivity. Qed.
Print Assumptions C54_generator_used.

Theorem C54_key_gives_latest : forall ops x ops1 ops' g,
  (forall y, In (RegisterGen y) ops1 -> ge_key y <> ge_key x) ->
  nth_error (fst (flow_run ((ops ++ RegisterGen x :: ops1) ++ Declare (DKey (ge_key x)) :: ops') g))
    (length (ops ++ RegisterGen x :: ops1)) = Some (Ok x).
Proof. exact key_last. Qed.
Print Assumptions C54_key_gives_latest.

Theorem C54_unknown_key_refused : forall ops k ops' g, find_gen g k = None ->
  (forall op, In op ops -> ~ binds_key k op) ->
  nth_error (fst (flow_run (ops ++ Declare (DKey k) :: ops') g)) (length ops) = Some (Err KeyError) /\
  snd (flow_run (ops ++ Declare (DKey k) :: ops') g) = snd (flow_run (ops ++ ops') g).
Proof. exact key_unknown. Qed.
Print Assumptions C54_unknown_key_refused.

(** The built-in keys keep their meaning unless registered again. *)
Theorem C54_builtin_keys : forall ops ops' k c,
  In (k, c) [("original", CDisable); ("quantized", CNull); ("any", CNull)]%string ->
  (forall y, In (RegisterGen y) ops -> ge_key y <> k) ->
  exists x, nth_error (fst (flow_run (ops ++ Declare (DKey k) :: ops') builtin)) (length ops) = Some (Ok x) /\ ge_context x = c.
Proof.
  intros ops ops' k c I N. assert (F : exists x, find_gen builtin k = Some x /\ ge_context x = c).
  { destruct I as [[= <- <-]|[[= <- <-]|[[= <- <-]|[]]]]; eexists; split; reflexivity. }
  destruct F as (x & F & C). exists x. split; [|exact C]. rewrite got_last. unfold got. cbn [to_generator].
  now rewrite (flow_declares_keep ops k x N builtin F).
Qed.
Print Assumptions C54_builtin_keys.

Example C54_nonvacuous : exists ops,
  length ops = 4 /\ find_gen builtin "A"%string = None /\
  (forall y, In (RegisterGen y) ops -> ge_key y <> "A"%string) /\
  (forall cm', In (Declare (DManager cm' "A"%string)) ops -> cm' = 1) /\
  fst (flow_run (ops ++ [Declare (DManager 1 "A"%string)]) builtin) =
    [Ok (mkGen "A" (CGiven 1) 0); Ok (mkGen "original" CDisable 2); Ok (mkGen "x" (CUser 3) 1); Err KeyError; Ok (mkGen "A" (CGiven 1) 0)].
Proof.
  exists [Declare (DManager 1 "A"); Declare (DKey "original"); RegisterGen (mkGen "x" (CUser 3) 1); Declare (DKey "y")]%string.
  split; [reflexivity|]. split; [reflexivity|]. split; [intros y [H|[H|[H|[H|[]]]]]; inversion H; discriminate|].
  split; [|reflexivity]. intros cm' [H|[H|[H|[H|[]]]]]; inversion H; reflexivity.
Qed.

(** Two context managers of the same class (or of classes with the same qualified name): the
    second one declared is never entered, the first is used in its place.  A manager whose
    class is named like a generator gets that generator. *)
Theorem C54_same_class_refuted : exists k c1 c2, c1 <> c2 /\
  fst (flow_run [Declare (DManager c1 k); Declare (DManager c2 k)] builtin) =
    [Ok (mkGen k (CGiven c1) 0); Ok (mkGen k (CGiven c1) 0)].
Proof. exists "NoiseContext"%string, 1, 2. split; [discriminate|reflexivity]. Qed.
Print Assumptions C54_same_class_refuted.

(** In general: the manager gets whatever generator has the name of its class. *)
Theorem C54_name_taken : forall ops ops' cm k x ops1 g, ge_key x = k ->
  (forall y, In (RegisterGen y) ops1 -> ge_key y <> k) ->
  nth_error (fst (flow_run ((ops ++ RegisterGen x :: ops1) ++ Declare (DManager cm k) :: ops') g))
    (length (ops ++ RegisterGen x :: ops1)) = Some (Ok x).
Proof.
  intros ops ops' cm k x ops1 g K N. apply manager_taken. rewrite flow_run_app. cbn [snd flow_run].
  assert (F : find_gen (register_generator (snd (flow_run ops g)) x) k = Some x) by (rewrite find_register, K; now rewrite String.eqb_refl).
  pose proof (flow_declares_keep ops1 k x N _ F) as X. now destruct (flow_run ops1 _).
Qed.
Print Assumptions C54_name_taken.

(** What [layerwise_optimize] runs never uses the declared flows: every region is run in the
    default context, whatever flows its algorithm is registered with.  (The code that binds
    flows to a graph, scheduler.py, is not called.) *)
Theorem C54_declared_flows_unused_refuted : forall order, (forall l, Permutation (order l) l) ->
  forall r m g targets subs, snd (optimization_specs order r m g targets) = Ok subs ->
  forall u, In u subs -> su_contexts u = [None].
Proof.
  intros order Ho r m g targets subs H u I.
  assert (K : forall l, resolve_specs order m l = Ok subs -> su_contexts u = [None]).
  { intros l E. apply (resolve_specs_spec order Ho) in E. destruct E as [_ E]. apply E in I. destruct I as (s & _ & _ & ->). reflexivity. }
  assert (K' : forall r a s, resolve order r m a s = Ok subs -> su_contexts u = [None]).
  { intros r0 a s E. unfold resolve in E. destruct a as [a|], s as [[|s0 s]|]; try discriminate.
    - destruct (lookup r0 (algorithm_key a)); [|discriminate]. exact (K _ E).
    - exact (K _ E). }
  destruct g as [a|s|l|], targets as [t|]; cbn [optimization_specs] in H; try discriminate; try exact (K' _ _ _ H).
  destruct (enter r a t) as [[r1 saved]|]; [|discriminate]. exact (K' _ _ _ H).
Qed.
Print Assumptions C54_declared_flows_unused_refuted.

(** ** C85 *)

(** With targets given, the algorithm that is passed runs on exactly the regions the targets
    stand for. *)
Theorem C85_with_targets_partial : forall order, (forall l, Permutation (order l) l) ->
  forall r m a t subs, snd (optimization_specs order r m (GAlg a) (Some t)) = Ok subs ->
  subs <> [] /\ forall u, In u subs -> su_fn u = a /\ matches m t (su_region u).
Proof.
  intros order Ho r m a t subs H. cbn [optimization_specs] in H. destruct (enter r a t) as [[r1 saved]|] eqn:E; [|discriminate].
  cbn [snd] in H. apply enter_ok in E. destruct E as (prev & s & L & N & -> & ->). unfold resolve in H.
  rewrite lookup_assign, Nat.eqb_refl in H. apply (resolve_specs_spec order Ho) in H. destruct H as [Hn H]. split; [exact Hn|].
  intros u I. apply H in I. destruct I as (s' & [<-|[]] & S & U). rewrite U. cbn [su_fn su_region sp_fn]. split; [reflexivity|].
  exact (proj1 (normalize_selects t m s N (su_region u)) S).
Qed.
Print Assumptions C85_with_targets_partial.

Theorem C85_every_target_partial : forall order, (forall l, Permutation (order l) l) ->
  forall r m a t subs, snd (optimization_specs order r m (GAlg a) (Some t)) = Ok subs ->
  forall x, matches m t x -> exists u, In u subs /\ su_region u = x /\ su_fn u = a.
Proof.
  intros order Ho r m a t subs H x M. cbn [optimization_specs] in H. destruct (enter r a t) as [[r1 saved]|] eqn:E; [|discriminate].
  cbn [snd] in H. apply enter_ok in E. destruct E as (prev & s & L & N & -> & ->). unfold resolve in H.
  rewrite lookup_assign, Nat.eqb_refl in H. apply (resolve_specs_spec order Ho) in H. destruct H as [_ H].
  exists (mkSub x a (sp_flows prev) [None]). split; [|split; reflexivity]. apply H. eexists. split; [now left|]. cbn [sp_selector su_region sp_fn sp_flows].
  split; [|reflexivity]. exact (proj2 (normalize_selects t m s N x) M).
Qed.
Print Assumptions C85_every_target_partial.

(** With explicit specs, each spec's function runs on exactly the regions of its selector. *)
Theorem C85_with_specs_partial : forall order, (forall l, Permutation (order l) l) ->
  forall r m l subs, snd (optimization_specs order r m (GList l) None) = Ok subs ->
  l <> [] /\ subs <> [] /\ forall x f, (exists u, In u subs /\ su_region u = x /\ su_fn u = f) <->
    exists s, In s l /\ sp_fn s = f /\ selects m (sp_selector s) x.
Proof.
  intros order Ho r m l subs H. cbn [optimization_specs resolve snd] in H. destruct l as [|s0 l]; [discriminate|]. split; [discriminate|].
  apply (resolve_specs_spec order Ho) in H. destruct H as [Hn H]. split; [exact Hn|]. intros x f. split.
  - intros (u & I & <- & <-). apply H in I. destruct I as (s & Is & S & U). exists s. rewrite U. repeat split; try assumption.
  - intros (s & Is & <- & S). exists (mkSub x (sp_fn s) (sp_flows s) [None]). split; [|split; reflexivity].
    apply H. exists s. repeat split; assumption.
Qed.
Print Assumptions C85_with_specs_partial.

(** Without targets, the function that was registered last for the algorithm runs on exactly
    the regions it was registered for: the algorithm itself if that is what was registered. *)
Theorem C85_registered_partial : forall order, (forall l, Permutation (order l) l) ->
  forall r a t f r' m b subs, register r a t f = Ok r' -> algorithm_key b = algorithm_key a ->
  snd (optimization_specs order r' m (GAlg b) None) = Ok subs ->
  subs <> [] /\ forall x g, (exists u, In u subs /\ su_region u = x /\ su_fn u = g) <-> g = a /\ matches m t x.
Proof.
  intros order Ho r a t f r' m b subs R K H. unfold register in R. destruct (normalize t) as [s|] eqn:N; [|discriminate]. injection R as <-.
  cbn [optimization_specs snd resolve] in H. rewrite lookup_assign, K, Nat.eqb_refl in H.
  apply (resolve_specs_spec order Ho) in H. destruct H as [Hn H]. split; [exact Hn|]. intros x g. split.
  - intros (u & I & <- & <-). apply H in I. destruct I as (s' & [<-|[]] & S & U). rewrite U. split; [reflexivity|].
    exact (proj1 (normalize_selects t m s N _) S).
  - intros [-> M]. exists (mkSub x a f [None]). split; [|split; reflexivity]. apply H. eexists. split; [now left|].
    split; [|reflexivity]. exact (proj2 (normalize_selects t m s N x) M).
Qed.
Print Assumptions C85_registered_partial.

Example C85_nonvacuous :
  (exists subs, snd (optimization_specs (fun l => l) ex_registry ex_model (GAlg (APartial 9 (AFun 7))) (Some (TIter [TModule 3; TType 0 true; TModule 2]))) = Ok subs /\
     map su_region subs = [3; 2; 4] /\ map su_fn subs = repeat (APartial 9 (AFun 7)) 3) /\
  (exists subs, snd (optimization_specs (fun l => l) ex_registry ex_model (GAlg (AFun 8)) None) = Ok subs /\ map su_region subs = [1; 3]).
Proof. split; eexists; repeat split. Qed.

(** [layerwise_optimize(model, data, functools.partial(gptq, ...))] without targets runs the
    registered function: the bound arguments are dropped without notice. *)
Theorem C85_bound_arguments_dropped_refuted : exists r m a, (exists subs,
    snd (optimization_specs (fun l => l) r m (GAlg a) None) = Ok subs /\ subs <> [] /\
    forall u, In u subs -> su_fn u <> a) /\
  (exists subs t, snd (optimization_specs (fun l => l) r m (GAlg a) (Some t)) = Ok subs /\ map su_fn subs = [a; a]).
Proof.
  exists ex_registry, ex_model, (APartial 9 (AFun 7)). split.
  - eexists. split; [reflexivity|]. split; [discriminate|]. intros u [<-|[<-|[]]]; discriminate.
  - eexists. exists (TType 0 true). split; reflexivity.
Qed.
Print Assumptions C85_bound_arguments_dropped_refuted.

(** ** C86 *)

(** A valid target gives exactly the regions it stands for, whatever it is made of. *)
Theorem C86_regions_exact : forall order, (forall l, Permutation (order l) l) ->
  forall t s m l, normalize t = Ok s -> select order s m = Ok l -> forall x, In x l <-> matches m t x.
Proof. exact target_exact. Qed.
Print Assumptions C86_regions_exact.

(** Each once. *)
Theorem C86_regions_once : forall order, (forall l, Permutation (order l) l) ->
  forall t s m l, normalize t = Ok s -> select order s m = Ok l -> NoDup (modules m) -> plain t ->
  (forall q l, queries t q -> search m q = Ok l -> NoDup l) -> NoDup l.
Proof. exact target_once. Qed.
Print Assumptions C86_regions_once.

(** A module type, or a collection of them, gives the matching modules in the model's order. *)
Theorem C86_types_in_model_order : forall order m ts s l, ts <> [] ->
  normalize (TIter (map (fun t => TType t true) ts)) = Ok s -> select order s m = Ok l ->
  l = filter (fun x => existsb (isinst m x) ts) (modules m).
Proof.
  intros order m ts s l Nn N S. rewrite (normalize_types ts Nn) in N. injection N as <-. cbn [select] in S. now injection S as <-.
Qed.
Print Assumptions C86_types_in_model_order.

(** Exactly the valid targets are accepted; anything else is refused with a type error and
    nothing is registered. *)
Theorem C86_accepted : forall r a t f,
  (valid t -> exists r', register r a t f = Ok r') /\ (~ valid t -> register r a t f = Err TypeError).
Proof.
  intros r a t f. unfold register. destruct (normalize t) as [s|e] eqn:N; cbn [rbind]; split; intros H.
  - eexists. reflexivity.
  - exfalso. apply H. apply normalize_valid. now exists s.
  - apply normalize_valid in H. destruct H as [s H]. congruence.
  - now rewrite (normalize_error t e N).
Qed.
Print Assumptions C86_accepted.

(** Registering replaces the algorithm's entry and no other. *)
Theorem C86_register_replaces : forall order, (forall l, Permutation (order l) l) ->
  forall r a t f r', register r a t f = Ok r' ->
  (exists s, lookup r' (algorithm_key a) = Some (mkSpec a s f) /\
     forall m l, select order s m = Ok l -> forall x, In x l <-> matches m t x) /\
  forall k, k <> algorithm_key a -> lookup r' k = lookup r k.
Proof.
  intros order Ho r a t f r' R. unfold register in R. destruct (normalize t) as [s|] eqn:N; [|discriminate]. injection R as <-. split.
  - exists s. rewrite lookup_assign, Nat.eqb_refl. split; [reflexivity|]. intros m l S x. exact (target_exact order Ho t s m l N S x).
  - intros k D. rewrite lookup_assign. destruct (Nat.eqb_spec (algorithm_key a) k); [congruence|reflexivity].
Qed.
Print Assumptions C86_register_replaces.

(** Resolving succeeds when the named modules are in the model, the queries can be evaluated
    and something matches; a module that is not in the model or no match at all is an error. *)
Theorem C86_resolve_outcome : forall order, (forall l, Permutation (order l) l) ->
  forall r a t f r' m b, register r a t f = Ok r' -> algorithm_key b = algorithm_key a -> plain t ->
  (forall q, queries t q -> exists l, search m q = Ok l) ->
  ((exists x, names t x /\ ~ In x (modules m)) -> exists e, resolve order r' m (Some b) None = Err e) /\
  ((forall x, names t x -> In x (modules m)) ->
     ((exists x, matches m t x) -> exists subs, resolve order r' m (Some b) None = Ok subs) /\
     ((forall x, ~ matches m t x) -> resolve order r' m (Some b) None = Err NoTargetsFound)).
Proof.
  intros order Ho r a t f r' m b R K P Q. unfold register in R. destruct (normalize t) as [s|] eqn:N; [|discriminate]. injection R as <-.
  unfold resolve. rewrite lookup_assign, K, Nat.eqb_refl, resolve_one. cbn [sp_selector sp_fn sp_flows]. split.
  - intros (x & Nx & I). pose proof (select_missing order t s m x N Nx I) as M. destruct (select order s m) as [l|e]; [now destruct (M l)|].
    eexists. reflexivity.
  - intros Hn. destruct (select_total order t s m N P Hn Q) as [l S]. pose proof (target_exact order Ho t s m l N S) as X. rewrite S. split.
    + intros [x M]. destruct l as [|y l]; [exfalso; now apply (X x)|]. eexists. reflexivity.
    + intros M. destruct l as [|y l]; [reflexivity|]. exfalso. apply (M y). apply X. now left.
Qed.
Print Assumptions C86_resolve_outcome.

(** The arguments of [resolve]: exactly one of algorithm and specs, specs not empty, the
    algorithm registered. *)
Theorem C86_resolve_arguments : forall order r m a l,
  resolve order r m (Some a) (Some l) = Err TypeError /\ resolve order r m None None = Err TypeError /\
  resolve order r m None (Some []) = Err ValueError /\
  (lookup r (algorithm_key a) = None -> resolve order r m (Some a) None = Err NoTargetsFound).
Proof. intros order r m a l. repeat split. intros L. cbn [resolve]. now rewrite L. Qed.
Print Assumptions C86_resolve_arguments.

Example C86_nonvacuous :
  exists t s l, t = TIter [TQuery 0; TIter [TType 1 true; TModule 2]] /\ plain t /\ normalize t = Ok s /\
    NoDup (modules ex_model) /\ select (fun l => l) s ex_model = Ok l /\ l = [4; 1; 3; 2].
Proof.
  eexists _, _, _. split; [reflexivity|]. split.
  - constructor. intros t [<-|[<-|[]]]; [constructor|]. constructor. intros t [<-|[<-|[]]]; constructor.
  - split; [reflexivity|]. split; [|split; reflexivity]. cbn. repeat constructor; cbn; intuition congruence.
Qed.
