(** Properties C118 and C119: what tracing leaves behind. *)
From Coq Require Import String Ascii.
From Verif Require Import Prelude UniModel UniSpec UniTraceProofs.
Local Open Scope nat_scope.
Local Open Scope list_scope.

(** C118: Whether tracing succeeds or fails, every parameter and buffer of every module has the tensor it had, nothing else is
    registered, and the strict flag is as it was.  [capture] is user code and PyTorch's exporter; it gets the strict flag, the
    modules and the number of the next tensor.  Partial: the order of entries and transient buffers, see below. *)
Theorem C118_restored_partial :
  forall E G (capture : bool -> heap -> nat -> result E * (heap * nat)) (build : E -> result G) m ms s s' r,
    NoDup ms -> (forall x, In x ms -> module_ok (s_heap s x)) -> leaves_modules (capture false) -> trace capture build m ms s = (r, s') ->
    (forall x, In x ms -> same_tensors (s_heap s x) (s_heap s' x)) /\ (forall x, ~ In x ms -> s_heap s' x = s_heap s x) /\ s_strict s' = s_strict s.
Proof. intros E G capture build m ms s s' r H1 H2 H3 H4. exact (trace_restored capture build m ms s s' r H1 H2 H3 H4). Qed.
Print Assumptions C118_restored_partial.
(** C118: The exporter runs with the strict flag off, on modules with the same names and the same initialised tensors, and none that
    are not initialised; the result is the graph built of what it captures. *)
Theorem C118_captured :
  forall E G (capture : bool -> heap -> nat -> result E * (heap * nat)) (build : E -> result G) m ms s s' r,
    NoDup ms -> (forall x, In x ms -> module_ok (s_heap s x)) -> leaves_modules (capture false) -> trace capture build m ms s = (r, s') ->
    cached m (s_cache s) = None ->
    exists w1 n1, r = rbind (fst (capture false w1 n1)) build /\ (forall x, ~ In x ms -> w1 x = s_heap s x) /\
      forall x, In x ms -> stands_for (u_params (s_heap s x)) (u_params (w1 x)) /\ stands_for (u_buffers (s_heap s x)) (u_buffers (w1 x)) /\
        (untied (s_heap s x) -> initialised (w1 x)).
Proof. intros E G capture build m ms s s' r H1 H2 H3 H4. exact (trace_seen capture build m ms s s' r H1 H2 H3 H4). Qed.
Print Assumptions C118_captured.
(** C118: Exactly what changes: uninitialised tensors move to the end, and uninitialised transient buffers are not transient
    anymore. *)
Theorem C118_moved :
  forall E G (capture : bool -> heap -> nat -> result E * (heap * nat)) (build : E -> result G) m ms s s' r,
    NoDup ms -> (forall x, In x ms -> module_ok (s_heap s x)) -> leaves_modules (capture false) -> trace capture build m ms s = (r, s') ->
    cached m (s_cache s) = None -> forall x, In x ms -> untied (s_heap s x) ->
    u_params (s_heap s' x) = moved (u_params (s_heap s x)) /\ u_buffers (s_heap s' x) = moved (u_buffers (s_heap s x)) /\
    (forall k, In k (u_transient (s_heap s' x)) <-> In k (u_transient (s_heap s x)) /\ exists v, In (k, v) (u_buffers (s_heap s x)) /\ uninitialised (k, v) = false).
Proof. intros E G capture build m ms s s' r H1 H2 H3 H4. exact (trace_order capture build m ms s s' r H1 H2 H3 H4). Qed.
Print Assumptions C118_moved.
(** C118: Nothing moves if uninitialised tensors come last. *)
Theorem C118_last : forall l, last_ones l -> moved l = l.
Proof. exact moved_last. Qed.
Print Assumptions C118_last.

(** A quantizer, and a batch normalisation whose features are not known. *)
Definition w_quantizer : umod := mkU [("scale", Some (mkT 1 true)); ("offset", None)]%string [] [] ["num_bits"%string].
Definition w_norm : umod :=
  mkU [("weight", Some (mkT 2 true)); ("bias", Some (mkT 3 true))]%string
      [("running_mean", Some (mkT 4 true)); ("running_var", Some (mkT 5 true)); ("num_batches_tracked", Some (mkT 6 false))]%string [] ["quantizer"%string].
(** a transient buffer; two names for a parameter *)
Definition w_cache : umod := mkU [] [("cache"%string, Some (mkT 7 true))] ["cache"%string] [].
Definition w_tied : umod := mkU [("weight", Some (mkT 8 true)); ("embedding", Some (mkT 8 true))]%string [] [] [].
Definition w_heap : heap := fun m => match m with 0 => w_norm | 1 => w_quantizer | 2 => w_cache | 3 => w_tied | _ => mkU [] [] [] [] end.
(** an exporter that lists the tensors it finds and raises on uninitialised ones *)
Definition w_capture (ms : list nat) (strict : bool) (w : heap) (next : nat) : result (list (string * nat)) * (heap * nat) :=
  let l := flat_map (fun m => u_params (w m) ++ u_buffers (w m)) ms in
  (if strict then Err QuantizationError else if existsb uninitialised l then Err RuntimeError
   else Ok (flat_map (fun e => match snd e with Some t => [(fst e, t_id t)] | None => [] end) l), (w, next)).
Definition w_state : tstate (list (string * nat)) := mkS true w_heap 20 [].
Lemma w_leaves ms : leaves_modules (w_capture ms false).
Proof. intros w next m. reflexivity. Qed.
Lemma w_ok x : module_ok (w_heap x).
Proof.
  do 4 (destruct x as [|x]; [split; [cbn; repeat (constructor; [cbn; intuition discriminate|]); constructor|intros k; cbn; tauto]|]).
  split; [constructor|intros k []].
Qed.
Example C118_nonvacuous :
  (forall x, module_ok (w_heap x)) /\ leaves_modules (w_capture [0; 1] false) /\ untied w_norm /\ untied w_quantizer /\ untied w_cache /\
  ~ initialised w_norm /\ last_ones (u_params w_norm) /\
  fst (trace (w_capture [0; 1]) Ok 0 [0; 1] w_state) =
    Ok [("weight", 20); ("bias", 21); ("num_batches_tracked", 6); ("running_mean", 22); ("running_var", 23); ("scale", 24)]%string /\
  fst (trace (w_capture [0; 1]) (fun _ => @Err nat GraphError) 0 [0; 1] (mkS true w_heap 20 [])) = Err GraphError /\
  s_heap (snd (trace (w_capture [0; 1]) Ok 0 [0; 1] w_state)) 1 = mkU [("offset", None); ("scale", Some (mkT 1 true))]%string [] [] ["num_bits"%string].
Proof.
  assert (U : forall u, (forall k k' t t', In (k, Some t) (u_params u) -> In (k', Some t') (u_params u) -> t_id t = t_id t' -> k = k') ->
    (forall k k' t t', In (k, Some t) (u_buffers u) -> In (k', Some t') (u_buffers u) -> t_id t = t_id t' -> k = k') -> untied u).
  { intros u A B. split; intros k k' t t' H H' E _; eauto. }
  split; [exact w_ok|]. split; [apply w_leaves|].
  assert (T : untied w_norm /\ untied w_quantizer /\ untied w_cache).
  { repeat apply conj; apply U; cbn; intros k k' t t' H H' E;
      repeat match goal with X : _ \/ _ |- _ => destruct X as [X|X] end; try contradiction;
      try discriminate H; try discriminate H'; injection H as <- <-; injection H' as <- <-; first [reflexivity|discriminate E]. }
  destruct T as (T1 & T2 & T3). split; [exact T1|]. split; [exact T2|]. split; [exact T3|].
  split; [intros K; specialize (K ("weight"%string, Some (mkT 2 true)) (or_introl eq_refl)); discriminate|].
  split; [exists [], (u_params w_norm); split; [reflexivity|]; split; [intros e []|cbn; intros e [<-|[<-|[]]]; reflexivity]|].
  split; [vm_compute; reflexivity|]. split; vm_compute; reflexivity.
Qed.
(** C118: The order of buffers of a batch normalisation changes. *)
Theorem C118_order_refuted :
  fst (trace (w_capture [0]) Ok 0 [0] w_state) = Ok [("weight", 20); ("bias", 21); ("num_batches_tracked", 6); ("running_mean", 22); ("running_var", 23)]%string /\
  map fst (u_buffers (s_heap w_state 0)) = ["running_mean"; "running_var"; "num_batches_tracked"]%string /\
  map fst (u_buffers (s_heap (snd (trace (w_capture [0]) Ok 0 [0] w_state)) 0)) = ["num_batches_tracked"; "running_mean"; "running_var"]%string.
Proof. vm_compute. repeat split. Qed.
Print Assumptions C118_order_refuted.
(** C118: A transient uninitialised buffer becomes part of the state dictionary. *)
Theorem C118_transient_refuted :
  fst (trace (w_capture [2]) Ok 0 [2] w_state) = Ok [("cache"%string, 20)] /\
  u_transient (s_heap w_state 2) = ["cache"%string] /\ u_transient (s_heap (snd (trace (w_capture [2]) Ok 0 [2] w_state)) 2) = [].
Proof. vm_compute. repeat split. Qed.
Print Assumptions C118_transient_refuted.
(** C118: A parameter with two names stays uninitialised under the second, and the exporter fails. *)
Theorem C118_tied_refuted : module_ok w_tied /\ fst (trace (w_capture [3]) Ok 0 [3] w_state) = Err RuntimeError.
Proof. split; [exact (w_ok 3)|]. vm_compute. reflexivity. Qed.
Print Assumptions C118_tied_refuted.

(** C119: After any history of tracing, a module that was traced successfully gives the graph it gave first, without any effect; one that was not is
    captured, whatever happened to others; the strict flag is as it was. *)
Theorem C119_history :
  forall E G (l : list (event E G)) s rs s1 m ms (capture : bool -> heap -> nat -> result E * (heap * nat)) (build : E -> result G),
    cached m (s_cache s) = None -> (forall m', In (Destroyed m') l -> m' <> m) -> run l s = (rs, s1) ->
    s_strict s1 = s_strict s /\
    match first_graph m rs with
    | Some g => trace capture build m ms s1 = (Ok g, s1)
    | None => exists s2, trace capture build m ms s1 = (rbind (fst (with_placeholders ms (capture false) (s_heap s1) (s_next s1))) build, s2)
    end.
Proof. intros E G l s rs s1 m ms capture build. exact (trace_history l s rs s1 m ms capture build). Qed.
Print Assumptions C119_history.
(** C119: Graphs do not outlive their modules in the cache. *)
Theorem C119_forgotten :
  forall E G m (s : tstate G) rs s', run [@Destroyed E G m] s = (rs, s') -> cached m (s_cache s') = None /\ forall x, x <> m -> cached x (s_cache s') = cached x (s_cache s).
Proof. intros E G m s rs s'. exact (destroyed_forgotten m s rs s'). Qed.
Print Assumptions C119_forgotten.
Definition w_history : list (event (list (string * nat)) (list (string * nat))) :=
  [Traced 3 [3] (w_capture [3]) Ok; Traced 0 [0] (w_capture [0]) (fun _ => Err GraphError); Traced 0 [0; 1] (w_capture [1]) Ok; Traced 0 [0] (w_capture [0]) Ok; Destroyed 5].
Example C119_nonvacuous :
  (forall m', In (Destroyed m') w_history -> m' <> 0) /\ cached 0 (s_cache w_state) = None /\
  map snd (fst (run w_history w_state)) = [Err RuntimeError; Err GraphError; Ok [("scale"%string, 29)]; Ok [("scale"%string, 29)]] /\
  first_graph 0 (fst (run w_history w_state)) = Some [("scale"%string, 29)] /\ first_graph 3 (fst (run w_history w_state)) = None.
Proof.
  split; [intros m' H; cbn in H; repeat (destruct H as [H|H]; [try discriminate; injection H as <-; discriminate|]); destruct H|].
  split; [reflexivity|]. split; [vm_compute; reflexivity|]. split; vm_compute; reflexivity.
Qed.
(** C119: So the graph need not be one for the given inputs: what is captured now is not looked at. *)
Theorem C119_inputs_refuted :
  exists c1 c2 : bool -> heap -> nat -> result nat * (heap * nat),
    let s := mkS true w_heap 20 [] in
    fst (trace c1 Ok 0 [0] s) = Ok 1 /\ fst (trace c2 Ok 0 [0] (snd (trace c1 Ok 0 [0] s))) = Ok 1 /\ fst (trace c2 Ok 0 [0] s) = Ok 2.
Proof. exists (fun _ w n => (Ok 1, (w, n))), (fun _ w n => (Ok 2, (w, n))). vm_compute. repeat split. Qed.
Print Assumptions C119_inputs_refuted.
