(** C95 and C96. *)
From Verif Require Import Prelude ThrModel ThrSpec ThrProofs.
Local Open Scope nat_scope.
Local Open Scope list_scope.

(** The calls quantizers are threaded through are those of helper functions: functions, static and class methods. *)
Theorem C95_calls : forall p f g, In g (callees p (fn_at p f)) <-> calls p f g.
Proof. exact callees_calls. Qed.
Print Assumptions C95_calls.

(** Whatever the program, if autoquant ends: a call passes only parameters the callee has, none twice, and the
    values are parameters of the caller, or quantizers of the instance if the caller is a method. *)
Theorem C95_known_parameters : forall fuel p st, well_made p -> propagate fuel p (start p) = Some st ->
  forall f i g, nth_error (callees p (fn_at p f)) i = Some g ->
  NoDup (map fst (passed p st f i g)) /\ incl (map fst (passed p st f i g)) (signature p st g) /\
  forall x y, In (x, FromParam y) (passed p st f i g) -> f_method (fn_at p f) = false /\ In y (signature p st f).
Proof. exact passed_sound. Qed.
Print Assumptions C95_known_parameters.

(** Partial: no calls in circles; a function called by a helper that is itself called calls no helper twice.
    Every call passes every parameter of the callee exactly once. *)
Theorem C95_every_parameter_partial : forall fuel p st, well_made p -> acyclic p -> (forall f g, called p f -> calls p f g -> calls_once p g) ->
  propagate fuel p (start p) = Some st ->
  forall f i g, nth_error (callees p (fn_at p f)) i = Some g -> map fst (passed p st f i g) = signature p st g /\ NoDup (signature p st g).
Proof.
  intros fuel p st W [rank R] O P f i g E. destruct (propagate_solved fuel p _ st (start_shaped p) P) as [Sh So]. split; [|apply signature_nodup; exact W].
  apply map_fst_combine. symmetry. apply (acyclic_complete p st rank R W Sh So O f i g E).
Qed.
Print Assumptions C95_every_parameter_partial.

(** Partial, as above: on every call path from a method, every quantizer of the function reached is bound to one of
    the instance. *)
Theorem C95_bound_partial : forall fuel p st, well_made p -> acyclic p -> (forall f g, called p f -> calls p f g -> calls_once p g) ->
  propagate fuel p (start p) = Some st ->
  forall m path g e r, method p m -> run_path p st m no_env path = Some (g, e) -> In r (locals (fn_at p g)) -> exists o, e (Own r) = Some o.
Proof.
  intros fuel p st W [rank R] O P. destruct (propagate_solved fuel p _ st (start_shaped p) P) as [Sh So].
  intros m path g e r. apply (from_method_defined p st rank R W Sh So (acyclic_complete p st rank R W Sh So O)).
Qed.
Print Assumptions C95_bound_partial.

(** Partial, as above: no two call paths share a quantizer. *)
Theorem C95_not_shared_partial : forall fuel p st, well_made p -> acyclic p -> (forall f g, called p f -> calls p f g -> calls_once p g) ->
  propagate fuel p (start p) = Some st ->
  forall m1 m2 path1 path2 g1 e1 g2 e2 r1 r2 o, method p m1 -> method p m2 ->
  run_path p st m1 no_env path1 = Some (g1, e1) -> run_path p st m2 no_env path2 = Some (g2, e2) ->
  In r1 (locals (fn_at p g1)) -> In r2 (locals (fn_at p g2)) -> e1 (Own r1) = Some o -> e2 (Own r2) = Some o ->
  m1 = m2 /\ path1 = path2 /\ r1 = r2.
Proof.
  intros fuel p st W [rank R] O P. destruct (propagate_solved fuel p _ st (start_shaped p) P) as [Sh So].
  intros m1 m2 path1 path2 g1 e1 g2 e2 r1 r2 o. apply (from_method_distinct p st rank R W Sh So (acyclic_complete p st rank R W Sh So O)).
Qed.
Print Assumptions C95_not_shared_partial.

(** f calls g and h, g calls h twice, h uses two quantizers; the methods call g twice, and f. *)
Definition ex_prog : list fn :=
  [mkFn false [0] [1; 2]; mkFn false [] [2; 7; 3]; mkFn false [1; 2] []; mkFn true [3] [1; 1]; mkFn true [] [4; 0]].
Lemma ex_calls : forall f g, calls ex_prog f g -> In (f, g) [(0, 1); (0, 2); (1, 2); (3, 1); (4, 0)].
Proof.
  intros f g (d & E & I & (d' & E' & M)).
  do 5 (destruct f as [|f]; [injection E as <-; cbn in I; repeat (destruct I as [<-|I]; [try (cbn; tauto); cbn in E'; try discriminate; injection E' as <-; discriminate|]); contradiction|]).
  destruct f; discriminate.
Qed.
Example C95_nonvacuous : well_made ex_prog /\ acyclic ex_prog /\ (forall f g, called ex_prog f -> calls ex_prog f g -> calls_once ex_prog g) /\
  exists st, propagate 9 ex_prog (start ex_prog) = Some st /\ signature ex_prog st 0 = [Own 0; For 0 0; For 0 1; For 1 0; For 1 1] /\
    length (passed ex_prog st 3 1 1) = 2 /\ (exists e, run_path ex_prog st 4 no_env [0; 0; 0] = Some (2, e) /\ e (Own 2) = Some (Object 4 0 2)).
Proof.
  split; [|split; [|split]].
  - intros d I. cbn in I. repeat (destruct I as [<-|I]; [repeat constructor; cbn; intuition discriminate|]). contradiction.
  - exists (fun f => nth f [2; 1; 0; 2; 3] 0). intros f g C. apply ex_calls in C. cbn in C. repeat (destruct C as [C|C]; [injection C as <- <-; cbn; lia|]). contradiction.
  - intros f g _ C. apply ex_calls in C. intros d i j h E Ei Ej (d' & Eh & M). cbn in C.
    repeat (destruct C as [C|C]; [injection C as <- <-; cbn in E; injection E as <-; cbn in Ei, Ej;
      repeat (destruct i as [|i]; cbn in Ei; try discriminate); repeat (destruct j as [|j]; cbn in Ej; try discriminate); try reflexivity; congruence|]). contradiction.
  - eexists. split; [vm_compute; reflexivity|]. split; [vm_compute; reflexivity|]. split; [vm_compute; reflexivity|]. eexists. split; [reflexivity | vm_compute; reflexivity].
Qed.

(** The claim fails if a function three calls away from a method is called twice: forward calls f, f calls g, g
    calls h twice and h uses a quantizer.  f has two parameters, forward passes one, so that one use of h has no
    quantizer (the call raises). *)
Definition twice_prog : list fn := [mkFn false [] [1]; mkFn false [] [2; 2]; mkFn false [0] []; mkFn true [] [0]].
Theorem C95_twice_refuted : exists p st, well_made p /\ acyclic p /\ propagate 9 p (start p) = Some st /\
  (exists f i g, nth_error (callees p (fn_at p f)) i = Some g /\ map fst (passed p st f i g) <> signature p st g) /\
  exists m path g e r, method p m /\ run_path p st m no_env path = Some (g, e) /\ In r (locals (fn_at p g)) /\ e (Own r) = None.
Proof.
  exists twice_prog. eexists. split; [|split; [|split; [vm_compute; reflexivity|split]]].
  - intros d I. cbn in I. repeat (destruct I as [<-|I]; [repeat constructor; cbn; intuition discriminate|]). contradiction.
  - exists (fun f => nth f [2; 1; 0; 3] 0). intros f g (d & E & I & _).
    do 4 (destruct f as [|f]; [injection E as <-; cbn in I; repeat (destruct I as [<-|I]; [cbn; lia|]); contradiction|]). destruct f; discriminate.
  - exists 3, 0, 0. split; [reflexivity|]. vm_compute. discriminate.
  - exists 3, [0; 0; 1]. eexists. eexists. exists 0. split; [eexists; split; reflexivity|]. split; [reflexivity|]. split; [left; reflexivity | vm_compute; reflexivity].
Qed.
Print Assumptions C95_twice_refuted.

(** Partial: if no calls go in circles, threading ends. *)
Theorem C96_ends_partial : forall p, acyclic p -> exists fuel st, propagate fuel p (start p) = Some st.
Proof. intros p [rank R]. exact (propagation_ends p rank R). Qed.
Print Assumptions C96_ends_partial.

(** The claim fails for functions that call each other: c calls b, b calls a and h, a calls c and h, h uses a
    quantizer.  Autoquant does not end: the order in which b and a forward the quantizer of h changes in every
    round. *)
Definition circle_prog : list fn := [mkFn false [] [1]; mkFn false [] [2; 3]; mkFn false [] [0; 3]; mkFn false [0] []; mkFn true [] [0]].
Fixpoint rounds (n : nat) (p : list fn) (st : state) : state := match n with 0 => st | S n => rounds n p (fst (round p st)) end.
Lemma circle_turns : forall n, propagate n circle_prog (rounds 5 circle_prog (start circle_prog)) = None /\ propagate n circle_prog (rounds 6 circle_prog (start circle_prog)) = None.
Proof.
  assert (A : round circle_prog (rounds 5 circle_prog (start circle_prog)) = (rounds 6 circle_prog (start circle_prog), true)) by (vm_compute; reflexivity).
  assert (B : round circle_prog (rounds 6 circle_prog (start circle_prog)) = (rounds 5 circle_prog (start circle_prog), true)) by (vm_compute; reflexivity).
  induction n as [|n [I J]]; [split; reflexivity|]. cbn [propagate]. rewrite A, B. auto.
Qed.
Theorem C96_circle_refuted : exists p, well_made p /\ forall fuel, propagate fuel p (start p) = None.
Proof.
  exists circle_prog. split.
  - intros d I. cbn in I. repeat (destruct I as [<-|I]; [repeat constructor; cbn; intuition discriminate|]). contradiction.
  - intros fuel. do 5 (destruct fuel as [|fuel]; [vm_compute; reflexivity|]).
    assert (E : propagate (S (S (S (S (S fuel))))) circle_prog (start circle_prog) = propagate fuel circle_prog (rounds 5 circle_prog (start circle_prog))).
    { assert (S1 : forall n st st', round circle_prog st = (st', true) -> propagate (S n) circle_prog st = propagate n circle_prog st') by (intros n st st' R; cbn [propagate]; rewrite R; reflexivity).
      do 5 (erewrite S1; [|vm_compute; reflexivity]). reflexivity. }
    rewrite E. apply circle_turns.
Qed.
Print Assumptions C96_circle_refuted.
