(** C19, C20, C21: forward overrides, disabling/enabling quantization, freezing parameters. *)
From Verif Require Import Prelude OverrideModel OverrideSpec OverrideProofs.

(** C19: after any history of registrations and removals on any number of quantizers, a
    quantizer's forward is its own [quantize] decorated with exactly the live overrides,
    newest outermost (for overrides that call their callback at most once per call). *)
Theorem C19_forward_is_decorated :
  forall (V S O : Type) (sem : O -> V -> beh V S) base (h : list (hop_ O)) (q : nat) (a : V) (s : S),
    (forall o, In o (live_overrides h q) -> forall x, calls_at_most 1 (sem o x)) ->
    forward sem base (omap (fst (hrun h)) q) a s = decorated (map sem (live_overrides h q)) base a s.
Proof. exact @forward_decorated. Qed.
Print Assumptions C19_forward_is_decorated.

Definition ex_add (n : nat) : nat -> beh nat nat := fun x => BCall (x + n) BRet.
Definition ex_mul (n : nat) : nat -> beh nat nat := fun x => BCall x (fun r => BRet (rmap (fun y => y * n) r)).
Definition ex_hist : list (hop_ (nat -> beh nat nat)) :=
  [HRegister 0 (ex_add 1); HRegister 1 (ex_mul 9); HRegister 0 (ex_mul 2); HRegister 0 (ex_add 100);
   HRemove 3; HRegister 0 (ex_add 5); HRemove 0; HRemove 0].
Example C19_nonvacuous :
  (forall o, In o (live_overrides ex_hist 0) -> forall x, calls_at_most 1 (o x)) /\
  forward (fun o => o) (fun a s => (Ok (a * 10), S s)) (omap (fst (hrun ex_hist)) 0) 1 0 = (Ok 120, 1).
Proof. split; [|reflexivity]. simpl. intros o [<-|[<-|[]]] x; simpl; auto. Qed.

(** An override that calls its callback twice bypasses the remaining overrides the second
    time: it does not behave as a decorator. *)
Theorem C19_second_call_refuted :
  exists (o1 o2 : nat -> beh nat unit),
    let base := fun a s => (Ok a, s) in
    fst (forward (fun o => o) base [(0, o1); (1, o2)] 5 tt) = Ok 5 /\
    fst (decorated [o1; o2] base 5 tt) = Ok 6.
Proof. exists add_one, twice. exact twice_witness. Qed.
Print Assumptions C19_second_call_refuted.

(** C20: after any program of nested disable/enable blocks and quantizer calls, normal or
    exceptional, started in any reachable world, the strict flag is as before and every
    quantizer behaves as before. *)
Theorem C20_program_restores :
  forall (V S : Type) (base : nat -> V -> S -> result V * S) (p : oprog V) (w : dworld V S),
    dwf w ->
    let w' := owd (oexec base w p) in
    dwf w' /\ dstrict w' = dstrict w /\ behaves_alike base w' w /\
    (forall q, omap (dw w') q = omap (dw w) q).
Proof.
  intros V S base p w H. pose proof (oexec_restores base p w H) as R. cbn zeta.
  split; [eapply restored_dwf; eassumption|]. split; [exact (proj1 (proj2 R))|].
  split; [eapply restored_alike; eassumption|]. exact (proj1 R).
Qed.
Print Assumptions C20_program_restores.

(** Calls inside blocks: the innermost block that mentions the quantizer decides. If it is
    a disable block the input is passed through, untouched and without running any
    override; otherwise the quantizer behaves as if it had only the user's overrides. The
    strict flag seen is that of the innermost disable block. *)
Theorem C20_blocks_are_lexical :
  forall (V S : Type) (base : nat -> V -> S -> result V * S) (w : dworld V S) (p : oprog V),
    dwf w -> (forall q i d, ~ In (i, Dis d) (omap (dw w) q)) ->
    let r := oexec base w p in
    (olog r, oexc r, dst (owd r)) =
    olexical (fun q => forward (fun o => o) (base q) (user_overrides (omap (dw w) q)))
             (fun _ => false) (dstrict w) (dst w) p.
Proof. exact @program_lexical. Qed.
Print Assumptions C20_blocks_are_lexical.

(** Even in a world where disable-overrides are already present (shared or re-enabled), a
    quantizer of the model passes its input through right after entering the block. *)
Theorem C20_disabled_passes_through :
  forall (V S : Type) (base : nat -> V -> S -> result V * S) (w : dworld V S) model w1 hs q x,
    dwf w -> disable_all w model = (w1, hs) -> In q model ->
    dforward base w1 q x = (Ok x, dst w1).
Proof. exact @disabled_passes_through. Qed.
Print Assumptions C20_disabled_passes_through.

Definition ex_base : nat -> nat -> nat -> result nat * nat :=
  fun q x s => if x =? 99 then (Err ValueError, s) else (Ok (x * 10 + q), S s).
Definition ex_world : dworld nat nat :=
  mkDW (mkOW 3 (fun q => if q =? 1 then [(2, User (ex_add 1))] else [])) (fun _ => false) 0 true 0.
Definition ex_oprog : oprog nat :=
  OForward 1 1 (ODisable [0; 1] (OForward 1 1 (OEnable [1; 2] (OForward 1 1 (OForward 0 3 ODone)) (OForward 1 4 ODone)))
    (OForward 1 1 (ODisable [0] (OForward 0 7 (OForward 1 98 ODone)) (OForward 0 0 ODone)))).
Example C20_nonvacuous :
  dwf ex_world /\ (forall q i d, ~ In (i, Dis d) (omap (dw ex_world) q)) /\
  olog (oexec ex_base ex_world ex_oprog) =
    [(Ok 21, true); (Ok 1, false); (Ok 21, false); (Ok 3, false); (Ok 4, false); (Ok 21, true);
     (Ok 7, false); (Err ValueError, false)] /\
  oexc (oexec ex_base ex_world ex_oprog) = true.
Proof.
  split; [|split; [|split; reflexivity]].
  - intros q. simpl. destruct (q =? 1); simpl; (split; [|split]).
    + intros i o [H|[]]. injection H as <- <-. lia.
    + intros i d [H|[]]. discriminate.
    + intros [|[|a]] [|[|b]] x y Hab; simpl; try lia; discriminate.
    + intros i o [].
    + intros i d [].
    + intros [|a] b x y _; discriminate.
  - intros q i d. simpl. destruct (q =? 1); simpl; [|tauto]. intros [H|[]]. discriminate.
Qed.

(** C21 fails: the overrides are still there after the block. Calling a quantizer that was
    not called inside the block overwrites the parameter afterwards and returns the
    parameter itself instead of a quantized tensor. *)
Theorem C21_ends_refuted :
  exists base (w : oworld (tv nat -> beh (tv nat) (fstore nat))) s,
    let (w1, hooks) := freeze_enter w [0] false in
    let w2 := freeze_exit w1 hooks in
    slot_call base w 0 (TParam 3) s = (Ok (TQuantized 6), s) /\
    fst (slot_call base w2 0 (TParam 3) s) = Ok (TParam 3) /\
    params s 3 = 7 /\ params (snd (slot_call base w2 0 (TParam 3) s)) 3 = 6.
Proof. exists fbase, fworld0, fstore0. repeat split. Qed.
Print Assumptions C21_ends_refuted.

(** An activation quantizer used in the block is replaced by a stub although no parameter
    of it was frozen. *)
Theorem C21_activation_refuted :
  exists base (w : oworld (tv nat -> beh (tv nat) (fstore nat))) s,
    let (w1, hooks) := freeze_enter w [0] true in
    let r := slot_call base w1 0 (TTensor 9 7) s in
    fst r = Ok (TTensor 9 7) /\ stubbed (snd r) 0 = true /\ params (snd r) = params s.
Proof. exists fbase, fworld0, fstore0. exact freeze_activation_witness. Qed.
Print Assumptions C21_activation_refuted.

(** What does hold: a parameter quantizer called in the block leaves exactly its quantized
    value in its parameter, touches no other parameter, and afterwards the slot returns the
    frozen parameter unchanged. *)
Theorem C21_frozen_partial :
  forall (D : Type) (base : nat -> tv D -> fstore D -> result (tv D) * fstore D) (qv : D -> D)
         w q p s n (other : nat -> list (nat * (tv D -> beh (tv D) (fstore D)))),
    (forall s', base q (TParam p) s' = (Ok (TQuantized (qv (params s' p))), s')) ->
    w = mkOW n other -> other q = [] -> stubbed s q = false ->
    let (w1, hooks) := freeze_enter w [q] true in
    let (r, s1) := slot_call base w1 q (TParam p) s in
    r = Ok (TParam p) /\ params s1 p = qv (params s p) /\
    (forall p', p' <> p -> params s1 p' = params s p') /\
    slot_call base (freeze_exit w1 hooks) q (TParam p) s1 = (Ok (TParam p), s1).
Proof. exact @freeze_frozen. Qed.
Print Assumptions C21_frozen_partial.

Example C21_nonvacuous :
  (forall s', fbase 4 (TParam 3) s' = (Ok (TQuantized (2 * (params s' 3 / 2))), s')) /\
  stubbed fstore0 4 = false /\ params fstore0 3 = 7.
Proof. repeat split. Qed.
