(** Specification vocabulary for flag blocks: an environment semantics in which a block
    changes the flag for its body only. *)
From Verif Require Import Prelude FlagsModel.

(** Programs without stored context objects. *)
Fixpoint plain (p : fprog) : Prop :=
  match p with
  | FDone | FRaise => True
  | FGet _ rest | FSet _ _ rest => plain rest
  | FWith _ _ body rest => plain body /\ plain rest
  | FNew _ _ _ _ | FWithVar _ _ _ => False
  end.
(** ... and without bare setter calls. *)
Fixpoint blocks_only (p : fprog) : Prop :=
  match p with
  | FDone | FRaise => True
  | FGet _ rest => blocks_only rest
  | FWith _ _ body rest => blocks_only body /\ blocks_only rest
  | _ => False
  end.

(** Lexical reading: the value a getter sees is the value requested by the innermost
    enclosing block on that flag, or the value outside all blocks. Returns the log and
    whether the program raises. *)
Fixpoint lexical (env : nat -> bool) (p : fprog) : list (nat * bool) * bool :=
  match p with
  | FDone => ([], false)
  | FRaise => ([], true)
  | FGet f rest => let (l, e) := lexical env rest in ((f, env f) :: l, e)
  | FWith f v body rest =>
      let (l1, e1) := lexical (fun g => if g =? f then v else env g) body in
      if e1 then (l1, true) else let (l2, e2) := lexical env rest in (l1 ++ l2, e2)
  | _ => ([], true)
  end.

(** Call trees in which the flag seen inside a module is lexically determined: the module's
    requested mode if it has one, the caller's value otherwise. *)
Fixpoint lexical_calls (mode : nat -> option bool) (flag : bool) (p : ctree) : list bool * bool :=
  match p with
  | TDone => ([], false)
  | TRaise => ([], true)
  | TObs rest => let (l, e) := lexical_calls mode flag rest in (flag :: l, e)
  | TCall m body rest =>
      let (l1, e1) := lexical_calls mode (match mode m with Some v => v | None => flag end) body in
      if e1 then (l1, true)
      else let (l2, e2) := lexical_calls mode flag rest in (l1 ++ l2, e2)
  end.

(** Module [m] is called somewhere in the tree. *)
Fixpoint calls (m : nat) (p : ctree) : Prop :=
  match p with
  | TDone | TRaise => False
  | TObs rest => calls m rest
  | TCall m' body rest => m' = m \/ calls m body \/ calls m rest
  end.
(** No module is called, directly or indirectly, from within its own forward. *)
Fixpoint non_reentrant (p : ctree) : Prop :=
  match p with
  | TDone | TRaise => True
  | TObs rest => non_reentrant rest
  | TCall m body rest => ~ calls m body /\ non_reentrant body /\ non_reentrant rest
  end.
Fixpoint raises (p : ctree) : Prop :=
  match p with
  | TDone => False
  | TRaise => True
  | TObs rest => raises rest
  | TCall _ body rest => raises body \/ raises rest
  end.

(** At most one attachment per module. *)
Definition single (s : sstate) : Prop := forall m, sattached s m = [] \/ exists h, sattached s m = [h].
(** The mode requested for a module, if any. *)
Definition mode_of (s : sstate) (m : nat) : option bool :=
  match sattached s m with [] => None | h :: _ => Some (smode s h) end.

(** Properly nested traces restore: [nested l] generated by blocks. *)
Inductive nested : list nat -> list fevent -> Prop :=
| N_nil bs : nested bs []
| N_block bs b f v l1 l2 : ~ In b bs -> nested (b :: bs) l1 -> nested bs l2 ->
    nested bs (EEnter b f v :: l1 ++ EExit b :: l2).
