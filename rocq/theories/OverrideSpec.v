(** Specification vocabulary for overrides: decorators, in the usual sense. *)
From Verif Require Import Prelude OverrideModel.

Section Decorate.
  Context {V S : Type}.
  (** An override applied to the function it wraps. *)
  Fixpoint interp (next : V -> S -> result V * S) (b : beh V S) (s : S) : result V * S :=
    match b with
    | BRet r => (r, s)
    | BCall a k => let (r, s') := next a s in interp next (k r) s'
    | BGet k => interp next (k s) s
    | BPut s' b' => interp next b' s'
    end.
  (** [decorated [o1; ...; on] f] is [on (... (o1 f))]: the last (newest) is outermost. *)
  Definition decorated (os : list (V -> beh V S)) (f : V -> S -> result V * S) : V -> S -> result V * S :=
    fold_left (fun g o => fun a s => interp g (o a) s) os f.

  (** The override calls the wrapped function at most [n] times. *)
  Fixpoint calls_at_most (n : nat) (b : beh V S) : Prop :=
    match b with
    | BRet _ => True
    | BCall _ k => match n with 0 => False | Datatypes.S n' => forall r, calls_at_most n' (k r) end
    | BGet k => forall s, calls_at_most n (k s)
    | BPut _ b' => calls_at_most n b'
    end.
End Decorate.

(** Live overrides after a history, oldest first: time, quantizer, override. *)
Record olive (O : Type) := mkOL { ocount : nat; olist : list (nat * nat * O) }.
Arguments mkOL {O}. Arguments ocount {O}. Arguments olist {O}.
Definition olive_step {O} (s : olive O) (h : hop_ O) : olive O :=
  match h with
  | HRegister q o => mkOL (S (ocount s)) (olist s ++ [(ocount s, q, o)])
  | HRemove k => mkOL (ocount s) (filter (fun t => negb (fst (fst t) =? k)) (olist s))
  end.
Definition olive_after {O} (h : list (hop_ O)) : olive O := fold_left olive_step h (mkOL 0 []).
Definition live_overrides {O} (h : list (hop_ O)) (q : nat) : list O :=
  map snd (filter (fun t => snd (fst t) =? q) (olist (olive_after h))).

(** User overrides among a quantizer's overrides, oldest first. *)
Fixpoint user_overrides {V S} (l : list (nat * ovr V S)) : list (nat * (V -> beh V S)) :=
  match l with
  | [] => []
  | (i, Dis _) :: l' => user_overrides l'
  | (i, User f) :: l' => (i, f) :: user_overrides l'
  end.

(** A disable/enable world that histories can produce: handle ids below the counter, in
    increasing order; disable-objects below their counter. *)
Definition dwf {V S} (w : dworld V S) : Prop :=
  forall q, (forall i o, In (i, o) (omap (dw w) q) -> i < octr (dw w)) /\
            (forall i d, In (i, Dis d) (omap (dw w) q) -> d < dnext w) /\
            (forall a b x y, a < b -> nth_error (map fst (omap (dw w) q)) a = Some x ->
                                      nth_error (map fst (omap (dw w) q)) b = Some y -> x < y).

(** Two worlds in which every quantizer behaves alike (given the same state). *)
Definition behaves_alike {V S} (base : nat -> V -> S -> result V * S) (w w' : dworld V S) : Prop :=
  forall q x s, dforward base (set_st w s) q x = dforward base (set_st w' s) q x.

(** Lexical reading of nested blocks: which quantizers are disabled, strict flag. *)
Section Lexical.
  Context {V S : Type} (user_forward : nat -> V -> S -> result V * S).
  Fixpoint olexical (disabled : nat -> bool) (strict : bool) (s : S) (p : oprog V)
      : list (result V * bool) * bool * S :=
    match p with
    | ODone => ([], false, s)
    | ORaise => ([], true, s)
    | OForward q x rest =>
        let (r, s1) := if disabled q then (Ok x, s) else user_forward q x s in
        match r with
        | Err _ => ([(r, strict)], true, s1)
        | Ok _ => let '(l, e, s2) := olexical disabled strict s1 rest in ((r, strict) :: l, e, s2)
        end
    | ODisable model body rest =>
        let '(l1, e1, s1) := olexical (fun q => existsb (Nat.eqb q) model || disabled q) false s body in
        if e1 then (l1, true, s1)
        else let '(l2, e2, s2) := olexical disabled strict s1 rest in (l1 ++ l2, e2, s2)
    | OEnable model body rest =>
        let '(l1, e1, s1) := olexical (fun q => negb (existsb (Nat.eqb q) model) && disabled q) strict s body in
        if e1 then (l1, true, s1)
        else let '(l2, e2, s2) := olexical disabled strict s1 rest in (l1 ++ l2, e2, s2)
    end.
End Lexical.
