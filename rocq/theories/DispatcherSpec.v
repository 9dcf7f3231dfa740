(** Specification vocabulary for the dispatcher: what a history of registrations means,
    independently of how the table is kept. *)
From Verif Require Import Prelude DispatcherModel.

(** A registration: when it happened (position among registrations), for which operator. *)
Record reg := mkReg { time : nat; rop : nat; rpred : pobj; rfn : nat; rprio : priority }.

(** The registrations that are live after a history, oldest first: a registration adds
    itself, leaving the hook of registration [k] takes registration [k] away. *)
Record live_state := mkL { count : nat; all_regs : list reg; live : list reg }.
Definition live_step (s : live_state) (o : dop) : live_state :=
  match o with
  | DRegister op p k pr =>
      let r := mkReg (count s) op (match p with Some n => UserP n | None => TrueP (count s) end) k pr in
      mkL (S (count s)) (all_regs s ++ [r]) (live s ++ [r])
  | DExit k => mkL (count s) (all_regs s) (filter (fun r => negb (time r =? k)) (live s))
  end.
Definition live_after (h : list dop) : live_state := fold_left live_step h (mkL 0 [] []).

(** [r] is at least as good a choice as [r']: better priority, or same priority and not
    registered earlier. *)
Definition preferred (r r' : reg) : Prop :=
  pnum (rprio r) < pnum (rprio r') \/ (rprio r = rprio r' /\ time r' <= time r).

(** What [dispatch op a] may answer when the live registrations are [L]. *)
Definition right_answer {Args} (heap : nat -> pexpr Args) (L : list reg) (op : nat) (a : Args)
    (answer : result (option nat)) : Prop :=
  match answer with
  | Ok (Some k) =>
      exists r, In r L /\ rop r = op /\ rfn r = k /\ pcall heap (rpred r) a = Ok true /\
        forall r', In r' L -> rop r' = op -> pcall heap (rpred r') a = Ok true -> preferred r r'
  | Ok None => forall r, In r L -> rop r = op -> pcall heap (rpred r) a = Ok false
  | Err e =>
      exists r, In r L /\ rop r = op /\ pcall heap (rpred r) a = Err e /\
        forall r', In r' L -> rop r' = op -> pcall heap (rpred r') a = Ok true -> preferred r r'
  end.

(** The same kernel registered for the same operator under the same predicate object and
    priority. *)
Definition same_registration (r r' : reg) : Prop :=
  rop r = rop r' /\ rpred r = rpred r' /\ rfn r = rfn r' /\ rprio r = rprio r'.

(** Leaving hook [k] is unambiguous when no live registration is a later duplicate of it
    and, if [k] was left before, no duplicate of it is live. *)
Definition exit_unambiguous (s : live_state) (k : nat) : Prop :=
  forall r0 r, nth_error (all_regs s) k = Some r0 -> In r (live s) -> same_registration r r0 ->
    time r = k \/ (time r < k /\ In r0 (live s)).

Fixpoint unambiguous_from (s : live_state) (h : list dop) : Prop :=
  match h with
  | [] => True
  | o :: h' =>
      match o with DExit k => exit_unambiguous s k | _ => True end /\
      unambiguous_from (live_step s o) h'
  end.
Definition unambiguous (h : list dop) : Prop := unambiguous_from (mkL 0 [] []) h.

(** No two registrations of the history are duplicates: sufficient for [unambiguous]. *)
Definition no_duplicates (h : list dop) : Prop :=
  forall r r', In r (all_regs (live_after h)) -> In r' (all_regs (live_after h)) ->
    same_registration r r' -> r = r'.

(** Two tables answer every dispatch alike. *)
Definition same_dispatch {Args} (heap : nat -> pexpr Args) (t t' : table) : Prop :=
  forall op a, dispatch heap t op a = dispatch heap t' op a.

(** A table as registrations can produce it: kernels of an operator sorted by priority. *)
Definition sorted_table (t : table) : Prop :=
  forall op, forall i j x y, i < j -> nth_error (lookup t op) i = Some x ->
    nth_error (lookup t op) j = Some y -> pnum (iprio x) <= pnum (iprio y).

(** Boolean reading of the predicate operators. *)
Fixpoint holds {Args} (p : pexpr Args) (a : Args) : Prop :=
  match p with
  | PFun f => f a = Ok true
  | PNot p => ~ holds p a
  | PAnd p q => holds p a /\ holds q a
  | POr p q => holds p a \/ holds q a
  end.
Fixpoint never_raises {Args} (p : pexpr Args) (a : Args) : Prop :=
  match p with
  | PFun f => exists b, f a = Ok b
  | PNot p => never_raises p a
  | PAnd p q | POr p q => never_raises p a /\ never_raises q a
  end.

(** A quantized tensor somewhere in the argument tree, reachable through tuples, lists
    and dicts. *)
Inductive contains_quantized {V} : arg V -> Prop :=
| CQ_here r : contains_quantized (AQuant r)
| CQ_node l x : In x l -> contains_quantized x -> contains_quantized (ANode l).

(** The argument with each of these replaced by its dequantized value, rest unchanged. *)
Inductive dequantized_as {V} (deq : V -> V) : arg V -> arg V -> Prop :=
| DQ_quant r : dequantized_as deq (AQuant r) (APlain (deq r))
| DQ_plain v : dequantized_as deq (APlain v) (APlain v)
| DQ_opaque i : dequantized_as deq (AOpaque i) (AOpaque i)
| DQ_node l l' : Forall2 (dequantized_as deq) l l' -> dequantized_as deq (ANode l) (ANode l').
