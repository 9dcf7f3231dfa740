(** Models how autoquant threads quantizers through calls of helper functions: fastforward/_autoquant/autoquant.py
    [_discover_quantized_functions], [_propagate_quantizers], [_generate_signatures] and [_resolve_calls].
    Functions stand for their position in [func_specs]; quantizer references are numbers. *)
From Verif Require Import Prelude.
Local Open Scope nat_scope.
Local Open Scope list_scope.

(** A converted function: whether it is an instance method, the quantizers made in its body, and the functions its
    quantized calls refer to, in order (672-722: [func_ref] of the unresolved calls, which may be unknown). *)
Record fn := mkFn { f_method : bool; f_made : list nat; f_refs : list nat }.

(** quantizer_collection.py:175-208: instance methods have no local quantizers *)
Definition locals (d : fn) : list nat := if f_method d then [] else f_made d.
(** 714-720: calls of unknown functions and of instance methods are left out *)
Definition followed (p : list fn) (g : nat) : bool := match nth_error p g with Some d => negb (f_method d) | None => false end.
Definition callees (p : list fn) (d : fn) : list nat := filter (followed p) (f_refs d).
Definition fn_at (p : list fn) (f : nat) : fn := nth f p (mkFn true [] []).

(** 495-513 [_QuantizerRefTrace] *)
Record trace := mkTrace { t_src : list nat; t_ref : nat }.
Fixpoint src_eqb (a b : list nat) : bool :=
  match a, b with [], [] => true | x :: a', y :: b' => (x =? y) && src_eqb a' b' | _, _ => false end.
Definition trace_eqb (a b : trace) : bool := src_eqb (t_src a) (t_src b) && (t_ref a =? t_ref b).
Fixpoint traces_eqb (a b : list trace) : bool :=
  match a, b with [], [] => true | x :: a', y :: b' => trace_eqb x y && traces_eqb a' b' | _, _ => false end.
(** [dict.fromkeys] *)
Fixpoint fromkeys (seen : list trace) (l : list trace) : list trace :=
  match l with [] => [] | a :: l' => if existsb (trace_eqb a) seen then fromkeys seen l' else a :: fromkeys (a :: seen) l' end.
(** 788-793 *)
Fixpoint upto (f : nat) (src : list nat) : list nat := match src with [] => [] | g :: s => if g =? f then [g] else g :: upto f s end.
Definition extend (f : nat) (a : trace) : trace :=
  mkTrace (if existsb (Nat.eqb f) (t_src a) then upto f (t_src a) else t_src a ++ [f]) (t_ref a).
Definition long (a : trace) : bool := 1 <? length (t_src a).

(** [spec.calls] of every function: the argument traces of every call *)
Definition state := list (list (list trace)).
Definition args_at (st : state) (f : nat) : list (list trace) := nth f st [].
(** 769-795 *)
Definition local_traces (p : list fn) (g : nat) : list trace := map (mkTrace [g]) (locals (fn_at p g)).
Definition groups (p : list fn) (st : state) (g : nat) : list (list trace) := local_traces p g :: map (filter long) (args_at st g).
Definition arguments (p : list fn) (st : state) (f g : nat) : list trace := flat_map (fun l => map (extend f) (fromkeys [] l)) (groups p st g).
Fixpoint set_nth {A} (n : nat) (a : A) (l : list A) : list A :=
  match l, n with [], _ => [] | _ :: l', 0 => a :: l' | b :: l', S n' => b :: set_nth n' a l' end.
(** 763-800, for one call and for all calls of a function *)
Definition visit_call (p : list fn) (f i g : nat) (st : state) : state * bool :=
  let new := arguments p st f g in
  if traces_eqb new (nth i (args_at st f) []) then (st, false) else (set_nth f (set_nth i new (args_at st f)) st, true).
Fixpoint visit_calls (p : list fn) (f i : nat) (gs : list nat) (st : state) : state * bool :=
  match gs with
  | [] => (st, false)
  | g :: gs' => let '(st, c) := visit_call p f i g st in let '(st, c') := visit_calls p f (S i) gs' st in (st, c || c')
  end.
(** 761 *)
Fixpoint visit_all (p : list fn) (fs : list nat) (st : state) : state * bool :=
  match fs with
  | [] => (st, false)
  | f :: fs' => let '(st, c) := visit_calls p f 0 (callees p (fn_at p f)) st in let '(st, c') := visit_all p fs' st in (st, c || c')
  end.
Definition round (p : list fn) (st : state) : state * bool := visit_all p (seq 0 (length p)) st.
(** 756-800: the [while] loop; [None] if it has not ended after [fuel] rounds *)
Fixpoint propagate (fuel : nat) (p : list fn) (st : state) : option state :=
  match fuel with
  | 0 => None
  | S n => let '(st', changed) := round p st in if changed then propagate n p st' else Some st'
  end.
Definition start (p : list fn) : state := map (fun d => map (fun _ => []) (callees p d)) p.

(** Parameters: a quantizer of the function itself, or one made for argument [j] of call [i] *)
Inductive param := Own (ref : nat) | For (i j : nat).
(** 854-872 *)
Fixpoint mapped (i j : nat) (l : list trace) : list (bool * param) :=
  match l with
  | [] => []
  | a :: l' => (if long a then (true, For i j) else (false, Own (t_ref a))) :: mapped i (S j) l'
  end.
Fixpoint all_mapped (i : nat) (ls : list (list trace)) : list (list (bool * param)) :=
  match ls with [] => [] | l :: ls' => mapped i 0 l :: all_mapped (S i) ls' end.
Definition signature (p : list fn) (st : state) (f : nat) : list param :=
  map Own (locals (fn_at p f)) ++ flat_map (fun l => map snd (filter fst l)) (all_mapped 0 (args_at st f)).
(** 913-938: values are parameters of the caller, or quantizers made on the instance for argument [j] of call [i] *)
Inductive value := FromParam (x : param) | OnInstance (i j : nat).
Definition given (p : list fn) (st : state) (f i : nat) : list value :=
  let args := nth i (args_at st f) [] in
  if f_method (fn_at p f) then map (OnInstance i) (seq 0 (length args)) else map (fun x => FromParam (snd x)) (mapped i 0 args).
Definition passed (p : list fn) (st : state) (f i g : nat) : list (param * value) := combine (signature p st g) (given p st f i).
