(** Model of [src/fastforward/dispatcher.py] and of the dispatch path of
    [QuantizedTensor.__torch_function__]. *)
From Verif Require Import Prelude.

(** dispatcher.py:90-99 [DispatcherPriority]. *)
Inductive priority := DEFAULT | FALLBACK | NOT_IMPLEMENTED_FALLBACK.
Definition pnum (p : priority) : nat :=
  match p with DEFAULT => 0 | FALLBACK => 1 | NOT_IMPLEMENTED_FALLBACK => 2 end.

(** dispatcher.py:20-87: predicate objects. [_Predicate] defines no [__eq__], so two
    predicates are equal iff they are the same object: [UserP n] is the n-th object
    created by users, [TrueP n] the n-th one created by [_register_functional] for a
    missing predicate (lines 165-178, 199). *)
Inductive pobj := UserP (n : nat) | TrueP (n : nat).
Definition pobj_eqb (p q : pobj) : bool :=
  match p, q with
  | UserP n, UserP m => n =? m
  | TrueP n, TrueP m => n =? m
  | _, _ => false
  end.

(** What a user predicate computes: dispatcher.py:42-69 ([~p], [p & q], [p | q]) over
    arbitrary functions that may raise. [all]/[any] stop at the first decisive operand. *)
Inductive pexpr (Args : Type) :=
| PFun (f : Args -> result bool)
| PNot (p : pexpr Args)
| PAnd (p q : pexpr Args)
| POr (p q : pexpr Args).
Arguments PFun {Args}. Arguments PNot {Args}. Arguments PAnd {Args}. Arguments POr {Args}.

Fixpoint peval {Args} (p : pexpr Args) (a : Args) : result bool :=
  match p with
  | PFun f => f a
  | PNot p => let? b := peval p a in Ok (negb b)
  | PAnd p q => let? b := peval p a in if b then peval q a else Ok false
  | POr p q => let? b := peval p a in if b then Ok true else peval q a
  end.

(** The predicate call [item.predicate( *args, **kwargs)]; [heap] gives the code of the
    user's predicate objects. *)
Definition pcall {Args} (heap : nat -> pexpr Args) (p : pobj) (a : Args) : result bool :=
  match p with UserP n => peval (heap n) a | TrueP _ => Ok true end.

(** dispatcher.py:102-114 [DispatcherItem] (a dataclass: field-wise equality; kernels are
    function objects, compared by identity). *)
Record item := mkItem { ipred : pobj; ifn : nat; iprio : priority }.
Definition prio_eqb (p q : priority) : bool := pnum p =? pnum q.
Definition item_eqb (x y : item) : bool :=
  pobj_eqb (ipred x) (ipred y) && (ifn x =? ifn y) && prio_eqb (iprio x) (iprio y).

(** dispatcher.py:117 [_DISPATCHER: defaultdict(list)]: operator names are numbers. *)
Definition table := list (nat * list item).
Fixpoint lookup (t : table) (op : nat) : list item :=
  match t with
  | [] => []
  | (o, l) :: t' => if o =? op then l else lookup t' op
  end.
Fixpoint update (t : table) (op : nat) (l : list item) : table :=
  match t with
  | [] => [(op, l)]
  | (o, l') :: t' => if o =? op then (o, l) :: t' else (o, l') :: update t' op l
  end.

(** CPython's [bisect.bisect_left(a, x, key=...)], used at dispatcher.py:202: binary search
    between [lo] and [hi]. [fuel] bounds the number of iterations (the length suffices);
    running out of it is an error. *)
Fixpoint bisect_left (fuel : nat) (keys : list nat) (x lo hi : nat) : result nat :=
  if lo <? hi then
    match fuel with
    | 0 => Err RuntimeError
    | S fuel' =>
        let mid := (lo + hi) / 2 in
        match nth_error keys mid with
        | None => Err IndexError
        | Some k => if k <? x then bisect_left fuel' keys x (mid + 1) hi
                    else bisect_left fuel' keys x lo mid
        end
    end
  else Ok lo.

(** [list.insert] *)
Definition insert_at {A} (n : nat) (x : A) (l : list A) : list A := firstn n l ++ x :: skipn n l.

(** [list.remove]: first item that compares equal; [None] is the ValueError. *)
Fixpoint remove_first {A} (eqb : A -> A -> bool) (x : A) (l : list A) : option (list A) :=
  match l with
  | [] => None
  | y :: l' => if eqb y x then Some l' else option_map (cons y) (remove_first eqb x l')
  end.

(** dispatcher.py:120-133: the hook remembers operator name and item. *)
Record hook := mkHook { hop : nat; hitem : item }.

(** dispatcher.py:181-205 [_register_functional] ([register] with a kernel, lines 232-265;
    the decorator form, lines 142-162, calls the same function and drops the hook).
    [fresh] identifies the true-predicate object created when none is given. *)
Definition register_functional (fresh : nat) (t : table) (op : nat) (p : option nat)
    (kernel : nat) (prio : priority) : result (table * hook) :=
  let pr := match p with Some n => UserP n | None => TrueP fresh end in
  let it := mkItem pr kernel prio in
  let impls := lookup t op in
  let? idx := bisect_left (length impls) (map (fun i => pnum (iprio i)) impls) (pnum prio)
                0 (length impls) in
  Ok (update t op (insert_at idx it impls), mkHook op it).

(** dispatcher.py:135-139 [DispatcherRegistrationHook.__exit__]. *)
Definition hook_exit (t : table) (h : hook) : table :=
  match remove_first item_eqb (hitem h) (lookup t (hop h)) with
  | Some l => update t (hop h) l
  | None => t
  end.

(** dispatcher.py:268-283 [dispatch]. *)
Fixpoint dispatch_items {Args} (heap : nat -> pexpr Args) (l : list item) (a : Args)
    : result (option nat) :=
  match l with
  | [] => Ok None
  | it :: l' =>
      let? b := pcall heap (ipred it) a in
      if b then Ok (Some (ifn it)) else dispatch_items heap l' a
  end.
Definition dispatch {Args} (heap : nat -> pexpr Args) (t : table) (op : nat) (a : Args)
    : result (option nat) := dispatch_items heap (lookup t op) a.

(** Histories of registrations and hook exits in any order. [DExit k] leaves the hook
    returned by the k-th registration. *)
Inductive dop :=
| DRegister (op : nat) (p : option nat) (kernel : nat) (prio : priority)
| DExit (k : nat).

Record dstate := mkDS { tbl : table; hooks : list hook }.
Definition dinit : dstate := mkDS [] [].

Definition dstep (s : dstate) (o : dop) : result dstate :=
  match o with
  | DRegister op p k pr =>
      let? (t, h) := register_functional (length (hooks s)) (tbl s) op p k pr in
      Ok (mkDS t (hooks s ++ [h]))
  | DExit k =>
      match nth_error (hooks s) k with
      | Some h => Ok (mkDS (hook_exit (tbl s) h) (hooks s))
      | None => Ok s
      end
  end.
Fixpoint drun (s : dstate) (l : list dop) : result dstate :=
  match l with
  | [] => Ok s
  | o :: l' => let? s' := dstep s o in drun s' l'
  end.

(** Structured programs: [with register(op, pred, kernel, prio): body] blocks, calls that
    dispatch (and may raise), and explicit raises. The hook is built (and the kernel
    registered) before the block is entered; [__exit__] runs however the body ends and
    returns None, so exceptions propagate. *)
Inductive wprog (Args : Type) :=
| WDone
| WRaise
| WCall (op : nat) (a : Args) (rest : wprog Args)
| WWith (op : nat) (p : option nat) (kernel : nat) (prio : priority)
        (body rest : wprog Args).
Arguments WDone {Args}. Arguments WRaise {Args}. Arguments WCall {Args}. Arguments WWith {Args}.

(** Result: the table, whether an exception is propagating, the dispatch results seen and
    the number of true-predicates created. *)
Record wres := mkW { wtbl : table; wexc : bool; wlog : list (result (option nat)); wfresh : nat }.

Fixpoint wexec {Args} (heap : nat -> pexpr Args) (fresh : nat) (t : table) (p : wprog Args) : wres :=
  match p with
  | WDone => mkW t false [] fresh
  | WRaise => mkW t true [] fresh
  | WCall op a rest =>
      let d := dispatch heap t op a in
      match d with
      | Err _ => mkW t true [d] fresh
      | Ok _ => let r := wexec heap fresh t rest in mkW (wtbl r) (wexc r) (d :: wlog r) (wfresh r)
      end
  | WWith op p k pr body rest =>
      match register_functional fresh t op p k pr with
      | Err _ => mkW t true [] fresh
      | Ok (t1, h) =>
          let r1 := wexec heap (S fresh) t1 body in
          let t2 := hook_exit (wtbl r1) h in
          if wexc r1 then mkW t2 true (wlog r1) (wfresh r1)
          else let r2 := wexec heap (wfresh r1) t2 rest in
               mkW (wtbl r2) (wexc r2) (wlog r1 ++ wlog r2) (wfresh r2)
      end
  end.

(** ** [QuantizedTensor.__torch_function__] (C15) *)

(** Argument trees: optree treats tuples, lists and dicts as inner nodes; any other
    object is a leaf. A quantized tensor carries its codes and parameters ([raw], opaque
    here); [Opaque] is a leaf object which is not a tensor but may refer to other objects
    (e.g. an instance of a user class). *)
Inductive arg (V : Type) :=
| AQuant (raw : V)
| APlain (v : V)
| AOpaque (inner : list (arg V))
| ANode (l : list (arg V)).
Arguments AQuant {V}. Arguments APlain {V}. Arguments AOpaque {V}. Arguments ANode {V}.

(** quantized_tensor.py:541-545 [_dequantize_qtensor] under [optree.tree_map] (560-561);
    [deq] is the dequantize method. *)
Fixpoint dequantize_tree {V} (deq : V -> V) (a : arg V) : arg V :=
  match a with
  | AQuant r => APlain (deq r)
  | APlain v => APlain v
  | AOpaque inner => AOpaque inner
  | ANode l => ANode (map (dequantize_tree deq) l)
  end.

(** What a call of a torch function on quantized tensors amounts to. *)
Inductive effect (V : Type) :=
| CalledPlain (func : nat) (args : list (arg V))     (* func itself ran with these arguments *)
| CalledKernel (kernel : nat) (args : list (arg V))
| Raised (e : exn).
Arguments CalledPlain {V}. Arguments CalledKernel {V}. Arguments Raised {V}.

(** quantized_tensor.py:548-563 [_dequantization_fallback]; [strict] is the flag. *)
Definition dequantization_fallback {V} (deq : V -> V) (strict : bool) (func : nat)
    (args : list (arg V)) : effect V :=
  if strict then Raised QuantizationError
  else CalledPlain func (map (dequantize_tree deq) args).

(** quantized_tensor.py:461-477 [__torch_function__]; [excluded] is
    _EXCLUDE_FROM_DISPATCH_OR_FALLBACK and [name] is [func.__name__] ([None] if empty).
    Keyword arguments are further positional arguments. *)
Definition torch_function {V} (heap : nat -> pexpr (list (arg V))) (t : table) (strict : bool)
    (excluded : nat -> bool) (name : nat -> option nat) (deq : V -> V)
    (func : nat) (args : list (arg V)) : effect V :=
  if excluded func then CalledPlain func args
  else
    match name func with
    | Some op =>
        match dispatch heap t op args with
        | Err e => Raised e
        | Ok (Some k) => CalledKernel k args
        | Ok None => dequantization_fallback deq strict func args
        end
    | None => dequantization_fallback deq strict func args
    end.
