(** Example user code, graphs and programs for the instruction engine. *)
From Coq Require Import String Ascii Permutation Relations.
From Verif Require Import Prelude GraphModel GraphSpec GraphProofs EngineModel EngineSpec.
Local Open Scope nat_scope.
Local Open Scope list_scope.

(** Tensors hold a number. Modules are numbers below 10: module [m] has one weight, also called [m], and adds its arguments
    and [m]; the result is on the device of the weight. Other numbers are functions: 10 adds and does not use
    a weight, 11 makes a pair of its arguments, 12 makes a named tuple, 13 raises. *)
Fixpoint num (v : val nat) : nat :=
  match v with Tensor _ n => n | Tup _ l | Lst l => list_sum (map num l) | Dic l => list_sum (map (fun e => num (snd e)) l) | Obj n _ => n end.
Definition total (a : list (val nat)) (k : list (string * val nat)) : nat := list_sum (map num (a ++ map snd k)).
Definition dev (a : list (val nat)) : nat := match a with Tensor d _ :: _ => d | _ => 0 end.
Definition ex_call (c : nat) (pl : nat -> nat) (m : nat) (a : list (val nat)) (k : list (string * val nat)) : result (val nat) :=
  match m with
  | 11 => Ok (Tup [] a)
  | 12 => Ok (Tup ["left"%string; "right"%string] a)
  | 13 => Err RuntimeError
  | _ => if m <? 10 then Ok (Tensor (pl m) (m + total a k)) else Ok (Tensor (dev a) (total a k))
  end.
Definition ex_item (v : val nat) (a : attr) : result (val nat) :=
  match v, a with
  | Tup _ l, AInt i | Lst l, AInt i => match nth_error l (Z.to_nat i) with Some x => Ok x | None => Err IndexError end
  | _, _ => Err TypeError
  end.
Definition exs : semantics nat unit :=
  mkSem (fun i => Tensor 0 (100 + i)) ex_item (fun _ _ => Err AttributeError)
    (fun pl u c m a k => (ex_call c pl m a k, u)) (fun _ u _ _ _ => (Ok tt, u)) (fun m => m <? 10) (fun m => if m <? 10 then [("w"%string, m)] else []).
Definition idord (l : list nat) : list nat := l.
Definition nrf (i : nat) : ref := RNode i ""%string.
Definition xin : ref := RInput 0 "x"%string.
Definition T (d n : nat) : val nat := Tensor d n.

(** x is given; a = module 1 of x; p = the pair of a and x; b = module 2 of p[0] and c, a constant, and x by keyword; the
    second module has an optimizer that wants the contexts 0 and 5. *)
Definition tnode (i t : nat) (l : list ref) (k : list (string * ref)) (d : option delegate) : gnode :=
  mkNode i ""%string t l (if t <? 10 then TorchModule else CallFunction) k d None.
Definition ex_graph : graph :=
  mkGraph [tnode 3 2 [RAttr (nrf 2) (AInt 0); RConst 7] [("k"%string, xin)] (Some (mkDelegate 40 [0; 5]));
           tnode 1 1 [xin] [] None; tnode 2 11 [nrf 1; xin] [] None] [("x"%string, 0)] [nrf 3; nrf 1] [].
