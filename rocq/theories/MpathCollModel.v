(** Models collections of search results: fastforward/mpath/_search.py [MPathCollection]. *)
From Coq Require Import String Ascii.
From Verif Require Import Prelude MpathModel.
Local Open Scope nat_scope.
Local Open Scope list_scope.

(** _search.py:45-58 [MPathCollection] *)
Record coll := mkColl { c_root : nat; c_results : list fres }.

(** _search.py:19-25: the generated [__eq__] of [FilterResult]; [fragment_matches] does not compare *)
Definition fres_eqb (a b : fres) : bool :=
  String.eqb (r_name a) (r_name b) && (r_mod a =? r_mod b) && (r_parent a =? r_parent b) && String.eqb (r_attr a) (r_attr b).
Definition fmem (r : fres) (l : list fres) : bool := existsb (fres_eqb r) l.
(** Python's [set(...)] of a list *)
Fixpoint pyset (l : list fres) : list fres :=
  match l with
  | [] => []
  | r :: l' => r :: filter (fun x => negb (fres_eqb r x)) (pyset l')
  end.

Section Ops.
  (** the order in which Python iterates over a set *)
  Variable order : list fres -> list fres.

  (** _search.py:152-157 [_check_same_root], then one set operation *)
  Definition set_op (op : list fres -> list fres -> list fres) (a b : coll) : result coll :=
    if c_root a =? c_root b then Ok (mkColl (c_root a) (order (op (pyset (c_results a)) (pyset (c_results b)))))
    else Err ValueError.
  (** _search.py:165-172 *)
  Definition union : coll -> coll -> result coll :=
    set_op (fun a b => a ++ filter (fun r => negb (fmem r a)) b).
  (** _search.py:179-186 *)
  Definition intersection : coll -> coll -> result coll := set_op (fun a b => filter (fun r => fmem r b) a).
  (** _search.py:193-200 *)
  Definition difference : coll -> coll -> result coll := set_op (fun a b => filter (fun r => negb (fmem r b)) a).
  (** _search.py:207-214 *)
  Definition symmetric_difference : coll -> coll -> result coll :=
    set_op (fun a b => filter (fun r => negb (fmem r b)) a ++ filter (fun r => negb (fmem r a)) b).
End Ops.
