(** Examples for C90-C93. *)
From Coq Require Import String Ascii.
From Verif Require Import Prelude AqModel AqSpec AqProofs AqIso AqSim AqTemps.
Local Open Scope nat_scope.
Local Open Scope list_scope.

(** Values are lists of numbers.  The world is a log: calls write their first operand into it, attributes
    and items read its length, and assignments to them write the assigned value into it. *)
Definition wapply (k : kind) (vs : list (list nat)) (u : list nat) : result (list nat) * list nat :=
  match k with
  | Call _ => (Ok [length u], u ++ hd [0] vs)
  | Attribute _ | Subscript => (Ok [length u], u)
  | Binary _ | Unary _ => (Ok [list_sum (concat vs)], u)
  | Global x => (Ok [String.length x], u)
  | _ => (Ok (concat vs), u)
  end.
Definition wsem : semantics (list nat) (list nat) :=
  mkSemantics _ _ (fun c => [c]) wapply (fun o a b u => wapply (Binary (meant o)) [a; b] u)
    (fun v u => (Ok (match v with [0] => false | _ => true end), u)) (fun _ _ v u => (Ok tt, u ++ v)) (fun _ v u => (Ok (map (fun x => [x]) v), u))
    (fun _ _ _ u => (Ok [7], u)) (fun _ _ _ => [9]) (fun v u => (Ok v, u)) (fun v u => (Ok (if length u <? 4 then Some v else None), u))
    (fun _ => AssertionError) (fun _ _ => UserException).
(** the same, but in-place operators write into the log *)
Definition wsem_inplace : semantics (list nat) (list nat) :=
  mkSemantics _ _ (fun c => [c]) wapply (fun o a b u => (Ok [list_sum (a ++ b)], u ++ [8]))
    (fun v u => (Ok (match v with [0] => false | _ => true end), u)) (fun _ _ v u => (Ok tt, u ++ v)) (fun _ v u => (Ok (map (fun x => [x]) v), u))
    (fun _ _ _ u => (Ok [7], u)) (fun _ _ _ => [9]) (fun v u => (Ok v, u)) (fun v u => (Ok (if length u <? 4 then Some v else None), u))
    (fun _ => AssertionError) (fun _ _ => UserException).
Definition wstable (k : kind) : bool := match k with Call _ | Attribute _ | Subscript => false | _ => true end.
Lemma wstable_ok : forall k, wstable k = true -> stable_kind wsem k.
Proof. intros [] H vs; try discriminate; eexists; intros u; reflexivity. Qed.
Lemma winplace : forall o a b u, inplace wsem o a b u = apply wsem (Binary (meant o)) [a; b] u.
Proof. reflexivity. Qed.

Definition v (x : string) := Name x.
Definition f := Node (Global "f"%string) [].
Definition gg := Node (Global "gg"%string) [].
Definition call (g : expr) (l : list expr) := Node (Call (map (fun _ => None) l)) (g :: l).
Definition wenv : env (list nat) := fun x => if String.eqb x "x" then Some [0] else if String.eqb x "y" then Some [5] else if String.eqb x "_tmp_1" then Some [6] else None.
Definition wst : state (list nat) (list nat) := (wenv, []).

(** for i in gg(x): y = f(x * 2) + gg(y); y *= 3
        if f(y): a[f(x)] = x
    return y - f((y, 1 + 2)) *)
Definition prog : list stmt :=
  [Line [Assign [v "a"] (v "y")];
   For (v "i") (call gg [v "x"])
     [Line [Assign [v "y"] (Node (Binary Add) [call f [Node (Binary Multiply) [v "x"; Lit 2]]; call gg [v "y"]]); AugAssign (v "y") MultiplyAssign (Lit 3)];
      If (call f [v "y"]) [Suite [Assign [Node Subscript [v "a"; call f [v "x"]]] (v "x")]] []];
   Line [Return (Some (Node (Binary Subtract) [v "y"; call f [Node Tuple [v "y"; Node (Binary Add) [Lit 1; Lit 2]]]]))]]%string.
Lemma no_temporaries_b : forall l, forallb (fun x => negb (String.prefix "_tmp_" x)) (flat_map names_stmt l) = true -> no_temporaries l.
Proof. intros l H x I T. rewrite forallb_forall in H. apply H in I. apply prefix_spec in T. rewrite T in I. discriminate. Qed.
Lemma prog_ok : no_temporaries prog /\ forallb (every (simple_augment wstable)) prog = true /\ forallb (ordered_stmt wstable) (mark_all (expand (split prog))) = true /\
  forallb (every valid_targets) prog = true /\ (exists u, run wsem 9 prog wst = Returned (Some [12]) u) /\ length (preprocess prog) = 4.
Proof.
  split; [apply no_temporaries_b; vm_compute; reflexivity|]. split; [vm_compute; reflexivity|]. split; [vm_compute; reflexivity|].
  split; [vm_compute; reflexivity|]. split; [eexists; vm_compute; reflexivity | vm_compute; reflexivity].
Qed.

(** ** Programs that change their meaning *)
Definition p_and := [Line [Return (Some (Boolean true (v "x") (call f [v "y"])))]]%string.
Definition p_lambda := [Line [Return (Some (Lambda ["z"] (call f [v "z"])))]]%string.
Definition p_order := [Line [Return (Some (Node Tuple [Node (Attribute "a") [v "y"]; call f [v "y"]]))]]%string.
Definition p_target := [Line [Assign [Node Subscript [v "y"; call f [v "x"]]] (call gg [v "y"])]]%string.
Definition p_assert := [Line [Assert (v "y") (Some (call f [v "x"]))]]%string.
Definition p_name := [Line [Return (Some (Node (Binary Add) [call f [v "x"]; v "_tmp_1"]))]]%string.
Definition p_twice := [Line [AugAssign (Node Subscript [call f [v "x"]; Lit 0]) AddAssign (Lit 1)]]%string.
Definition p_inplace := [Line [AugAssign (v "y") AddAssign (v "y")]]%string.
Ltac witness := intros H; vm_compute in H; try (destruct H as [? ?]; discriminate); try (destruct H as [_ H]; discriminate); try contradiction.
Lemma p_and_changes : no_temporaries p_and /\ ~ same_end (run wsem 9 p_and wst) (run wsem 9 (preprocess p_and) wst).
Proof. split; [apply no_temporaries_b; vm_compute; reflexivity | witness]. Qed.
Lemma p_lambda_changes : no_temporaries p_lambda /\ (exists r u, run wsem 9 p_lambda wst = Returned r u) /\ (exists u, run wsem 9 (preprocess p_lambda) wst = Raised UnboundLocalError u).
Proof. split; [apply no_temporaries_b; vm_compute; reflexivity|]. split; [eexists; eexists; vm_compute; reflexivity | eexists; vm_compute; reflexivity]. Qed.
Lemma p_order_changes : no_temporaries p_order /\ ~ same_end (run wsem 9 p_order wst) (run wsem 9 (preprocess p_order) wst).
Proof. split; [apply no_temporaries_b; vm_compute; reflexivity | witness]. Qed.
Lemma p_target_changes : no_temporaries p_target /\ ~ same_end (run wsem 9 p_target wst) (run wsem 9 (preprocess p_target) wst).
Proof. split; [apply no_temporaries_b; vm_compute; reflexivity | witness]. Qed.
Lemma p_assert_changes : no_temporaries p_assert /\ ~ same_end (run wsem 9 p_assert wst) (run wsem 9 (preprocess p_assert) wst).
Proof. split; [apply no_temporaries_b; vm_compute; reflexivity | witness]. Qed.
Lemma p_name_changes : forallb (ordered_stmt wstable) (mark_all (expand (split p_name))) = true /\ ~ same_end (run wsem 9 p_name wst) (run wsem 9 (preprocess p_name) wst).
Proof. split; [vm_compute; reflexivity | witness]. Qed.
Lemma p_twice_changes : ~ same_end (run wsem 9 p_twice wst) (run wsem 9 (expand p_twice) wst).
Proof. witness. Qed.
Lemma p_inplace_changes : ~ same_end (run wsem_inplace 9 p_inplace wst) (run wsem_inplace 9 (expand p_inplace) wst).
Proof. witness. Qed.
