(** C155: super() in generated methods. *)
From Coq Require Import List Arith Bool Lia.
From Verif Require Import Prelude SupModel SupSpec SupProofs.
Import ListNotations.

(** ** C155 *)

(** An expression of a method of class [c], moved to the generated class [q], has the same value there, for
    all classes, objects, attributes and functions, if super() is only used to call methods, and the names of
    the class and of the first parameter have their values in the generated module.
    Missing: other uses of super(), class methods, and names that are bound otherwise, for which it is false. *)
Theorem C155_parent_methods_partial : forall (value cls : Type) (attr : value -> nat -> value)
    (call : value -> list value -> value) (op : nat -> list value -> value) (super_of : cls -> value -> value)
    (env : nat -> value) (class_object : cls -> value) (front : list nat) (owner method self : nat) (c q : cls) (v : value),
  env self = v -> env owner = class_object c ->
  call (env 0) [class_object c; v] = super_of c v ->
  forall e, only_calls_methods e = true ->
  meaning attr call op super_of env q v (rewrite_super_calls true (Some self) (front ++ [owner; method]) e)
  = meaning attr call op super_of env c v e.
Proof.
  intros value cls attr call op super_of env class_object front owner method self c q v Hs Ho Hc e T.
  unfold rewrite_super_calls, owner_class_name. rewrite rev_app_distr. cbn [rev app].
  now apply anchored_meaning with (k := class_object c).
Qed.
Print Assumptions C155_parent_methods_partial.

(** Code without super() is left as it is, in every kind of function. *)
Theorem C155_other_code_unchanged : forall is_method self parts e, no_bare_super e = true ->
  rewrite_super_calls is_method self parts e = e.
Proof.
  intros b [s|] parts e H; [|reflexivity]. unfold rewrite_super_calls. destruct b; [|reflexivity].
  destruct (owner_class_name parts); [now apply anchor_plain|reflexivity].
Qed.
Print Assumptions C155_other_code_unchanged.

(** Names: 0 is super, 1 the class, 2 the first parameter, 3 the method. Values are numbers: super(c, v) is c,
    and the attributes of objects are the objects. Class 10 is the original and 20 the generated one. *)
Definition ex_attr (v : nat) (a : nat) : nat := v.
Definition ex_call (f : nat) (args : list nat) : nat := match f, args with 7, c :: _ => c | _, _ => f end.
Definition ex_env (x : nat) : nat := match x with 0 => 7 | 1 => 10 | 2 => 99 | _ => 0 end.
Definition ex_mean (c : nat) (e : expr) : nat := meaning ex_attr ex_call (fun _ l => hd 0 l) (fun c _ => c) ex_env c 99 e.

(** The value of an attribute of super(), super().x, is taken after the generated class. *)
Theorem C155_attribute_of_super_refuted : exists e,
  e = Attr (Call (Name 0) []) 5 /\ ex_mean 20 (rewrite_super_calls true (Some 2) [1; 3] e) <> ex_mean 10 e.
Proof. eexists. split; [reflexivity|]. discriminate. Qed.
Print Assumptions C155_attribute_of_super_refuted.

(** So is super().x.m(), a call of a method of an attribute, and f(super()). *)
Theorem C155_method_of_attribute_refuted : exists e,
  e = Call (Attr (Attr (Call (Name 0) []) 5) 6) []
  /\ ex_mean 20 (rewrite_super_calls true (Some 2) [1; 3] e) <> ex_mean 10 e.
Proof. eexists. split; [reflexivity|]. discriminate. Qed.
Print Assumptions C155_method_of_attribute_refuted.

(** In class methods even super().m() is not changed. *)
Theorem C155_class_methods_refuted : exists e,
  e = Call (Attr (Call (Name 0) []) 5) [] /\ only_calls_methods e = true
  /\ ex_mean 20 (rewrite_super_calls false (Some 2) [1; 3] e) <> ex_mean 10 e.
Proof. eexists. split; [reflexivity|]. split; [reflexivity|]. discriminate. Qed.
Print Assumptions C155_class_methods_refuted.

(** super().m(super().n(self), super(C, self).k) *)
Example C155_nonvacuous :
  let e := Call (Attr (Call (Name 0) []) 5)
                [Call (Attr (Call (Name 0) []) 6) [Name 2]; Attr (Call (Name 0) [Name 1; Name 2]) 8] in
  only_calls_methods e = true /\ ex_call (ex_env 0) [10; 99] = 10
  /\ rewrite_super_calls true (Some 2) [4; 1; 3] e
     = Call (Attr (Call (Name 0) [Name 1; Name 2]) 5)
            [Call (Attr (Call (Name 0) [Name 1; Name 2]) 6) [Name 2]; Attr (Call (Name 0) [Name 1; Name 2]) 8]
  /\ ex_mean 20 e <> ex_mean 10 e.
Proof. repeat split. discriminate. Qed.
