(** Specification vocabulary for module path queries. *)
From Coq Require Import String Ascii.
From Verif Require Import Prelude ModulesModel ModulesSpec MpathModel.
Local Open Scope nat_scope.
Local Open Scope list_scope.

(** A way down the module tree: the attribute names followed and the modules they lead to. *)
Definition way := list (string * nat).
Inductive goes (h : heap) : nat -> way -> nat -> Prop :=
| goes_here x : goes h x [] x
| goes_step x m n c p z : nth_error h x = Some m -> In (n, Some c) (mkids m) -> goes h c p z -> goes h x ((n, c) :: p) z.
(** The name under which the module at the end of a way is reported. *)
Fixpoint dotted (p : way) : string :=
  match p with
  | [] => ""
  | [(n, _)] => n
  | (n, _) :: p' => (n ++ "." ++ dotted p')%string
  end.

(** Attribute names are non-empty (PyTorch refuses others), and no module holds the same child
    under two attributes. *)
Definition named (h : heap) : Prop :=
  forall x m, nth_error h x = Some m ->
    (forall n c, In (n, Some c) (mkids m) -> n <> ""%string) /\
    (forall n n' c, In (n, Some c) (mkids m) -> In (n', Some c) (mkids m) -> n = n').

Section Spec.
  Variable re_fullmatch : string -> string -> bool.
  Variable is_instance : nat -> nat -> bool.
  Variable predicate : nat -> string -> nat -> bool.

  (** One step satisfies a fragment. *)
  Fixpoint accepts (f : frag) (x : string * nat) : Prop :=
    match f with
    | Wild _ => True
    | Name s => fst x = s
    | Regex p => re_fullmatch p (fst x) = true
    | Cls c => is_instance (snd x) c = true
    | Pred p => predicate p (fst x) (snd x) = true
    | Joint fs => fold_right (fun g P => accepts g x /\ P) True fs
    | Disjoint fs => fold_right (fun g P => accepts g x \/ P) False fs
    | Inv g => ~ accepts g x
    end.

  (** A way matches a query: "**" stands for any number of steps, any other fragment for one step it
      accepts, a brace group for any one of its alternatives. *)
  Inductive matched : sel -> way -> Prop :=
  | matched_end : matched [] []
  | matched_step i f q x p : f <> Wild true -> accepts f x -> matched q p -> matched (NFrag i f :: q) (x :: p)
  | matched_none i q p : matched q p -> matched (NFrag i (Wild true) :: q) p
  | matched_more i q x p : matched (NFrag i (Wild true) :: q) p -> matched (NFrag i (Wild true) :: q) (x :: p)
  | matched_alt alts alt q p : In alt alts -> matched (alt ++ q) p -> matched (NMulti alts :: q) p.

  (** The answer to query [q] on module [root]: every module some matching way leads to, once, each
      reported with the name, the parent and the attribute of such a way. *)
  Definition answers (h : heap) (root : nat) (q : sel) (res : list fres) : Prop :=
    NoDup (map r_mod res) /\
    (forall z, In z (map r_mod res) <-> exists x p, goes h root (x :: p) z /\ matched q (x :: p)) /\
    (forall r, In r res -> exists p last, goes h root (p ++ [last]) (r_mod r) /\ matched q (p ++ [last]) /\
       goes h root p (r_parent r) /\ r_name r = dotted (p ++ [last]) /\ r_attr r = fst last /\ snd last = r_mod r).
End Spec.

(** The fragment is an inversion, or an inversion of an inversion and so on, of "**". *)
Fixpoint inverts_star (f : frag) : bool :=
  match f with Inv (Wild true) => true | Inv g => inverts_star g | _ => false end.
(** Not a repeated inversion of "**": "~**" is fine, "~~**" is not. *)
Definition sane (f : frag) : Prop := inverts_star f = true -> f = Inv (Wild true).

(** All fragments of a query satisfy [P]. *)
Inductive all_frags (P : frag -> Prop) : sel -> Prop :=
| af_nil : all_frags P []
| af_frag i f q : P f -> all_frags P q -> all_frags P (NFrag i f :: q)
| af_multi alts q : (forall alt, In alt alts -> all_frags P alt) -> all_frags P q -> all_frags P (NMulti alts :: q).
(** Some fragment of the alternative is not "**"; for a group, in each of its alternatives. *)
Inductive substantial : sel -> Prop :=
| sub_frag i f q : f <> Wild true -> substantial (NFrag i f :: q)
| sub_later n q : substantial q -> substantial (n :: q)
| sub_multi alts q : alts <> [] -> (forall alt, In alt alts -> substantial alt) -> substantial (NMulti alts :: q).
(** Every brace group has alternatives, and none of them is made of "**" only. *)
Inductive groups_ok : sel -> Prop :=
| go_nil : groups_ok []
| go_frag i f q : groups_ok q -> groups_ok (NFrag i f :: q)
| go_multi alts q : alts <> [] -> (forall alt, In alt alts -> substantial alt /\ groups_ok alt) -> groups_ok q ->
    groups_ok (NMulti alts :: q).
(** No brace groups. *)
Definition straight (q : sel) : Prop := forall n, In n q -> exists i f, n = NFrag i f.
(** One object is one fragment. *)
Definition consistent (q : sel) : Prop :=
  forall i f f', In (NFrag i f) q -> In (NFrag i f') q -> f = f'.
(** No two fragments of the query are the same object, as in every query made by parsing a text
    without aliases. *)
Fixpoint objects_node (n : node) : list nat :=
  match n with NFrag i _ => [i] | NMulti alts => concat (map (fun alt => concat (map objects_node alt)) alts) end.
Definition objects (q : sel) : list nat := concat (map objects_node q).

(** A query without groups obtained by picking one alternative of every group. *)
Inductive picks : sel -> sel -> Prop :=
| picks_nil : picks [] []
| picks_frag i f q q' : picks q q' -> picks (NFrag i f :: q) (NFrag i f :: q')
| picks_multi alts alt q q' : In alt alts -> picks (alt ++ q) q' -> picks (NMulti alts :: q) q'.
