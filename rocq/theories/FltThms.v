(** C156: finding nodes of syntax trees. *)
From Coq Require Import List Arith Bool Lia.
From Verif Require Import Prelude FltModel FltSpec FltProofs.
Import ListNotations.

(** ** C156 *)

(** The search ends, for every tree, and also if parts of it are shared: it yields the nodes of the type, all
    of them and each once. *)
Theorem C156_all_nodes_once : forall t needle, identities t -> exists out,
  filter_nodes_by_type t needle = Some out /\ NoDup (map id_of out)
  /\ forall n, In n out <-> below t n /\ needle (kind_of n) = true.
Proof.
  intros t needle I. destruct (filter_all t I) as (out & W & N & S). unfold filter_nodes_by_type in *.
  exists (filter (fun n => needle (kind_of n)) out). rewrite walk_filter, W. split; [reflexivity|]. split.
  - clear -N. induction out as [|n r IH]; [constructor|]. cbn [map] in N. inversion N as [|? ? N1 N2]; subst. cbn.
    destruct (needle (kind_of n)); [|auto]. cbn. constructor; [|auto]. intro H. apply N1.
    apply in_map_iff in H as (m & E & Hm). apply filter_In in Hm as [Hm _]. rewrite <- E. now apply in_map.
  - intro n. rewrite filter_In, S. reflexivity.
Qed.
Print Assumptions C156_all_nodes_once.

(** In trees without shared parts the order is by levels from the top, and from left to right in a level. *)
Theorem C156_order : forall t needle, is_tree t -> exists d, (forall d', d <= d' -> level d' t = [])
  /\ filter_nodes_by_type t needle = Some (filter (fun n => needle (kind_of n)) (levels d t)).
Proof.
  intros t needle T. exists (height t). split; [intros; now apply level_empty|].
  apply filter_tree; [exact T|]. apply level_empty. lia.
Qed.
Print Assumptions C156_order.

(** The type of a node does not change what else is found: searching for one of two types finds what the
    searches for each find, in one order. *)
Theorem C156_types_independent : forall t a b out, filter_nodes_by_type t (fun k => a k || b k) = Some out ->
  filter_nodes_by_type t a = Some (filter (fun n => a (kind_of n)) out).
Proof.
  intros t a b out. unfold filter_nodes_by_type. rewrite (walk_filter _ (fun k => a k || b k)), (walk_filter _ a).
  destruct (walk (size t) (fun _ => true) [id_of t] [t]) as [l|]; [|discriminate]. cbn. intro H. injection H as <-. f_equal.
  induction l as [|n r IH]; [reflexivity|]. cbn. destruct (a (kind_of n)) eqn:E; cbn.
  - rewrite E. now f_equal.
  - destruct (b (kind_of n)); cbn; rewrite ?E; exact IH.
Qed.
Print Assumptions C156_types_independent.

(** A tree with a shared node, and one without. *)
Definition ex_leaf (i : nat) : node := Node i 1 [].
Definition ex_shared : node := Node 0 0 [Node 1 1 [ex_leaf 3]; Node 2 0 [ex_leaf 3]; ex_leaf 4].
Definition ex_tree : node := Node 0 0 [Node 1 1 [ex_leaf 3]; Node 2 0 [ex_leaf 5]; ex_leaf 4].
Lemma below_inv : forall t m, below t m -> m = t \/ exists c, In c (children_of t) /\ below c m.
Proof. intros t m B. inversion B; subst; [now left|right; eauto]. Qed.
Example C156_nonvacuous :
  identities ex_shared /\ is_tree ex_tree
  /\ option_map (map id_of) (filter_nodes_by_type ex_shared (Nat.eqb 1)) = Some [1; 4; 3]
  /\ option_map (map id_of) (filter_nodes_by_type ex_tree (Nat.eqb 1)) = Some [1; 4; 3; 5].
Proof.
  split; [|split; [|split; reflexivity]].
  - assert (F : forall m, below ex_shared m -> In m [ex_shared; Node 1 1 [ex_leaf 3]; Node 2 0 [ex_leaf 3]; ex_leaf 4; ex_leaf 3]).
    { intros m B. repeat (apply below_inv in B as [->|(? & Hc & B)]; [cbn; tauto|];
        cbn in Hc; repeat destruct Hc as [<-|Hc]; try contradiction);
      repeat (apply below_inv in B as [->|(? & Hc & B)]; [cbn; tauto|];
        cbn in Hc; repeat destruct Hc as [<-|Hc]; try contradiction). }
    intros m n Bm Bn E. apply F in Bm, Bn. cbn in Bm, Bn.
    repeat destruct Bm as [<-|Bm]; try contradiction; repeat destruct Bn as [<-|Bn]; try contradiction; try reflexivity; discriminate.
  - unfold is_tree. cbn. repeat constructor; cbn; intuition discriminate.
Qed.
