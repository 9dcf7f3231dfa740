(** Proofs about the search of nodes. *)
From Coq Require Import List Arith Bool Lia Permutation.
From Verif Require Import Prelude FltModel FltSpec.
Import ListNotations.

Section Ind.
  Variable P : node -> Prop.
  Hypothesis H : forall i k cs, Forall P cs -> P (Node i k cs).
  Fixpoint node_ind2 (n : node) : P n :=
    match n with
    | Node i k cs => H i k cs ((fix all (l : list node) : Forall P l :=
        match l with [] => Forall_nil _ | x :: r => Forall_cons x (node_ind2 x) (all r) end) cs)
    end.
End Ind.

Definition total (q : list node) : nat := list_sum (map size q).
Lemma total_app : forall a b, total (a ++ b) = total a + total b.
Proof. intros. unfold total. now rewrite map_app, list_sum_app. Qed.
Lemma size_children : forall n, size n = S (total (children_of n)).
Proof. now intros [i k cs]. Qed.

Lemma total_cons : forall n q, total (n :: q) = size n + total q.
Proof. reflexivity. Qed.
Lemma push_total : forall cs seen, total (snd (push seen cs)) <= total cs.
Proof.
  induction cs as [|c r IH]; intro seen; cbn [push]; [cbn; lia|].
  destruct (existsb (Nat.eqb (id_of c)) seen).
  - specialize (IH seen). rewrite total_cons. lia.
  - specialize (IH (id_of c :: seen)). destruct (push (id_of c :: seen) r) as [s' new]. cbn [fst snd] in *. rewrite !total_cons. lia.
Qed.

Lemma walk_ends : forall fuel needle seen q, total q <= fuel -> exists out, walk fuel needle seen q = Some out.
Proof.
  induction fuel as [|fuel IH]; intros needle seen q Hq; destruct q as [|n rest]; cbn [walk]; eauto.
  - rewrite total_cons in Hq. pose proof (size_children n). lia.
  - destruct (push seen (children_of n)) as [s' new] eqn:E.
    assert (total (rest ++ new) <= fuel).
    { rewrite total_app. pose proof (push_total (children_of n) seen) as T. rewrite E in T. cbn [snd] in T.
      rewrite total_cons in Hq. pose proof (size_children n). lia. }
    destruct (IH needle s' (rest ++ new) H) as [out ->]. eauto.
Qed.

Lemma walk_filter : forall fuel needle seen q,
  walk fuel needle seen q
  = option_map (filter (fun n => needle (kind_of n))) (walk fuel (fun _ => true) seen q).
Proof.
  induction fuel as [|fuel IH]; intros needle seen q; destruct q as [|n rest]; cbn [walk option_map]; auto.
  destruct (push seen (children_of n)) as [s' new]. rewrite IH.
  destruct (walk fuel (fun _ => true) s' (rest ++ new)); cbn; [|reflexivity]. now destruct (needle (kind_of n)).
Qed.

Lemma mem_spec : forall x l, existsb (Nat.eqb x) l = true <-> In x l.
Proof.
  intros x l. rewrite existsb_exists. split.
  - intros (y & Hy & E). apply Nat.eqb_eq in E. now subst.
  - intro Hx. exists x. split; [exact Hx|]. apply Nat.eqb_refl.
Qed.

Lemma push_spec : forall cs seen,
  incl (snd (push seen cs)) cs
  /\ (forall x, In x (fst (push seen cs)) <-> In x seen \/ In x (map id_of (snd (push seen cs))))
  /\ NoDup (map id_of (snd (push seen cs)))
  /\ (forall x, In x (map id_of (snd (push seen cs))) -> ~ In x seen)
  /\ (forall c, In c cs -> In (id_of c) (fst (push seen cs))).
Proof.
  induction cs as [|c r IH]; intro seen; cbn [push].
  - cbn. repeat split; try tauto; [intros x []|constructor].
  - destruct (existsb (Nat.eqb (id_of c)) seen) eqn:E.
    + destruct (IH seen) as (A & B & C & D & F). repeat split; auto.
      * intros x Hx. right. now apply A.
      * apply B.
      * apply B.
      * intros x [<-|Hx]; [|now apply F]. apply B. left. now apply mem_spec.
    + destruct (IH (id_of c :: seen)) as (A & B & C & D & F).
      destruct (push (id_of c :: seen) r) as [s' new]. cbn [fst snd] in *. cbn [map]. repeat split.
      * intros x [<-|Hx]; [now left|right; now apply A].
      * intro Hx. apply B in Hx as [[Hx|Hx]|Hx]; cbn; auto.
      * intro Hx. apply B. cbn in *. tauto.
      * constructor; [|exact C]. intro Hx. apply D in Hx. apply Hx. now left.
      * intros x [<-|Hx]; [intro Hs; apply mem_spec in Hs; congruence|]. intro Hs. apply (D x Hx). now right.
      * intros x [<-|Hx]; [|now apply F]. apply B. left. now left.
Qed.

Lemma nodup_app : forall (A : Type) (a b : list A), NoDup a -> NoDup b -> (forall x, In x a -> ~ In x b) -> NoDup (a ++ b).
Proof.
  induction a as [|x a IH]; intros b Ha Hb D; cbn; [exact Hb|]. inversion Ha; subst. constructor.
  - rewrite in_app_iff. intros [H|H]; [contradiction|]. apply (D x); [now left|exact H].
  - apply IH; auto. intros y Hy. apply D. now right.
Qed.

(** The nodes that were taken and those in the queue are those that were seen, once each. *)
Lemma walk_inv : forall fuel seen q out (P : node -> Prop) done,
  walk fuel (fun _ => true) seen q = Some out ->
  (forall n c, P n -> In c (children_of n) -> P c) ->
  Forall P q ->
  NoDup (map id_of (done ++ q)) ->
  (forall x, In x seen <-> In x (map id_of (done ++ q))) ->
  (forall n c, In n done -> In c (children_of n) -> In (id_of c) seen) ->
  NoDup (map id_of (done ++ out)) /\ Forall P out /\ incl q out
  /\ forall n c, In n (done ++ out) -> In c (children_of n) -> In (id_of c) (map id_of (done ++ out)).
Proof.
  induction fuel as [|fuel IH]; intros seen q out P done W HP Hq N S C; destruct q as [|n rest]; cbn [walk] in W.
  1,3: injection W as <-; repeat split; auto; [intros x []|]; rewrite app_nil_r in *; intros n c Hn Hc; apply S; eauto.
  1: discriminate.
  destruct (push_spec (children_of n) seen) as (A & B & C1 & D & F).
  destruct (push seen (children_of n)) as [seen' new]. cbn [fst snd] in *.
  destruct (walk fuel (fun _ => true) seen' (rest ++ new)) as [out'|] eqn:E; [|discriminate]. injection W as <-.
  inversion Hq as [|? ? Pn Prest]; subst.
  destruct (IH seen' (rest ++ new) out' P (done ++ [n]) E HP) as (N1 & P1 & I1 & K1).
  - apply Forall_app. split; [exact Prest|]. apply Forall_forall. intros x Hx. apply (HP n); auto.
  - replace ((done ++ [n]) ++ rest ++ new) with ((done ++ n :: rest) ++ new) by (rewrite <- !app_assoc; reflexivity).
    rewrite map_app. apply nodup_app; auto. intros x Hx Hn. apply (D x Hn). now apply S.
  - intro x. replace ((done ++ [n]) ++ rest ++ new) with ((done ++ n :: rest) ++ new) by (rewrite <- !app_assoc; reflexivity).
    rewrite map_app, in_app_iff, B, S. reflexivity.
  - intros m c Hm Hc. apply in_app_iff in Hm as [Hm|[<-|[]]]; [|now apply F]. apply B. left. eauto.
  - rewrite <- app_assoc in *. cbn [app] in *. repeat split; auto.
    intros x [<-|Hx]; [now left|]. right. apply I1. apply in_app_iff. now left.
Qed.

Lemma below_children : forall t n c, below t n -> In c (children_of n) -> below t c.
Proof.
  intros t n c B. induction B as [n|i k cs d m Hd B IH]; intro Hc.
  - destruct n as [i k cs]. eapply below_child; [exact Hc|constructor].
  - eapply below_child; eauto.
Qed.

Lemma filter_all : forall t, identities t -> exists out,
  filter_nodes_by_type t (fun _ => true) = Some out /\ NoDup (map id_of out) /\ forall n, In n out <-> below t n.
Proof.
  intros t I. unfold filter_nodes_by_type.
  destruct (walk_ends (size t) (fun _ => true) [id_of t] [t]) as [out W]; [unfold total; cbn; lia|].
  exists out. split; [exact W|].
  destruct (walk_inv _ _ _ _ (below t) [] W) as (N & P & Q & K).
  - intros. eapply below_children; eauto.
  - constructor; [constructor|constructor].
  - cbn. constructor; [intros []|constructor].
  - intro x. reflexivity.
  - intros n c [].
  - cbn [app] in *. split; [exact N|]. rewrite Forall_forall in P. intro n. split; [apply P|].
    assert (G : forall m, below t m -> In m out -> forall n, below m n -> In n out).
    { intros m Hm Hin n' B. induction B as [m|i k cs c m Hc B IH]; [exact Hin|].
      assert (Bc : below t c) by (eapply below_children; [exact Hm|exact Hc]).
      apply IH; [exact Bc|]. pose proof (K _ c Hin Hc) as Hid. apply in_map_iff in Hid as (c' & E & Hc').
      now rewrite <- (I c' c (P c' Hc') Bc E). }
    apply G; [constructor|]. apply Q. now left.
Qed.

(** ** Trees *)

Definition occ (q : list node) : list node := concat (map occurrences q).
Definition strictly (q : list node) : list node := concat (map (fun n => occ (children_of n)) q).
Lemma occ_app : forall a b, occ (a ++ b) = occ a ++ occ b.
Proof. intros. unfold occ. now rewrite map_app, concat_app. Qed.
Lemma strictly_app : forall a b, strictly (a ++ b) = strictly a ++ strictly b.
Proof. intros. unfold strictly. now rewrite map_app, concat_app. Qed.
Lemma occurrences_eq : forall n, occurrences n = n :: occ (children_of n).
Proof. now intros [i k cs]. Qed.
Lemma occ_perm : forall q, Permutation (occ q) (q ++ strictly q).
Proof.
  induction q as [|n q IH]; [constructor|]. unfold occ, strictly in *. cbn. rewrite occurrences_eq. cbn. constructor.
  fold (occ (children_of n)). rewrite IH. rewrite !app_assoc. apply Permutation_app_tail. apply Permutation_app_comm.
Qed.

(** Nothing is seen twice. *)
Lemma push_fresh : forall cs seen, NoDup (map id_of cs) -> (forall c, In c cs -> ~ In (id_of c) seen) -> snd (push seen cs) = cs
  /\ forall x, In x (fst (push seen cs)) <-> In x seen \/ In x (map id_of cs).
Proof.
  induction cs as [|c r IH]; intros seen N D; cbn [push]; [cbn; split; [reflexivity|tauto]|].
  inversion N as [|? ? N1 N2]; subst.
  destruct (existsb (Nat.eqb (id_of c)) seen) eqn:E.
  - apply mem_spec in E. exfalso. apply (D c); [now left|exact E].
  - destruct (IH (id_of c :: seen) N2) as [A B].
    + intros d Hd [Hs|Hs]; [|apply (D d); [now right|exact Hs]]. apply N1. rewrite Hs. now apply in_map.
    + destruct (push (id_of c :: seen) r) as [s' new]. cbn [fst snd] in *. subst new. split; [reflexivity|].
      intro x. rewrite B. cbn. tauto.
Qed.

(** The walk without marks. *)
Fixpoint plain (fuel : nat) (q : list node) : option (list node) :=
  match q with
  | [] => Some []
  | n :: rest => match fuel with
                 | 0 => None
                 | S f => match plain f (rest ++ children_of n) with Some out => Some (n :: out) | None => None end
                 end
  end.

Lemma NoDup_app_parts : forall (A : Type) (a b : list A), NoDup (a ++ b) -> NoDup a /\ NoDup b /\ forall x, In x a -> ~ In x b.
Proof.
  induction a as [|x a IH]; intros b H; cbn in *; [repeat split; auto; constructor|]. inversion H as [|? ? H1 H2]; subst.
  destruct (IH b H2) as (A1 & A2 & A3). rewrite in_app_iff in H1. repeat split; auto.
  - constructor; tauto.
  - intros y [<-|Hy]; [tauto|]. now apply A3.
Qed.

Lemma walk_plain : forall fuel seen q,
  NoDup (map id_of (occ q)) -> (forall m, In m (strictly q) -> ~ In (id_of m) seen) ->
  walk fuel (fun _ => true) seen q = plain fuel q.
Proof.
  induction fuel as [|fuel IH]; intros seen q N D; destruct q as [|n rest]; cbn [walk plain]; auto.
  assert (PP : Permutation (occ (n :: rest)) (n :: (occ (rest ++ children_of n)))).
  { unfold occ at 1. cbn. fold (occ rest). rewrite occurrences_eq. cbn. constructor. rewrite occ_app. apply Permutation_app_comm. }
  assert (N2 : NoDup (map id_of (occ (rest ++ children_of n)))).
  { apply (Permutation_NoDup (Permutation_map id_of PP)) in N. now inversion N. }
  assert (N3 : NoDup (map id_of (children_of n))).
  { apply (Permutation_NoDup (Permutation_map id_of (occ_perm _))) in N2. rewrite map_app in N2.
    apply NoDup_app_parts in N2 as (N2 & _ & _). rewrite map_app in N2. now apply NoDup_app_parts in N2. }
  assert (IN : forall c, In c (occ (children_of n)) -> In c (strictly (n :: rest))).
  { intros c Hc. unfold strictly. cbn. apply in_app_iff. now left. }
  destruct (push_fresh (children_of n) seen N3) as [A B].
  { intros c Hc. apply D. apply IN. apply (Permutation_in c (Permutation_sym (occ_perm _))). apply in_app_iff. now left. }
  destruct (push seen (children_of n)) as [seen' new]. cbn [fst snd] in *. subst new.
  rewrite IH; auto.
  intros m Hm Hs. apply B in Hs as [Hs|Hs].
  - rewrite strictly_app in Hm. apply (D m); [|exact Hs]. apply in_app_iff in Hm as [Hm|Hm].
    + unfold strictly. cbn. apply in_app_iff. now right.
    + apply IN. apply (Permutation_in m (Permutation_sym (occ_perm _))). apply in_app_iff. now right.
  - apply (Permutation_NoDup (Permutation_map id_of (occ_perm _))) in N2. rewrite map_app in N2.
    apply NoDup_app_parts in N2 as (_ & _ & X). apply (X (id_of m)); [|now apply in_map].
    rewrite map_app. apply in_app_iff. now right.
Qed.

Lemma plain_level : forall a b fuel out, plain fuel (a ++ b) = Some out ->
  exists fuel' out', out = a ++ out' /\ plain fuel' (b ++ concat (map children_of a)) = Some out'.
Proof.
  induction a as [|n a IH]; intros b fuel out W.
  - cbn. rewrite app_nil_r. exists fuel, out. split; [reflexivity|exact W].
  - destruct fuel as [|fuel]; cbn [app plain] in W; [discriminate|].
    destruct (plain fuel ((a ++ b) ++ children_of n)) as [o|] eqn:E; [|discriminate]. injection W as <-.
    rewrite <- app_assoc in E. apply IH in E as (f' & o' & -> & W'). exists f', o'. split; [reflexivity|].
    cbn. rewrite <- app_assoc in W'. exact W'.
Qed.

Definition below_level (d : nat) (t : node) : list node := level d t.
Lemma level_next : forall d t, level (S d) t = concat (map children_of (level d t)).
Proof.
  induction d as [|d IH]; intros [i k cs].
  - cbn. rewrite app_nil_r. induction cs as [|c r IHr]; cbn; [reflexivity|]. now rewrite IHr.
  - change (level (S (S d)) (Node i k cs)) with (concat (map (level (S d)) cs)).
    change (level (S d) (Node i k cs)) with (concat (map (level d) cs)).
    induction cs as [|c r IHr]; cbn [map concat]; [reflexivity|]. rewrite map_app, concat_app, <- IHr. f_equal. apply IH.
Qed.

Fixpoint height (n : node) : nat := match n with Node _ _ cs => S (list_max (map height cs)) end.
Lemma level_empty : forall n d, height n <= d -> level d n = [].
Proof.
  induction n as [i k cs IH] using node_ind2. intros [|d] H; cbn in H; [lia|]. cbn [level].
  assert (M : list_max (map height cs) <= d) by lia. clear H. apply list_max_le in M.
  induction IH as [|c r Hc F IHF]; cbn in *; [reflexivity|]. inversion M; subst. rewrite Hc by assumption. now apply IHF.
Qed.

Lemma plain_levels : forall d t fuel out, plain fuel [t] = Some out ->
  exists fuel' out', out = levels d t ++ out' /\ plain fuel' (level d t) = Some out'.
Proof.
  induction d as [|d IH]; intros t fuel out W.
  - exists fuel, out. split; [reflexivity|exact W].
  - destruct (IH t fuel out W) as (f & o & -> & W1).
    rewrite <- (app_nil_r (level d t)) in W1. apply plain_level in W1 as (f' & o' & -> & W2). cbn in W2.
    exists f', o'. split; [cbn; now rewrite app_assoc|]. now rewrite level_next.
Qed.

Lemma filter_tree : forall t d needle, is_tree t -> level d t = [] ->
  filter_nodes_by_type t needle = Some (filter (fun n => needle (kind_of n)) (levels d t)).
Proof.
  intros t d needle T L. unfold filter_nodes_by_type. rewrite walk_filter.
  destruct (walk_ends (size t) (fun _ => true) [id_of t] [t]) as [out W]; [unfold total; cbn; lia|].
  rewrite W. cbn. do 2 f_equal.
  rewrite walk_plain in W.
  - destruct (plain_levels d t _ _ W) as (f & o & -> & W'). rewrite L in W'. destruct f; injection W' as <-; apply app_nil_r.
  - unfold occ. cbn. rewrite app_nil_r. exact T.
  - intros m Hm [E|[]]. unfold is_tree in T. rewrite occurrences_eq in T. cbn in T. inversion T as [|? ? T1 T2]; subst.
    apply T1. rewrite E. apply in_map. unfold strictly in Hm. cbn in Hm. now rewrite app_nil_r in Hm.
Qed.
