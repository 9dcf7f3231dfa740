(** Proofs about ancestors and cycle detection. *)
From Coq Require Import String Ascii Permutation Relations.
From Verif Require Import Prelude GraphModel GraphSpec GraphProofs.
Local Open Scope nat_scope.
Local Open Scope list_scope.

(** ** A worklist walk *)
Fixpoint wl (fuel : nat) (next : nat -> list nat) (frontier coll : list nat) : option (list nat) :=
  match frontier with
  | [] => Some coll
  | x :: f =>
      match fuel with
      | 0 => None
      | S k => if existsb (Nat.eqb x) coll then wl k next f coll else wl k next (next x ++ f) (x :: coll)
      end
  end.
Definition work (U : list nat) (next : nat -> list nat) (coll : list nat) : nat :=
  list_sum (map (fun u => if existsb (Nat.eqb u) coll then 0 else S (length (next u))) U).
Lemma list_sum_cons a l : list_sum (a :: l) = a + list_sum l.
Proof. reflexivity. Qed.
Lemma work_cons u U next coll :
  work (u :: U) next coll = (if existsb (Nat.eqb u) coll then 0 else S (length (next u))) + work U next coll.
Proof. reflexivity. Qed.
Lemma work_le U next x coll : work U next (x :: coll) <= work U next coll.
Proof.
  induction U as [|u U IH]; [apply le_n|]. rewrite !work_cons. cbn [existsb]. destruct (u =? x); cbn [orb]; [lia|].
  destruct (existsb (Nat.eqb u) coll); lia.
Qed.
Lemma work_drop U next x coll : In x U -> ~ In x coll -> S (length (next x)) + work U next (x :: coll) <= work U next coll.
Proof.
  induction U as [|u U IH]; [intros []|]. intros H N. rewrite !work_cons. cbn [existsb].
  destruct (Nat.eqb_spec u x) as [->|Ne]; cbn [orb].
  - assert (existsb (Nat.eqb x) coll = false) as -> by now apply mem_notin. pose proof (work_le U next x coll). lia.
  - destruct H as [->|H]; [congruence|]. specialize (IH H N). destruct (existsb (Nat.eqb u) coll); lia.
Qed.
Lemma wl_spec U next : (forall x, In x U -> incl (next x) U) ->
  forall m frontier coll, work U next coll + length frontier <= m -> incl frontier U -> NoDup coll -> 
  exists c, (forall fuel, m <= fuel -> wl fuel next frontier coll = Some c) /\ NoDup c /\ incl coll c /\ incl frontier c /\
    (forall x, In x c -> In x coll \/ exists f, In f frontier /\ clos_refl_trans nat (fun a b => In b (next a)) f x) /\
    ((forall x, In x coll -> incl (next x) (coll ++ frontier)) -> forall x, In x c -> incl (next x) c).
Proof.
  intros CU. induction m as [m IH] using lt_wf_ind. intros frontier coll Lm FU N.
  destruct frontier as [|x f].
  - exists coll. split; [intros [|k] _; reflexivity|]. split; [exact N|]. split; [apply incl_refl|]. split; [intros ? []|].
    split; [intros x H; now left|]. intros C y H. rewrite app_nil_r in C. now apply C.
  - destruct m as [|m]; [cbn in Lm; lia|]. destruct (existsb (Nat.eqb x) coll) eqn:E.
    + destruct (IH m ltac:(lia) f coll) as (c & R & Nc & I1 & I2 & S1 & S2); [cbn in Lm; lia|intros y Hy; apply FU; now right|exact N|].
      apply mem_in in E as E'. exists c. split; [|split; [exact Nc|split; [exact I1|split; [|split]]]].
      * intros [|k] Hk; [lia|]. cbn [wl]. rewrite E. apply R. lia.
      * intros y [<-|Hy]; [now apply I1|now apply I2].
      * intros y Hy. destruct (S1 y Hy) as [?|(a & Ha & T)]; [now left|]. right. exists a. split; [now right|exact T].
      * intros C. apply S2. intros y Hy z Hz. specialize (C y Hy z Hz). rewrite in_app_iff in *. cbn in C.
        destruct C as [?|[->|?]]; [now left|now left|now right].
    + apply mem_notin in E as E'. assert (Xu : In x U) by (apply FU; now left).
      pose proof (work_drop U next x coll Xu E') as W.
      destruct (IH m ltac:(lia) (next x ++ f) (x :: coll)) as (c & R & Nc & I1 & I2 & S1 & S2).
      * rewrite app_length. cbn [length] in Lm. lia.
      * apply incl_app; [now apply CU|]. intros y Hy. apply FU. now right.
      * now constructor.
      * exists c. split; [|split; [exact Nc|split; [|split; [|split]]]].
        -- intros [|k] Hk; [lia|]. cbn [wl]. rewrite E. apply R. lia.
        -- intros y Hy. apply I1. now right.
        -- intros y [<-|Hy]; [apply I1; now left|]. apply I2. rewrite in_app_iff. now right.
        -- intros y Hy. destruct (S1 y Hy) as [[->|?]|(a & Ha & T)]; [right; exists y; split; [now left|apply rt_refl]|now left|].
           rewrite in_app_iff in Ha. destruct Ha as [Ha|Ha]; right; [exists x|exists a]; (split; [(now left) + (now right)|]); [|exact T].
           apply rt_trans with a; [now apply rt_step|exact T].
        -- intros C. apply S2. intros y [<-|Hy] z Hz.
           ++ rewrite !in_app_iff. right. now left.
           ++ specialize (C y Hy z Hz). rewrite in_app_iff in *. cbn in C. cbn [In]. rewrite in_app_iff. tauto.
Qed.
Lemma wl_reach U next start : (forall x, In x U -> incl (next x) U) -> In start U ->
  exists c N, (forall fuel, N <= fuel -> wl fuel next [start] [] = Some c) /\ NoDup c /\
    forall x, In x c <-> clos_refl_trans nat (fun a b => In b (next a)) start x.
Proof.
  intros CU Hs. destruct (wl_spec U next CU (work U next [] + 1) [start] []) as (c & R & Nc & _ & I2 & S1 & S2).
  - cbn. lia.
  - intros x [<-|[]]. exact Hs.
  - constructor.
  - exists c, (work U next [] + 1). split; [exact R|]. split; [exact Nc|]. intros x. split.
    + intros H. destruct (S1 x H) as [[]|(f & [<-|[]] & T)]. exact T.
    + assert (Cl : forall y, In y c -> incl (next y) c) by (apply S2; intros ? []).
      intros T. apply clos_rt_rtn1 in T. induction T as [|y z Hz T IH]; [apply I2; now left|]. now apply (Cl y).
Qed.

(** ** Ancestors *)
Definition known (g : graph) : Prop := forall a b, feeds g a b -> node_in g a.
Definition back_next (g : graph) (stop : option nat) (x : nat) : list nat :=
  if match stop with Some s => x =? s | None => false end then []
  else match get_node g x with Some n => rev (inputs_of n) | None => [] end.
Lemma back_next_in g stop x a : graph_ok g -> In a (back_next g stop x) <-> feeds g a x /\ Some x <> stop.
Proof.
  intros G. unfold back_next. destruct (match stop with Some s => x =? s | None => false end) eqn:E.
  - destruct stop as [s|]; [|discriminate]. apply Nat.eqb_eq in E. subst. split; [intros []|intros [_ N]; now destruct N].
  - assert (N : Some x <> stop) by (destruct stop; [apply Nat.eqb_neq in E; congruence|discriminate]).
    rewrite feeds_inputs. destruct (get_node g x) as [n|] eqn:Q.
    + apply get_node_some in Q as (Hn & En). rewrite <- in_rev. split; [intros H; eauto|].
      intros ((m & Hm & Em & I) & _). now rewrite (node_unique g n m G Hn Hm (eq_trans En (eq_sym Em))).
    + split; [intros []|]. intros ((m & Hm & Em & I) & _). rewrite (get_node_in g x m G Hm Em) in Q. discriminate.
Qed.
Lemma node_found g x : graph_ok g -> node_in g x -> exists n, get_node g x = Some n.
Proof. intros G H. apply in_map_iff in H. destruct H as (n & E & H). exists n. now apply get_node_in. Qed.

Lemma backward_wl g stop : graph_ok g -> known g ->
  forall fuel frontier coll reached c, (forall x, In x frontier -> node_in g x) ->
    wl fuel (back_next g stop) frontier coll = Some c ->
    backward fuel g stop frontier coll reached =
      Ok (c, reached || match stop with Some s => existsb (Nat.eqb s) c && negb (existsb (Nat.eqb s) coll) | None => false end).
Proof.
  intros G K. induction fuel as [|k IH]; intros [|x f] coll reached c Hf W; cbn [wl backward] in *;
    try (injection W as <-; rewrite ?andb_negb_r; destruct stop; now rewrite ?andb_negb_r, ?orb_false_r); [discriminate|].
  assert (Hf' : forall y, In y f -> node_in g y) by (intros y Hy; apply Hf; now right).
  destruct (existsb (Nat.eqb x) coll) eqn:E; [now apply IH|].
  unfold back_next in W at 2. destruct (match stop with Some s => x =? s | None => false end) eqn:Q.
  - destruct stop as [s|]; [|discriminate]. apply Nat.eqb_eq in Q. subst s. rewrite (IH f (x :: coll) true c Hf' W).
    cbn [orb]. rewrite E. cbn [negb]. rewrite andb_true_r.
    assert (Hc : existsb (Nat.eqb x) c = true).
    { clear - W. apply mem_in. cbn [app] in W. assert (Hx : In x (x :: coll)) by now left. revert Hx W. generalize (x :: coll) as cl. generalize f as fr.
      induction k as [|k IH]; intros [|y fr] cl Hx W; cbn [wl] in W; try (injection W as <-; exact Hx); [discriminate|].
      destruct (existsb (Nat.eqb y) cl); [now apply (IH fr cl)|]. eapply IH; [|exact W]. now right. }
    rewrite Hc. now rewrite orb_true_r.
  - destruct (node_found g x G) as (n & Qn); [apply Hf; now left|]. unfold node_inputs. rewrite Qn in W |- *. cbn [rbind].
    rewrite (IH (rev (inputs_of n) ++ f) (x :: coll) reached c).
    + destruct stop as [s|]; [|reflexivity]. cbn [existsb]. rewrite (Nat.eqb_sym s x). now rewrite Q.
    + intros y Hy. rewrite in_app_iff in Hy. destruct Hy as [Hy|Hy]; [|now apply Hf'].
      apply get_node_some in Qn as (Hn & En). apply (K y x). apply feeds_inputs. exists n. rewrite <- in_rev in Hy. auto.
    + exact W.
Qed.

Lemma upstream_rt g stop x y : graph_ok g -> upstream g stop x y <-> clos_refl_trans nat (fun a b => In b (back_next g stop a)) y x.
Proof.
  intros G. split.
  - induction 1 as [x|x y z F N U IH]; [apply rt_refl|]. apply rt_trans with y; [exact IH|]. apply rt_step. now apply back_next_in.
  - intros T. apply clos_rt_rtn1 in T. induction T as [|a b Hb T IH]; [constructor|].
    apply back_next_in in Hb as [F N]; [|exact G]. now apply up_step with a.
Qed.

Definition ancestors_spec (g : graph) (node : nat) (stop : option nat) (c : list nat) (reached : bool) : Prop :=
  NoDup c /\ (forall x, In x c <-> upstream g stop x node) /\
  (reached = true <-> match stop with Some s => upstream g stop s node | None => True end).

Lemma backward_spec g node stop : graph_ok g -> known g -> node_in g node ->
  exists c reached N, (forall fuel, N <= fuel ->
      backward fuel g stop [node] [] (match stop with None => true | _ => false end) = Ok (c, reached)) /\
    ancestors_spec g node stop c reached.
Proof.
  intros G K Hn. destruct (wl_reach (map n_id (g_nodes g)) (back_next g stop) node) as (c & N & R & Nc & Sp).
  - intros x _ a Ha. apply back_next_in in Ha as [F _]; [|exact G]. now apply (K a x).
  - exact Hn.
  - assert (Sp' : forall x, In x c <-> upstream g stop x node) by (intros x; rewrite Sp; symmetry; now apply upstream_rt).
    eexists c, _, N. split.
    + intros fuel Hf. apply backward_wl; try assumption; [|now apply R]. intros x [<-|[]]. exact Hn.
    + split; [exact Nc|]. split; [exact Sp'|]. destruct stop as [s|]; [|now cbn]. cbn [orb existsb negb]. rewrite andb_true_r, mem_in. apply Sp'.
Qed.

Theorem ancestors_correct g node stop : graph_ok g -> known g -> node_in g node ->
  exists c reached N, (forall fuel, N <= fuel -> ancestors fuel g node stop false = Ok (c, reached)) /\
    ancestors_spec g node stop c reached.
Proof.
  intros G K Hn. destruct (backward_spec g node stop G K Hn) as (c & r & N & R & Sp). exists c, r, N. split; [|exact Sp].
  intros fuel Hf. unfold ancestors. cbn [andb negb]. now rewrite (R fuel Hf).
Qed.

(** forward walk *)
Definition fwd_next (g : graph) (coll : list nat) (x : nat) : list nat :=
  rev (filter (fun o => existsb (Nat.eqb o) coll) (node_outputs g x)).
Lemma fwd_next_in g coll x y : In y (fwd_next g coll x) <-> feeds g x y /\ In y coll.
Proof. unfold fwd_next. rewrite <- in_rev, filter_In, mem_in, outputs_feeds. reflexivity. Qed.
Lemma forward_wl g coll : graph_ok g -> (forall x, In x coll -> node_in g x) ->
  forall fuel frontier path c, (forall x, In x frontier -> node_in g x) ->
    wl fuel (fwd_next g coll) frontier path = Some c -> forward fuel g coll frontier path = Ok c.
Proof.
  intros G K. induction fuel as [|k IH]; intros [|x f] path c Hf W; cbn [wl forward] in *; try (injection W as <-; reflexivity); [discriminate|].
  assert (Hf' : forall y, In y f -> node_in g y) by (intros y Hy; apply Hf; now right).
  destruct (existsb (Nat.eqb x) path); [now apply IH|]. destruct (node_found g x G) as (n & ->); [apply Hf; now left|].
  apply IH; [|exact W]. intros y Hy. rewrite in_app_iff in Hy. destruct Hy as [Hy|Hy]; [|now apply Hf'].
  apply fwd_next_in in Hy. now apply K.
Qed.

Lemma upstream_trans_rt g stop x y : upstream g stop x y -> clos_refl_trans nat (feeds g) x y.
Proof. induction 1 as [x|x y z F N U IH]; [apply rt_refl|]. apply rt_trans with y; [now apply rt_step|exact IH]. Qed.
Lemma rt_t {A} (R : A -> A -> Prop) x y : clos_refl_trans A R x y -> x = y \/ clos_trans A R x y.
Proof. intros T. apply clos_rt_rt1n in T. induction T as [|x y z Rxy T IH]; [now left|]. right. destruct IH as [<-|IH]; [now apply t_step|]. apply t_trans with y; [now apply t_step|exact IH]. Qed.
Lemma t_rt {A} (R : A -> A -> Prop) x y z : clos_trans A R x y -> clos_refl_trans A R y z -> clos_trans A R x z.
Proof. intros T U. apply rt_t in U. destruct U as [<-|U]; [exact T|]. now apply t_trans with y. Qed.

Theorem ancestors_strict g node s : graph_ok g -> known g -> node_in g node ->
  (forall x, ~ clos_trans nat (feeds g) x x) ->
  exists c reached N, (forall fuel, N <= fuel -> ancestors fuel g node (Some s) true = Ok (c, reached)) /\ NoDup c /\
    (reached = true <-> clos_refl_trans nat (feeds g) s node) /\
    (forall x, In x c <-> clos_refl_trans nat (feeds g) s x /\ clos_refl_trans nat (feeds g) x node).
Proof.
  intros G K Hn Ac. destruct (backward_spec g node (Some s) G K Hn) as (coll & r & N & R & Nc & Sp & Rs).
  assert (AU : forall x, clos_refl_trans nat (feeds g) s x -> clos_refl_trans nat (feeds g) x node -> upstream g (Some s) x node).
  { intros x Sx Xn. apply clos_rt_rt1n in Xn. induction Xn as [x|x y z F Y IH]; [constructor|].
    apply up_step with y; [exact F| |apply IH; [exact Hn|exact R|exact Sp|exact Rs|]].
    - intros E. injection E as ->. apply (Ac s). apply t_rt with s; [|apply rt_refl].
      apply rt_t in Sx. destruct Sx as [<-|Sx]; [now apply t_step|]. apply t_trans with x; [exact Sx|now apply t_step].
    - apply rt_trans with x; [exact Sx|now apply rt_step]. }
  assert (Rr : r = true <-> clos_refl_trans nat (feeds g) s node).
  { rewrite Rs. split; [apply upstream_trans_rt|]. intros T. apply AU; [apply rt_refl|exact T]. }
  destruct r eqn:Er.
  - assert (Sin : In s coll) by (apply Sp; now apply Rs).
    assert (CN : forall x, In x coll -> node_in g x).
    { intros x Hx. apply Sp in Hx. inversion Hx as [|? y ? F]; subst; [exact Hn|]. now apply (K x y). }
    destruct (wl_reach coll (fwd_next g coll) s) as (p & M & Rp & Np & Spp).
    + intros x Hx y Hy. now apply fwd_next_in in Hy.
    + exact Sin.
    + exists p, true, (max N M). split; [|split; [exact Np|split; [exact Rr|]]].
      * intros fuel Hf. unfold ancestors. cbn [andb]. rewrite (R fuel) by lia. cbn [rbind negb].
        rewrite (forward_wl g coll G CN fuel [s] [] p); [reflexivity| |apply Rp; lia].
        intros x [<-|[]]. now apply CN.
      * intros x. rewrite Spp. split.
        -- intros T. assert (Q : clos_refl_trans nat (feeds g) s x /\ In x coll).
           { apply clos_rt_rtn1 in T. induction T as [|a b Hb T [IH _]]; [split; [apply rt_refl|exact Sin]|].
             apply fwd_next_in in Hb. split; [|apply Hb]. apply rt_trans with a; [exact IH|now apply rt_step]. }
           destruct Q as [Q1 Q2]. split; [exact Q1|]. apply Sp in Q2. now apply upstream_trans_rt in Q2.
        -- intros [S1 S2]. apply clos_rt_rtn1 in S1. induction S1 as [|a b Hb T IH]; [apply rt_refl|].
           apply rt_trans with a; [apply IH; apply rt_trans with b; [now apply rt_step|exact S2]|].
           apply rt_step. apply fwd_next_in. split; [exact Hb|]. apply Sp. apply AU; [|exact S2].
           apply clos_rtn1_rt in T. apply rt_trans with a; [exact T|now apply rt_step].
  - exists [], false, N. split; [|split; [constructor|split; [exact Rr|]]].
    + intros fuel Hf. unfold ancestors. cbn [andb]. now rewrite (R fuel Hf).
    + intros x. split; [intros []|]. intros [S1 S2]. assert (false = true) by (apply Rr; now apply rt_trans with x). discriminate.
Qed.

Theorem ancestors_all g node : graph_ok g -> known g -> node_in g node ->
  exists c N, (forall fuel, N <= fuel -> ancestors fuel g node None false = Ok (c, true)) /\
    NoDup c /\ forall x, In x c <-> clos_refl_trans nat (feeds g) x node.
Proof.
  intros G K Hn. destruct (ancestors_correct g node None G K Hn) as (c & r & N & R & Nc & S & Rr).
  assert (r = true) as -> by now apply Rr. exists c, N. split; [exact R|]. split; [exact Nc|]. intros x. rewrite S.
  clear. split.
  - induction 1 as [|x y z F _ _ IH]; [apply rt_refl|]. eapply rt_trans; [apply rt_step; exact F|exact IH].
  - intros H. apply clos_rt_rt1n in H. induction H as [|x y z F _ IH]; [constructor|]. eapply up_step; [exact F|discriminate|exact IH].
Qed.
