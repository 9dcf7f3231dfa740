(** Proofs about the propagation pass. *)
From Verif Require Import Prelude EncModel AffineModel FxModel FxSpec FxProofs.
From Coq Require Import QArith Relations.
Local Open Scope nat_scope.
Local Open Scope list_scope.

Section Propagate.
Context {S : Type} (g : list node).
Context (Ho : ordered g) (Hv : views_have_input g).

(** One turn of the loop. *)
Inductive turn (m : nat -> option S) (k : nat) : (nat -> option S) -> list nat -> Prop :=
| t_skip : (forall x, view_of g k x -> (m x = None <-> m k = None)) -> turn m k m []
| t_down x s : view_of g k x -> m x = Some s -> m k = None -> turn m k (set_meta m k s) [k]
| t_up x s : view_of g k x -> m x = None -> m k = Some s -> turn m k (set_meta m x s) [x].

Lemma view_fun k x y : view_of g k x -> view_of g k y -> x = y.
Proof.
  intros (n & f & Hn & <- & _ & Ex) (n' & f' & Hn' & E & _ & Ey).
  assert (n' = n) as -> by (eapply node_unique; eauto; exact (proj1 Ho)). congruence.
Qed.

Lemma view_target k x : view_of g k x -> In k (map n_id g) /\ In x (map n_id g).
Proof.
  intros (n & f & Hn & <- & _ & Ex). split; [now apply in_map|].
  apply nth_error_In in Ex. destruct (args_in _ _ _ Ho Hn Ex) as (m & Hm & <-). now apply in_map.
Qed.

Lemma loop_turn fuel k q m m' :
  propagate_loop (Datatypes.S fuel) g (k :: q) m = Ok m' ->
  exists m1 more, turn m k m1 more /\ propagate_loop fuel g (q ++ more) m1 = Ok m'.
Proof.
  cbn [propagate_loop]. destruct (find_node g k) as [n|] eqn:Ef; [|discriminate].
  destruct (find_some _ _ _ Ef) as [Hn <-].
  assert (Hskip : (forall f, n_op n <> CallFunction f true) ->
    turn m (n_id n) m []).
  { intros Hf. apply t_skip. intros x (n' & f & Hn' & E & Eo & _). exfalso. apply (Hf f).
    assert (n' = n) as -> by (eapply node_unique; eauto; exact (proj1 Ho)). exact Eo. }
  assert (Hrest : (forall f, n_op n <> CallFunction f true) -> propagate_loop fuel g q m = Ok m' ->
    exists m1 more, turn m (n_id n) m1 more /\ propagate_loop fuel g (q ++ more) m1 = Ok m').
  { intros Hf Hr. exists m, []. rewrite app_nil_r. auto. }
  destruct (n_op n) as [| |f [] | | |] eqn:Eo; try (intros Hr; apply Hrest; [intros; discriminate|exact Hr]).
  destruct (n_args n) as [|x rest] eqn:Ea; [discriminate|].
  assert (Hvx : view_of g (n_id n) x) by (exists n, f; rewrite Ea; auto).
  unfold annotate_same. intros Hr.
  destruct (m x) as [sx|] eqn:Ex, (m (n_id n)) as [sk|] eqn:Ek.
  - exists m, []. split; [|exact Hr]. apply t_skip. intros y Hy.
    rewrite (view_fun _ _ _ Hy Hvx), Ex, Ek. split; discriminate.
  - exists (set_meta m (n_id n) sx), [n_id n]. split; [|exact Hr]. econstructor 2; eauto.
  - exists (set_meta m x sk), [x]. split; [|exact Hr]. econstructor 3; eauto.
  - exists m, []. split; [|exact Hr]. apply t_skip. intros y Hy.
    rewrite (view_fun _ _ _ Hy Hvx), Ex, Ek. tauto.
Qed.

Lemma turn_mono m k m1 more j s : turn m k m1 more -> m j = Some s -> m1 j = Some s.
Proof.
  destruct 1 as [|x s' Hx Ex Ek|x s' Hx Ex Ek]; auto; intros Hj; unfold set_meta.
  - destruct (Nat.eqb_spec j k) as [->|]; congruence.
  - destruct (Nat.eqb_spec j x) as [->|]; congruence.
Qed.

Lemma loop_ind (P : list nat -> (nat -> option S) -> Prop) (Q : (nat -> option S) -> Prop) :
  (forall m, P [] m -> Q m) ->
  (forall k q m m1 more, P (k :: q) m -> turn m k m1 more -> P (q ++ more) m1) ->
  forall fuel q m m', P q m -> propagate_loop fuel g q m = Ok m' -> Q m'.
Proof.
  intros Hend Hstep. induction fuel as [|fuel IH]; intros q m m' HP.
  - destruct q as [|k q]; cbn; [|discriminate]. intros [= <-]. auto.
  - destruct q as [|k q]; [intros [= <-]; auto|]. intros H.
    apply loop_turn in H as (m1 & more & T & H). eapply IH; [|exact H]. eapply Hstep; eauto.
Qed.

Lemma loop_mono fuel q (m m' : nat -> option S) j s :
  propagate_loop fuel g q m = Ok m' -> m j = Some s -> m' j = Some s.
Proof.
  intros H Hj. revert H. apply (loop_ind (fun _ m => m j = Some s) (fun m => m j = Some s)); auto.
  intros; eapply turn_mono; eauto.
Qed.

Lemma loop_copies fuel q (m m' : nat -> option S) :
  propagate_loop fuel g q m = Ok m' ->
  forall n s, m' n = Some s -> exists k, m k = Some s /\ connected g k n.
Proof.
  intros H. revert H.
  apply (loop_ind (fun _ m1 => forall n s, m1 n = Some s -> exists k, m k = Some s /\ connected g k n)
    (fun m1 => forall n s, m1 n = Some s -> exists k, m k = Some s /\ connected g k n)); auto.
  - intros k q1 m1 m2 more IH T n s. destruct T as [|x s' Hx Ex Ek|x s' Hx Ex Ek]; auto; unfold set_meta.
    + destruct (Nat.eqb_spec n k) as [->|]; [|auto]. intros [= ->].
      destruct (IH _ _ Ex) as (k0 & E0 & C). exists k0. split; auto.
      eapply rt_trans; [exact C|]. apply rt_step. now left.
    + destruct (Nat.eqb_spec n x) as [->|]; [|auto]. intros [= ->].
      destruct (IH _ _ Ek) as (k0 & E0 & C). exists k0. split; auto.
      eapply rt_trans; [exact C|]. apply rt_step. now right.
  - intros n s E. exists n. split; [exact E|]. apply rt_refl.
Qed.

(** Every annotated view gives its input a spec. *)
Lemma loop_up fuel (m m' : nat -> option S) :
  propagate_loop fuel g (map n_id g) m = Ok m' ->
  forall v x, view_of g v x -> m' v <> None -> m' x <> None.
Proof.
  apply (loop_ind (fun q m => forall v x, view_of g v x -> m v <> None -> m x = None -> In v q)
    (fun m => forall v x, view_of g v x -> m v <> None -> m x <> None)).
  - intros m1 H v x Hvx Ev Ex. exact (H v x Hvx Ev Ex).
  - intros k q m1 m2 more IH T v x Hvx Ev Ex.
    destruct T as [Hs|y s Hy Ey Ek|y s Hy Ey Ek].
    + rewrite app_nil_r. destruct (IH v x Hvx Ev Ex) as [->|Hi]; [|exact Hi].
      exfalso. apply Ev. now apply (Hs x).
    + unfold set_meta in *. destruct (Nat.eqb_spec x k) as [->|Hxk]; [discriminate|].
      destruct (Nat.eqb_spec v k) as [->|Hvk].
      * rewrite (view_fun _ _ _ Hvx Hy) in Ex. congruence.
      * apply in_or_app; left. destruct (IH v x Hvx Ev Ex) as [->|Hi]; [congruence|exact Hi].
    + unfold set_meta in *. destruct (Nat.eqb_spec x y) as [->|Hxy]; [discriminate|].
      destruct (Nat.eqb_spec v y) as [->|Hvy].
      * apply in_or_app; right; now left.
      * apply in_or_app; left. destruct (IH v x Hvx Ev Ex) as [->|Hi]; [|exact Hi].
        exfalso. apply Hxy. eapply view_fun; eauto.
  - intros v x Hvx _ _. apply (view_target _ _ Hvx).
Qed.

(** The first pass over the graph reaches everything derived from an annotated node. *)
Lemma loop_first_pass (T : nat -> Prop) l2 : forall l1 extra fuel (m m' : nat -> option S),
  (forall y, T y -> m y <> None \/ exists x, T x /\ view_of g y x) ->
  g = l1 ++ l2 -> (forall y, In y (map n_id l1) -> T y -> m y <> None) ->
  propagate_loop fuel g (map n_id l2 ++ extra) m = Ok m' ->
  forall y, In y (map n_id g) -> T y -> m' y <> None.
Proof.
  assert (Mono : forall fuel q (m m' : nat -> option S) y, propagate_loop fuel g q m = Ok m' -> m y <> None -> m' y <> None).
  { intros fuel q m m' y H Hy. destruct (m y) as [s|] eqn:E; [|contradiction].
    rewrite (loop_mono _ _ _ _ _ _ H E). discriminate. }
  induction l2 as [|n l2 IH]; intros l1 extra fuel m m' HT Eg H1 H y Hy Ty.
  - rewrite app_nil_r in Eg. subst l1. eapply Mono; [exact H|auto].
  - destruct fuel as [|fuel]; [discriminate|]. cbn [map app] in H.
    apply loop_turn in H as (m1 & more & Tn & H). rewrite <- app_assoc in H.
    eapply (IH (l1 ++ [n]) (extra ++ more) fuel m1 m'); [| | |exact H|exact Hy|exact Ty].
    + intros z Tz. destruct (HT z Tz) as [Hz|Hz]; [left|right; exact Hz].
      destruct (m z) as [s|] eqn:E; [|contradiction]. rewrite (turn_mono _ _ _ _ _ _ Tn E). discriminate.
    + rewrite <- app_assoc. exact Eg.
    + intros z Hz Tz. rewrite map_app in Hz. apply in_app_or in Hz as [Hz|[<-|[]]].
      * specialize (H1 z Hz Tz). destruct (m z) as [s|] eqn:E; [|contradiction].
        rewrite (turn_mono _ _ _ _ _ _ Tn E). discriminate.
      * destruct (HT _ Tz) as [Hm|(x & Tx & Hvx)].
        { destruct (m (n_id n)) as [s|] eqn:E; [|contradiction].
          rewrite (turn_mono _ _ _ _ _ _ Tn E). discriminate. }
        assert (Hx : m x <> None).
        { apply H1; [|exact Tx]. destruct Hvx as (n' & f & Hn' & E & _ & Ex).
          assert (n' = n) as ->.
          { eapply node_unique; [exact (proj1 Ho)|exact Hn'| |exact E]. rewrite Eg.
            apply in_or_app; right; now left. }
          apply nth_error_In in Ex. exact (proj2 Ho _ _ _ Eg x Ex). }
        destruct Tn as [Hs|w s Hw Ew Ek|w s Hw Ew Ek]; unfold set_meta.
        -- intros E. apply Hx. now apply (Hs x Hvx).
        -- rewrite Nat.eqb_refl. discriminate.
        -- rewrite (view_fun _ _ _ Hw Hvx) in Ew. contradiction.
Qed.

Lemma loop_down fuel (m m' : nat -> option S) x y :
  propagate_loop fuel g (map n_id g) m = Ok m' ->
  m x <> None -> derived g x y -> m' y <> None.
Proof.
  intros H Hx Hd.
  assert (Mono : m y <> None -> m' y <> None).
  { intros Hy. destruct (m y) as [s|] eqn:E; [|contradiction].
    rewrite (loop_mono _ _ _ _ _ _ H E). discriminate. }
  apply clos_rt_rtn1 in Hd.
  assert (HT : forall z, clos_refl_trans_n1 nat (fun x y => view_of g y x) x z ->
    m z <> None \/ exists w, clos_refl_trans_n1 nat (fun x y => view_of g y x) x w /\ view_of g z w).
  { intros z Hz. inversion Hz as [|w ? Hw Hzw]; subst; [now left|]. right. eauto. }
  destruct (HT _ Hd) as [|(w & Hw & Hv')]; [auto|].
  refine (loop_first_pass _ g [] [] fuel m m' HT eq_refl _ _ y _ Hd).
  - intros z [].
  - rewrite app_nil_r. exact H.
  - apply (view_target _ _ Hv').
Qed.

(** ** Termination *)

Definition missing (m : nat -> option S) : list node :=
  filter (fun n => match m (n_id n) with None => true | _ => false end) g.

Lemma missing_set l (m : nat -> option S) k s : In k (map n_id l) -> m k = None -> NoDup (map n_id l) ->
  length (filter (fun n => match set_meta m k s (n_id n) with None => true | _ => false end) l) <
  length (filter (fun n => match m (n_id n) with None => true | _ => false end) l).
Proof.
  induction l as [|n l IH]; cbn [map In filter]; intros Hi Ek Nd; [contradiction|].
  inversion_clear Nd as [|? ? Hn Nd'].
  assert (Le : forall l', length (filter (fun n => match set_meta m k s (n_id n) with None => true | _ => false end) l')
             <= length (filter (fun n => match m (n_id n) with None => true | _ => false end) l')).
  { induction l' as [|a l' IH']; cbn [filter]; [lia|]. unfold set_meta in *.
    destruct (n_id a =? k); destruct (m (n_id a)); cbn; lia. }
  specialize (Le l).
  destruct Hi as [<-|Hi].
  - rewrite Ek. unfold set_meta at 1. rewrite Nat.eqb_refl. cbn [length]. lia.
  - specialize (IH Hi Ek Nd'). unfold set_meta at 1.
    destruct (Nat.eqb_spec (n_id n) k) as [E|E]; [congruence|].
    destruct (m (n_id n)); cbn [length]; lia.
Qed.

Lemma loop_total fuel : forall q (m : nat -> option S),
  (forall k, In k q -> In k (map n_id g)) -> length q + length (missing m) <= fuel ->
  exists m', propagate_loop fuel g q m = Ok m'.
Proof.
  induction fuel as [|fuel IH]; intros q m Hq Hf.
  - destruct q; cbn in *; [eauto|lia].
  - destruct q as [|k q]; [cbn; eauto|]. cbn [propagate_loop].
    assert (Hq' : forall j, In j q -> In j (map n_id g)) by (intros; apply Hq; now right).
    destruct (in_ids _ _ (Hq k (or_introl eq_refl))) as (n & Hn & En).
    rewrite <- En, (find_in _ _ (proj1 Ho) Hn). cbn [length] in Hf.
    destruct (n_op n) as [| |f [] | | |] eqn:Eo; try (apply IH; [exact Hq'|lia]).
    destruct (n_args n) as [|x rest] eqn:Ea; [exfalso; exact (Hv n f Hn Eo Ea)|].
    assert (Hx : In x (map n_id g)).
    { destruct (args_in g n x Ho Hn) as (p & Hp & <-); [rewrite Ea; now left|]. now apply in_map. }
    assert (Hk : In (n_id n) (map n_id g)) by (now apply in_map).
    unfold annotate_same. destruct (m x) as [sx|] eqn:Ex, (m (n_id n)) as [sk|] eqn:Ek.
    + rewrite app_nil_r. apply IH; [exact Hq'|lia].
    + pose proof (missing_set g m (n_id n) sx Hk Ek (proj1 Ho)) as L. apply IH.
      * intros j Hj. apply in_app_or in Hj as [Hj|[<-|[]]]; auto.
      * rewrite app_length. unfold missing in *. cbn [length]. lia.
    + pose proof (missing_set g m x sk Hx Ex (proj1 Ho)) as L. apply IH.
      * intros j Hj. apply in_app_or in Hj as [Hj|[<-|[]]]; auto.
      * rewrite app_length. unfold missing in *. cbn [length]. lia.
    + rewrite app_nil_r. apply IH; [exact Hq'|lia].
Qed.
End Propagate.

(** ** The pass *)

Lemma propagate_inv {S} fuel g (m : nat -> option S) st' :
  propagate fuel (mkGraph g m) = Ok st' ->
  g_nodes st' = g /\ propagate_loop fuel g (map n_id g) m = Ok (g_meta st').
Proof.
  unfold propagate. cbn [g_nodes g_meta]. destruct (propagate_loop _ _ _ _) as [m'|]; [|discriminate].
  intros [= <-]. auto.
Qed.

Theorem propagate_total {S} g (m : nat -> option S) :
  ordered g -> views_have_input g ->
  exists N, forall fuel, N <= fuel -> exists st', propagate fuel (mkGraph g m) = Ok st'.
Proof.
  intros Ho Hv. exists (length g + length g). intros fuel Hf.
  destruct (loop_total g Ho Hv fuel (map n_id g) m) as (m' & E); [auto| |].
  - rewrite map_length. unfold missing.
    assert (length (filter (fun n => match m (n_id n) with None => true | _ => false end) g) <= length g).
    { clear. induction g as [|a l IH]; cbn; [lia|]. destruct (m (n_id a)); cbn; lia. }
    lia.
  - unfold propagate. cbn [g_nodes g_meta]. rewrite E. cbn. eauto.
Qed.

Theorem propagate_keeps {S} fuel g (m : nat -> option S) st' :
  ordered g -> propagate fuel (mkGraph g m) = Ok st' ->
  g_nodes st' = g /\ forall n s, m n = Some s -> g_meta st' n = Some s.
Proof.
  intros Ho H. apply propagate_inv in H as [E H]. split; [exact E|].
  intros n s Hn. eapply loop_mono; eauto.
Qed.

Theorem propagate_copies {S} fuel g (m : nat -> option S) st' :
  ordered g -> propagate fuel (mkGraph g m) = Ok st' ->
  forall n s, g_meta st' n = Some s -> exists k, m k = Some s /\ connected g k n.
Proof. intros Ho H. apply propagate_inv in H as [E H]. eapply loop_copies; eauto. Qed.

Theorem propagate_up {S} fuel g (m : nat -> option S) st' :
  ordered g -> propagate fuel (mkGraph g m) = Ok st' ->
  forall x y, derived g x y -> g_meta st' y <> None -> g_meta st' x <> None.
Proof.
  intros Ho H. apply propagate_inv in H as [E H].
  intros x y Hd. apply clos_rt_rt1n in Hd. induction Hd as [|x y z Hxy _ IH]; [auto|].
  intros Hz. eapply loop_up; eauto.
Qed.

Theorem propagate_down {S} fuel g (m : nat -> option S) st' :
  ordered g -> propagate fuel (mkGraph g m) = Ok st' ->
  forall x y, m x <> None -> derived g x y -> g_meta st' y <> None.
Proof. intros Ho H. apply propagate_inv in H as [E H]. intros; eapply loop_down; eauto. Qed.

(** Complete if no node has two views, or if the input of every annotated view is annotated. *)
Lemma connected_chain g x y :
  ordered g -> (forall a b c, view_of g a c -> view_of g b c -> a = b) ->
  connected g x y -> derived g x y \/ derived g y x.
Proof.
  intros Ho H1 C. apply clos_rt_rtn1 in C. induction C as [|y z [Hyz|Hzy] _ IH].
  - left. apply rt_refl.
  - (* z is a view of y *)
    destruct IH as [IH|IH]; [left; eapply rt_trans; [exact IH|now apply rt_step]|].
    apply clos_rt_rt1n in IH. inversion IH as [|w ? Hw Hwx]; subst.
    + left. now apply rt_step.
    + right. rewrite (H1 _ _ _ Hyz Hw). now apply clos_rt1n_rt.
  - (* y is a view of z *)
    destruct IH as [IH|IH]; [|right; eapply rt_trans; [apply rt_step, Hzy|exact IH]].
    apply clos_rt_rtn1 in IH. inversion IH as [|w ? Hw Hxw]; subst.
    + right. now apply rt_step.
    + left. rewrite (view_fun g Ho _ _ _ Hzy Hw). now apply clos_rtn1_rt.
Qed.

Lemma connected_downstream {S} g (m : nat -> option S) x y :
  ordered g -> (forall v i, view_of g v i -> m v <> None -> m i <> None) ->
  m x <> None -> connected g x y -> exists a, m a <> None /\ derived g a y.
Proof.
  intros Ho Hup Hx C. apply clos_rt_rtn1 in C. induction C as [|y z [Hyz|Hzy] _ IH].
  - exists x. split; [exact Hx|apply rt_refl].
  - destruct IH as (a & Ha & Hd). exists a. split; [exact Ha|].
    eapply rt_trans; [exact Hd|now apply rt_step].
  - destruct IH as (a & Ha & Hd). apply clos_rt_rtn1 in Hd.
    inversion Hd as [|w ? Hw Hxw]; subst.
    + exists z. split; [eapply Hup; eauto|apply rt_refl].
    + exists a. split; [exact Ha|]. rewrite (view_fun g Ho _ _ _ Hzy Hw). now apply clos_rtn1_rt.
Qed.

Theorem propagate_complete {S} fuel g (m : nat -> option S) st' :
  ordered g -> propagate fuel (mkGraph g m) = Ok st' ->
  (forall a b c, view_of g a c -> view_of g b c -> a = b) \/
  (forall v i, view_of g v i -> m v <> None -> m i <> None) ->
  forall x y, m x <> None -> connected g x y -> g_meta st' y <> None.
Proof.
  intros Ho H Hc x y Hx C. destruct Hc as [H1|Hup].
  - destruct (connected_chain g x y Ho H1 C) as [D|D].
    + eapply propagate_down; eauto.
    + eapply propagate_up; [exact Ho|exact H|exact D|].
      destruct (m x) as [s|] eqn:E; [|contradiction].
      rewrite (proj2 (propagate_keeps _ _ _ _ Ho H) _ _ E). discriminate.
  - destruct (connected_downstream g m x y Ho Hup Hx C) as (a & Ha & D).
    eapply propagate_down; eauto.
Qed.
