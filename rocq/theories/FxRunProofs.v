(** What annotated graphs compute. *)
From Verif Require Import Prelude EncModel AffineModel FxModel FxSpec FxProofs.
From Coq Require Import QArith Relations.
Local Open Scope nat_scope.
Local Open Scope list_scope.

Section Run.
Context {V : Type} (val : (nat -> V) -> node -> V).
Context (Hval : forall e e' n, (forall a, In a (n_args n) -> e a = e' a) -> val e n = val e' n).

Definition exec (g : list node) (e : nat -> V) : nat -> V :=
  fold_left (fun e n => bind e (n_id n) (val e n)) g e.

Lemma exec_other g e k : ~ In k (map n_id g) -> exec g e k = e k.
Proof.
  unfold exec. revert e; induction g as [|n g IH]; intros e H; cbn; [reflexivity|].
  rewrite IH; [|intros Hi; apply H; now right]. unfold bind.
  destruct (Nat.eqb_spec k (n_id n)) as [->|]; [|reflexivity]. exfalso; apply H; now left.
Qed.

Lemma exec_app g1 g2 e : exec (g1 ++ g2) e = exec g2 (exec g1 e).
Proof. apply fold_left_app. Qed.

(** A run of an ordered graph solves the equations of its nodes... *)
Lemma exec_fix g e n : ordered g -> In n g -> exec g e (n_id n) = val (exec g e) n.
Proof.
  intros Ho Hn. pose proof Ho as [Nd Hord]. apply in_split in Hn as (pre & post & E).
  assert (Nd2 : NoDup (map n_id pre ++ n_id n :: map n_id post)).
  { rewrite E, map_app in Nd. exact Nd. }
  assert (Hpost : ~ In (n_id n) (map n_id post)).
  { apply NoDup_remove_2 in Nd2. intros H; apply Nd2, in_or_app; now right. }
  assert (E1 : exec g e (n_id n) = val (exec pre e) n).
  { rewrite E, exec_app. change (exec (n :: post) (exec pre e)) with
      (exec post (bind (exec pre e) (n_id n) (val (exec pre e) n))).
    rewrite exec_other by exact Hpost. unfold bind. now rewrite Nat.eqb_refl. }
  rewrite E1. apply Hval. intros a Ha. specialize (Hord _ _ _ E a Ha).
  rewrite E, exec_app. symmetry. rewrite exec_other; [reflexivity|].
  cbn. intros [<-|H].
  - apply NoDup_remove_2 in Nd2. apply Nd2, in_or_app; now left.
  - assert (Ndp : forall (l1 l2 : list nat) z, NoDup (l1 ++ l2) -> In z l1 -> ~ In z l2).
    { clear. induction l1 as [|b l1 IH]; cbn; intros l2 z N Hz Hz2; [contradiction|].
      inversion_clear N as [|? ? Hb N']. destruct Hz as [->|Hz]; [|eapply IH; eauto].
      apply Hb, in_or_app; now right. }
    apply NoDup_remove_1 in Nd2. exact (Ndp _ _ _ Nd2 Hord H).
Qed.

(** ... and every other solution agrees with it. *)
Lemma exec_unique g e E :
  ordered g -> (forall n, In n g -> E (n_id n) = val E n) ->
  forall n, In n g -> exec g e (n_id n) = E (n_id n).
Proof.
  intros Ho HE.
  assert (G : forall l post, g = l ++ post -> forall n, In n l -> exec g e (n_id n) = E (n_id n)).
  { induction l as [|n l IH] using rev_ind; intros post Eg m Hm; [contradiction|].
    rewrite <- app_assoc in Eg. cbn in Eg.
    apply in_app_or in Hm as [Hm|[<-|[]]]; [exact (IH _ Eg _ Hm)|].
    assert (Hn : In n g) by (rewrite Eg; apply in_or_app; right; now left).
    rewrite exec_fix, HE by auto. apply Hval. intros a Ha.
    destruct (before_in _ _ _ _ _ Ho Eg Ha) as (p & Hp & <-). exact (IH _ Eg _ Hp). }
  intros n Hn. apply (G g []); [now rewrite app_nil_r|exact Hn].
Qed.
End Run.

(** ** The annotated graph is ordered *)

Section Kept.
Context (g g' : list node) (Ho : ordered g).
Context (F : Forall2 (fun n n' => n_id n' = n_id n /\ n_op n' = n_op n /\ n_shape n' = n_shape n /\
             Forall2 (origin g) (n_args n) (n_args n'))
    (filter (fun n => negb (is_quantization_node n)) g) g').

Lemma kept_ids l l' :
  Forall2 (fun n n' => n_id n' = n_id n /\ n_op n' = n_op n /\ n_shape n' = n_shape n /\
             Forall2 (origin g) (n_args n) (n_args n')) l l' -> map n_id l' = map n_id l.
Proof. induction 1 as [|n n' l l' (E & _) _ IH]; cbn; congruence. Qed.

Lemma F2_split_r {A B} (R : A -> B -> Prop) l l1 y l2 :
  Forall2 R l (l1 ++ y :: l2) ->
  exists k1 x k2, l = k1 ++ x :: k2 /\ Forall2 R k1 l1 /\ R x y /\ Forall2 R k2 l2.
Proof.
  revert l; induction l1 as [|z l1 IH]; cbn; intros l H; inversion H; subst.
  - exists [], x, l0. auto.
  - apply IH in H4 as (k1 & x' & k2 & -> & ? & ? & ?). exists (x :: k1), x', k2. auto.
Qed.

Lemma filter_split_at {A} (f : A -> bool) l k1 x k2 :
  filter f l = k1 ++ x :: k2 ->
  exists l1 l2, l = l1 ++ x :: l2 /\ filter f l1 = k1 /\ f x = true.
Proof.
  revert k1; induction l as [|a l IH]; cbn; intros k1 E; [destruct k1; discriminate|].
  destruct (f a) eqn:Ef.
  - destruct k1 as [|b k1]; cbn in E.
    + injection E as -> E. exists [], l. auto.
    + injection E as -> E. apply IH in E as (l1 & l2 & -> & <- & ?).
      exists (b :: l1), l2. cbn. rewrite Ef. auto.
  - apply IH in E as (l1 & l2 & -> & <- & ?). exists (a :: l1), l2. cbn. rewrite Ef. auto.
Qed.

Lemma kept_ordered : ordered g'.
Proof.
  split.
  - rewrite (kept_ids _ _ F). apply NoDup_filter_ids. exact (proj1 Ho).
  - intros pre n' post -> b Hb.
    apply F2_split_r in F as (k1 & n & k2 & E & F1 & (_ & _ & _ & Fa) & _).
    apply filter_split_at in E as (l1 & l2 & Eg & Ek & Hn).
    destruct (F2_in_r _ _ _ _ Fa Hb) as (a & Ha & Hor).
    rewrite (kept_ids _ _ F1), <- Ek.
    destruct Ho as [_ Hord]. pose proof (Hord _ _ _ Eg a Ha) as Hpre.
    apply origin_originP in Hor.
    pose proof (originP_before _ _ _ _ _ _ _ Ho Eg Hpre Hor) as Hbpre.
    destruct (originP_target _ _ _ _ Hor) as (m & Hm & <- & Hq).
    apply in_ids in Hbpre as (m' & Hm' & E).
    assert (m' = m) as ->.
    { eapply node_unique; [exact (proj1 Ho)| |exact Hm|exact E].
      rewrite Eg. apply in_or_app; now left. }
    apply in_map. apply filter_In. split; [exact Hm'|].
    destruct (is_quantization_node m) eqn:Em; [|reflexivity]. exfalso. apply Hq.
    now apply is_qdq_iff.
Qed.
End Kept.

(** ** With quantization switched off *)

Lemma run_exec {V} (interp : op -> list V -> V) g e :
  run interp g e = exec (fun e n => interp (n_op n) (map e (n_args n))) g e.
Proof. reflexivity. Qed.

Lemma val_local {V} (interp : op -> list V -> V) e e' n :
  (forall a, In a (n_args n) -> e a = e' a) ->
  interp (n_op n) (map e (n_args n)) = interp (n_op n) (map e' (n_args n)).
Proof. intros H. f_equal. now apply map_ext_in. Qed.

Lemma run_fix {V} (interp : op -> list V -> V) g e n : ordered g -> In n g ->
  run interp g e (n_id n) = interp (n_op n) (map (run interp g e) (n_args n)).
Proof. intros Ho Hn. exact (exec_fix _ (val_local interp) g e n Ho Hn). Qed.

Theorem annotate_same_function {V} params g meta0 st' (interp : op -> list V -> V) :
  ordered g -> without_quantization interp ->
  annotate params (mkGraph g meta0) = Ok st' ->
  forall e n, In n g -> ~ is_qdq n ->
    run interp (g_nodes st') e (n_id n) = run interp g e (n_id n).
Proof.
  intros Ho Hw H e n Hn Hq.
  pose proof (annotate_nodes _ _ _ _ Ho H) as F. pose proof (kept_ordered _ _ Ho F) as Ho'.
  assert (Hor : forall a b, origin g a b -> run interp g e a = run interp g e b).
  { induction 1 as [m Hm Hmq|m x r b Hm Hmq Ex _ IH]; [reflexivity|]. rewrite <- IH.
    rewrite (run_fix interp g e m Ho Hm). rewrite Ex. cbn [map].
    pose proof (Hw (n_op m)) as W. unfold is_qdq in Hmq. destruct (n_op m); try contradiction; apply W. }
  destruct (F2_in_l _ _ _ n F) as (n' & Hn' & E1 & _).
  { apply filter_In. split; [exact Hn|]. destruct (is_quantization_node n) eqn:E; [|reflexivity].
    exfalso. now apply Hq, is_qdq_iff. }
  rewrite <- E1. rewrite run_exec.
  apply (exec_unique _ (val_local interp) _ e (run interp g e) Ho'); [|exact Hn'].
  intros m' Hm'. destruct (F2_in_r _ _ _ _ F Hm') as (m & Hm & Ei & Eo & _ & Fa).
  apply filter_In in Hm as [Hm _]. rewrite Ei, Eo.
  rewrite (run_fix interp g e m Ho Hm). f_equal.
  clear -Fa Hor. induction Fa as [|a b la lb Ha _ IH]; cbn; [reflexivity|].
  f_equal; auto.
Qed.

(** ** With quantization: the backend's reading *)

Theorem annotate_faithful {V} params g st' (interp : op -> list V -> V) (fake : spec -> V -> V) e :
  ordered g -> separated g ->
  annotate params (mkGraph g (fun _ => None)) = Ok st' ->
  (forall d q x s v, In d g -> quantizes g q x -> spec_of params g q x s ->
     (exists t rest, n_op d = Dequantize t /\ n_args d = n_id q :: rest) ->
     interp (n_op d)
       (interp (n_op q) (v :: map (run interp g e) (tl (n_args q)))
        :: map (run interp g e) (tl (n_args d))) = fake s v) ->
  forall n, In n g -> ~ is_qdq n ->
    run_annotated interp fake st' e (n_id n) = run interp g e (n_id n).
Proof.
  intros Ho (Hsq & Hsd & Hsx & Hsr) H Hfake n Hn Hnq.
  pose proof (annotate_nodes _ _ _ _ Ho H) as F. pose proof (kept_ordered _ _ Ho F) as Ho'.
  destruct (annotate_specs _ _ _ _ Ho H) as [Hnone Hlast].
  set (read := fun (e : nat -> V) a => match g_meta st' a with Some s => fake s (e a) | None => e a end).
  set (val := fun (e : nat -> V) (n : node) => interp (n_op n) (map (read e) (n_args n))).
  assert (Hval : forall e e' n, (forall a, In a (n_args n) -> e a = e' a) -> val e n = val e' n).
  { intros e1 e2 m Hm. unfold val. f_equal. apply map_ext_in. intros a Ha. unfold read.
    now rewrite (Hm a Ha). }
  change (run_annotated interp fake st' e) with (exec val (g_nodes st') e).
  set (E := run interp g e) in *.
  assert (Efix : forall m, In m g -> E (n_id m) = interp (n_op m) (map E (n_args m))).
  { intros m Hm. exact (run_fix interp g e m Ho Hm). }
  destruct (F2_in_l _ _ _ n F) as (n' & Hn' & E1 & _).
  { apply filter_In. split; [exact Hn|]. destruct (is_quantization_node n) eqn:Eq; [|reflexivity].
    exfalso. now apply Hnq, is_qdq_iff. }
  rewrite <- E1. apply (exec_unique _ Hval _ e E Ho'); [|exact Hn'].
  intros m' Hm'. destruct (F2_in_r _ _ _ _ F Hm') as (m & Hm & Ei & Eo & _ & Fa).
  apply filter_In in Hm as [Hm Hmk]. rewrite Ei. unfold val. rewrite Eo, Efix by exact Hm. f_equal.
  assert (Hmq : ~ is_qdq m).
  { intros Hq. apply is_qdq_iff in Hq. rewrite Hq in Hmk. discriminate. }
  assert (G : forall a b, In a (n_args m) -> origin g a b -> E a = read E b).
  { intros a b Ha Hor. unfold read. inversion Hor as [p Hp Hpq E2|p x r b' Hp Hpq Ex Hor' E2]; subst.
    - (* read without a quantizer *)
      rewrite Hnone; [reflexivity|]. intros q (Hq & Hqq & Hqo).
      inversion Hqo as [q0 Hq0 Hqq0 E3 E4|q0 y r0 b0 Hq0 Hqq0 Ey Hqo' E3 E4]; subst.
      + assert (q0 = q) as -> by (eapply node_unique; eauto; exact (proj1 Ho)).
        apply Hqq0. unfold is_quantize, is_qdq in *. now destruct (n_op q).
      + assert (q0 = q) as -> by (eapply node_unique; eauto; exact (proj1 Ho)).
        destruct (Hsr _ _ _ Hq Hqq Ey) as (_ & z & Hz & Ez & Hzq).
        assert (y = n_id p) as ->.
        { apply origin_originP in Hqo'. eapply originP_fun; [exact (proj1 Ho)| |exact Hqo'].
          rewrite <- Ez. now constructor. }
        eapply Hsx; [exact Hq|exact Hqq|exact Ey|exact Hm| |exact Ha].
        intros ->. apply Hmq. unfold is_quantize, is_qdq in *. now destruct (n_op q).
    - (* read through a dequantizer and a quantizer *)
      assert (Hpd : exists t, n_op p = Dequantize t).
      { unfold is_qdq in Hpq. destruct (n_op p) as [| | |t0 b0|t|] eqn:Eop; try contradiction; [|eauto].
        exfalso. destruct (Hsq m (n_id p) p Hm Ha Hp eq_refl) as (t & rest & Eo' & _).
        - unfold is_quantize. now rewrite Eop.
        - apply Hmq. unfold is_qdq. now rewrite Eo'. }
      destruct Hpd as (t & Et). destruct (Hsd _ _ Hp Et) as (q & rest & Hq & Hqq & Eargs).
      rewrite Eargs in Ex. injection Ex as <- <-.
      inversion Hor' as [q0 Hq0 Hqq0 E3 E4|q0 y r0 b0 Hq0 Hqq0 Ey Hqo' E3 E4]; subst.
      { assert (q0 = q) as -> by (eapply node_unique; eauto; exact (proj1 Ho)).
        exfalso. apply Hqq0. unfold is_quantize, is_qdq in *. now destruct (n_op q). }
      assert (q0 = q) as -> by (eapply node_unique; eauto; exact (proj1 Ho)).
      destruct (Hsr _ _ _ Hq Hqq Ey) as (_ & z & Hz & Ez & Hzq).
      assert (b = y) as ->.
      { apply origin_originP in Hqo'. symmetry. eapply originP_fun; [exact (proj1 Ho)| |exact Hqo'].
        rewrite <- Ez. now constructor. }
      assert (Hqx : quantizes g q y).
      { repeat split; auto. }
      pose proof (in_split _ _ Hq) as (pre & post & Eg).
      destruct (Hlast pre q post y Eg Hqx) as (s & Hs & ->).
      { intros q' Hq' (Hq'g & Hqq' & Hqo2).
        inversion Hqo2 as [q0 Hq1 Hqq1 F3 F4|q0 y' r1 b1 Hq1 Hqq1 Ey' Hqo3 F3 F4]; subst.
        - assert (q0 = q') as -> by (eapply node_unique; eauto; exact (proj1 Ho)).
          apply Hqq1. unfold is_quantize, is_qdq in *. now destruct (n_op q').
        - assert (q0 = q') as -> by (eapply node_unique; eauto; exact (proj1 Ho)).
          destruct (Hsr _ _ _ Hq'g Hqq' Ey') as (_ & z' & Hz' & Ez' & Hzq').
          assert (y' = n_id z) as ->.
          { apply origin_originP in Hqo3. eapply originP_fun; [exact (proj1 Ho)| |exact Hqo3].
            rewrite <- Ez'. now constructor. }
          destruct Ho as [Nd _]. 
          assert (q' <> q).
          { intros ->. rewrite map_app in Nd. cbn in Nd. apply NoDup_remove_2 in Nd.
            apply Nd, in_or_app; right. now apply in_map. }
          eapply Hsx; [exact Hq|exact Hqq|exact Ey|exact Hq'g|auto|]. rewrite Ey'. now left. }
      rewrite Efix, Eargs by exact Hp. cbn [map]. rewrite (Efix q) by exact Hq. rewrite Ey. cbn [map].
      specialize (Hfake p q y s (E y) Hp Hqx Hs). rewrite Eargs, Ey in Hfake. cbn [tl] in Hfake.
      apply Hfake. eauto. }
  clear -Fa G. induction Fa as [|a b la lb Ha _ IH]; cbn; [reflexivity|].
  f_equal; [apply G; [now left|exact Ha]|]. apply IH. intros; apply G; [now right|auto].
Qed.
