(** Proofs about edits of export pipelines: replacement, adjacency, executability and [add_dependency]. *)
From Coq Require Import String Relations Permutation.
From Verif Require Import Prelude PipelineModel PipelineSpec PipelineProofs.
Local Open Scope nat_scope.
Local Open Scope list_scope.

Lemma replace_spec target fn name c P n P' : wf P -> replace_stage target fn name c P = Ok (n, P') ->
  exists t, named P target t /\ same_else P P' n /\ name_of P' n = match name with Some a => a | None => target end /\ fn_of P' n = fn /\
    p_stages P' = drop t (p_stages P) ++ [n] /\
    p_results P' = drop t (p_results P) ++ (if match c with Some b => b | None => nin t (p_results P) end then [n] else []) /\
    p_evals P' = drop t (p_evals P) ++ (if nin t (p_evals P) then [n] else []) /\
    deps P' n = deps P t /\ (forall y, y <> n -> deps P' y = if nin y (p_stages P) && nin t (deps P y) then rewired t n (deps P y) else deps P y) /\ wf P'.
Proof.
  intros W. unfold replace_stage. destruct (get_stage target P) as [t|] eqn:G; [|discriminate]. cbn [rbind]. apply (get_spec target P t W) in G.
  destruct (_ && _); [discriminate|]. set (P0 := mkPipe (p_refs P) (drop t (p_stages P)) (drop t (p_results P)) (drop t (p_evals P))).
  set (nm := match name with Some a => a | None => name_of P t end). set (cap := match c with Some b => b | None => nin t (p_results P) end).
  assert (W0 : wf P0).
  { destruct W. unfold P0. split; cbn.
    - now apply drop_nodup.
    - intros x Hx. unfold registered in Hx. cbn in Hx. apply drop_in in Hx. now apply wf_alloc.
    - exact wf_deps.
    - exact wf_known.
    - intros x y Hx Hy. unfold registered in Hx, Hy. cbn in Hx, Hy. apply drop_in in Hx. apply drop_in in Hy. now apply wf_names.
    - intros x Hx. apply drop_in in Hx. unfold registered. cbn. apply drop_in. split; [now apply wf_results|apply Hx].
    - now apply drop_nodup.
    - intros x Hx. apply drop_in in Hx. unfold registered. cbn. apply drop_in. split; [now apply wf_evals|apply Hx].
    - now apply drop_nodup. }
  assert (X : forall P1 n1, (if nin t (p_evals P) then register_eval_stage else register_stage) fn nm cap P0 = Ok (n1, P1) ->
     wf P1 /\ n1 = length (p_refs P) /\ length (p_refs P1) = S n1 /\ p_stages P1 = drop t (p_stages P) ++ [n1] /\
     p_results P1 = drop t (p_results P) ++ (if cap then [n1] else []) /\ p_evals P1 = drop t (p_evals P) ++ (if nin t (p_evals P) then [n1] else []) /\
     (forall y, deps P1 y = deps P y) /\ (forall y, name_of P1 y = if y =? n1 then nm else name_of P y) /\ (forall y, fn_of P1 y = if y =? n1 then fn else fn_of P y)).
  { intros P1 n1 E. destruct (nin t (p_evals P)).
    - pose proof (register_eval_wf _ _ _ _ _ _ W0 E) as W1. apply register_eval_inv in E. destruct E as (P2 & E & ->).
      destruct (register_spec _ _ _ _ _ _ E) as (Nn & En & Lr & Es & Er & Ev & D & Nm & Fn).
      split; [exact W1|]. split; [exact En|]. split; [exact Lr|]. split; [exact Es|]. split; [cbn [p_results]; rewrite Er; destruct cap; [reflexivity|now rewrite app_nil_r]|].
      split; [cbn [p_evals]; now rewrite Ev|]. split; [exact D|]. split; [exact Nm|exact Fn].
    - pose proof (register_wf _ _ _ _ _ _ W0 E) as W1.
      destruct (register_spec _ _ _ _ _ _ E) as (Nn & En & Lr & Es & Er & Ev & D & Nm & Fn).
      split; [exact W1|]. split; [exact En|]. split; [exact Lr|]. split; [exact Es|]. split; [rewrite Er; destruct cap; [reflexivity|now rewrite app_nil_r]|].
      split; [rewrite Ev; now rewrite app_nil_r|]. split; [exact D|]. split; [exact Nm|exact Fn]. }
  destruct ((if nin t (p_evals P) then register_eval_stage else register_stage) fn nm cap P0) as [[n1 P1]|] eqn:R; [|discriminate]. cbn [rbind].
  destruct (X P1 n1 eq_refl) as (W1 & En & Lr & Es & Er & Ev & D & Nm & Fn). clear X R.
  assert (Lt : t < length (p_refs P)) by (apply (wf_alloc P W); apply G).
  assert (Dn : forall y, deps (depends_on n1 (deps P t) P1) y = if y =? n1 then deps P t else deps P y).
  { intros y. unfold depends_on. rewrite deps_with by lia. rewrite D. destruct (Nat.eqb_spec y n1) as [->|]; [|reflexivity].
    rewrite (deps_out P n1) by lia. apply (add_dep_fresh (deps P t) []). apply W. }
  assert (W2 : wf (depends_on n1 (deps P t) P1)).
  { apply depends_on_wf; [exact W1|]. intros d Hd. apply (wf_known P W t) in Hd. lia. }
  assert (L2 : length (p_refs (depends_on n1 (deps P t) P1)) = S n1) by (unfold depends_on; now rewrite refs_with).
  destruct (rewire_spec t n1 (dependents_of t P) (depends_on n1 (deps P t) P1)) as (P3 & E & S3 & R3 & V3 & L3 & D3 & N3 & F3).
  { now apply dependents_nodup. }
  { intros x Hx. apply dependents_in in Hx. destruct Hx as [Hx Ht]. pose proof (wf_alloc P W x Hx). split; [lia|]. rewrite Dn. destruct (Nat.eqb_spec x n1); [lia|exact Ht]. }
  rewrite E. cbn [rbind]. intros [= -> <-].
  assert (D4 : forall y, deps P3 y = if y =? n then deps P t else if nin y (p_stages P) && nin t (deps P y) then rewired t n (deps P y) else deps P y).
  { intros y. rewrite D3, Dn. destruct (nin y (dependents_of t P)) eqn:I.
    - apply nin_in in I. apply dependents_in in I. destruct I as [I1 I2]. pose proof (wf_alloc P W y I1). destruct (Nat.eqb_spec y n); [lia|].
      apply nin_in in I1. apply nin_in in I2. unfold registered in I1. now rewrite I1, I2.
    - destruct (y =? n); [reflexivity|]. apply nin_notin in I. destruct (nin y (p_stages P) && nin t (deps P y)) eqn:B; [|reflexivity].
      apply andb_true_iff in B. destruct B as [B1 B2]. apply nin_in in B1. apply nin_in in B2. destruct I. apply dependents_in. now split. }
  exists t. split; [exact G|]. split.
  { split; [split; [exact En|now rewrite L3]|..]; intros y Hy; rewrite ?N3, ?F3; unfold depends_on; rewrite ?name_with, ?fn_with, ?Nm, ?Fn; apply Nat.eqb_neq in Hy; now rewrite Hy. }
  split; [rewrite N3; unfold depends_on; rewrite name_with, Nm, Nat.eqb_refl; unfold nm; destruct G as [_ <-]; reflexivity|].
  split; [rewrite F3; unfold depends_on; rewrite fn_with, Fn, Nat.eqb_refl; reflexivity|].
  split; [now rewrite S3|]. split; [now rewrite R3|]. split; [now rewrite V3|]. split; [now rewrite D4, Nat.eqb_refl|]. split.
  - intros y Hy. rewrite D4. apply Nat.eqb_neq in Hy. now rewrite Hy.
  - split.
    + rewrite S3. apply W2.
    + intros y Hy. unfold registered in Hy. rewrite S3 in Hy. rewrite L3. now apply (wf_alloc _ W2).
    + intros y. rewrite D3. destruct (nin y _); [apply rewired_nodup|]; apply W2.
    + intros y d Hd. rewrite L3. unfold depends in Hd. rewrite D3 in Hd. destruct (nin y _); [apply rewired_in in Hd; destruct Hd as [[Hd _]| ->]; [|lia]|]; now apply (wf_known _ W2 y).
    + intros y z. unfold registered. rewrite S3, !N3. apply (wf_names _ W2).
    + intros y. unfold registered. rewrite S3, R3. apply (wf_results _ W2).
    + rewrite R3. apply W2.
    + intros y. unfold registered. rewrite S3, V3. apply (wf_evals _ W2).
    + rewrite V3. apply W2.
Qed.

(** ** Histories *)
Lemma elsewhere_deps P s y : st_deps s = [] -> deps (mkPipe (p_refs P ++ [s]) (p_stages P) (p_results P) (p_evals P)) y = deps P y.
Proof.
  intros E. unfold deps. cbn [p_refs]. destruct (Nat.lt_ge_cases y (length (p_refs P))) as [L|L]; [now rewrite nth_error_app1|].
  rewrite nth_error_app2 by exact L. pose proof L as L1. apply nth_error_None in L1. rewrite L1. destruct (y - length (p_refs P)) as [|k]; [exact E|]. now destruct k.
Qed.
Lemma elsewhere_name P s y : y < length (p_refs P) -> name_of (mkPipe (p_refs P ++ [s]) (p_stages P) (p_results P) (p_evals P)) y = name_of P y.
Proof. intros L. unfold name_of. cbn [p_refs]. now rewrite nth_error_app1. Qed.
Lemma add_inv fuel a b P P' : add_dependency fuel a b P = Ok P' -> exists t d, get_stage a P = Ok t /\ get_stage b P = Ok d /\ reaches fuel P t [d] [] = Ok false /\ P' = depends_on t [d] P.
Proof.
  unfold add_dependency. destruct (get_stage a P) as [t|]; [|discriminate]. cbn [rbind]. destruct (get_stage b P) as [d|]; [|discriminate]. cbn [rbind].
  destruct (reaches fuel P t [d] []) as [[]|] eqn:R; try discriminate. cbn [rbind]. intros [= <-]. now exists t, d.
Qed.
Lemma remove_inv a b P P' : remove_dependency a b P = Ok P' -> exists t d, get_stage a P = Ok t /\ get_stage b P = Ok d /\ In d (deps P t) /\ P' = with_deps t (drop d) P.
Proof.
  unfold remove_dependency. destruct (get_stage a P) as [t|]; [|discriminate]. cbn [rbind]. destruct (get_stage b P) as [d|]; [|discriminate]. cbn [rbind].
  unfold remove_dep. destruct (nin d (deps P t)) eqn:I; [|discriminate]. intros [= <-]. exists t, d. repeat (split; [reflexivity|]). split; [now apply nin_in|reflexivity].
Qed.
Theorem made_wf w P : made w P -> wf P.
Proof.
  intros M. induction M as [|P fn n c x P' M IH E|P fn n c x P' M IH E|P s _ M IH E|P x ds _ M IH H|P t fn n ds c x P' M IH E|P t fn n c x P' M IH E|P t fn n c x P' M IH E|P fuel a b P' M IH E|P a b P' M IH E].
  - split.
    + constructor.
    + intros x [].
    + intros x. unfold deps. cbn. destruct x; constructor.
    + intros x d Hd. unfold depends, deps in Hd. cbn in Hd. destruct x; destruct Hd.
    + intros x y [].
    + intros x [].
    + constructor.
    + intros x [].
    + constructor.
  - exact (register_wf _ _ _ _ _ _ IH E).
  - exact (register_eval_wf _ _ _ _ _ _ IH E).
  - assert (L : length (p_refs P ++ [s]) = S (length (p_refs P))) by (rewrite app_length; cbn; lia).
    pose proof IH as W. destruct IH. split; cbn [p_stages p_results p_evals p_refs]; try assumption.
    + intros x Hx. rewrite L. specialize (wf_alloc x Hx). lia.
    + intros x. now rewrite elsewhere_deps.
    + intros x d Hd. unfold depends in Hd. rewrite elsewhere_deps in Hd by exact E. specialize (wf_known x d Hd). lia.
    + intros x y Hx Hy. rewrite !elsewhere_name by now apply wf_alloc. now apply wf_names.
  - now apply depends_on_wf.
  - destruct ds as [names|]; [destruct (explicit_spec _ _ _ _ _ _ _ _ IH E) as (? & H)|destruct (before_spec _ _ _ _ _ _ _ IH E) as (? & H)]; apply H.
  - destruct (after_spec _ _ _ _ _ _ _ IH E) as (? & H). apply H.
  - destruct (replace_spec _ _ _ _ _ _ _ IH E) as (? & H). apply H.
  - destruct (add_inv _ _ _ _ _ E) as (t & d & _ & Gd & _ & ->). apply depends_on_wf; [exact IH|]. intros y [<-|[]]. apply (get_spec b P d IH) in Gd. apply (wf_alloc P IH), Gd.
  - destruct (remove_inv _ _ _ _ E) as (t & d & _ & _ & _ & ->). apply with_wf; [exact IH|apply drop_nodup; apply IH|]. intros y Hy. apply drop_in in Hy. now apply (wf_known P IH t).
Qed.

(** ** Orders of edited pipelines *)
Lemma order_intro P o : NoDup o -> (forall x, In x o <-> registered P x) -> (forall l1 x l2, o = l1 ++ x :: l2 -> forall d, depends P x d -> In d l1) -> execution_order P o.
Proof. intros A B C. split; [exact A|]. split; [exact B|exact C]. Qed.
(** where an element of [a ++ m ++ b] is *)
Lemma split_mid {A} (a m b : list A) l1 x l2 : a ++ m ++ b = l1 ++ x :: l2 ->
  (exists r, a = l1 ++ x :: r) \/ (exists p r, m = p ++ x :: r /\ l1 = a ++ p) \/ (exists p, b = p ++ x :: l2 /\ l1 = a ++ m ++ p).
Proof.
  assert (S2 : forall (u v : list A) l1 x l2, u ++ v = l1 ++ x :: l2 -> (exists r, u = l1 ++ x :: r /\ l2 = r ++ v) \/ (exists p, v = p ++ x :: l2 /\ l1 = u ++ p)).
  { induction u as [|y u IH]; intros v l1' x' l2' E; [right; now exists l1'|]. destruct l1' as [|z l1'].
    - injection E as -> E. left. exists u. now split.
    - injection E as -> E. destruct (IH v l1' x' l2' E) as [(r & -> & ->)|(p & -> & ->)]; [left; now exists r|right; now exists p]. }
  intros E. destruct (S2 _ _ _ _ _ E) as [(r & -> & _)|(p & E2 & ->)]; [left; now exists r|].
  destruct (S2 _ _ _ _ _ E2) as [(r & -> & _)|(q & -> & ->)]; [right; left; now exists p, r|right; right; now exists q].
Qed.
Lemma order_pos P o t : execution_order P o -> registered P t -> exists l1 l2, o = l1 ++ t :: l2 /\ ~ In t l1 /\ ~ In t l2.
Proof.
  intros (N & C & _) R. apply C in R. apply in_split in R. destruct R as (l1 & l2 & ->). exists l1, l2. split; [reflexivity|].
  apply NoDup_remove_2 in N. rewrite in_app_iff in N. intuition.
Qed.
Lemma end_order P P' n o : execution_order P o -> ~ registered P n -> p_stages P' = p_stages P ++ [n] -> (forall y, registered P y -> deps P' y = deps P y) ->
  (forall d, In d (deps P' n) -> registered P d) -> execution_order P' (o ++ [n]).
Proof.
  intros (N & C & D) Fr Es Dy Dn. apply order_intro.
  - apply nodup_snoc; [exact N|]. now rewrite C.
  - intros x. unfold registered. rewrite Es, !in_app_iff, C. reflexivity.
  - intros l1 x l2 E d Hd. change [n] with ([n] ++ @nil nat) in E. destruct (split_mid _ _ _ _ _ _ E) as [(r & ->)|[(p & r & E1 & ->)|(p & E1 & _)]].
    + unfold depends in Hd. rewrite Dy in Hd by (apply C; apply in_app_iff; right; now left). now apply (D l1 x r).
    + destruct p as [|? [|]]; try discriminate. injection E1 as <- _. rewrite app_nil_r. apply C. now apply Dn.
    + now destruct p.
Qed.
Lemma before_order P P' n t o : wf P -> execution_order P o -> registered P t -> n = length (p_refs P) -> p_stages P' = p_stages P ++ [n] ->
  deps P' n = deps P t -> deps P' t = [n] -> (forall y, y <> n -> y <> t -> deps P' y = deps P y) -> exists o', execution_order P' o'.
Proof.
  intros W O Rt En Es Dn Dt Dy. destruct (order_pos P o t O Rt) as (l1 & l2 & -> & N1 & N2). destruct O as (N & C & D).
  assert (Fn : ~ In n (l1 ++ t :: l2)) by (rewrite C; intros H; apply (wf_alloc P W) in H; lia).
  exists (l1 ++ [n; t] ++ l2). apply order_intro.
  - apply NoDup_Add with (a:=n) (l:=l1 ++ t :: l2); [apply Add_app|now split].
  - intros x. unfold registered. rewrite Es. rewrite !in_app_iff. specialize (C x). rewrite in_app_iff in C. unfold registered in C. cbn in *. rewrite <- C. intuition.
  - intros m1 x m2 E d Hd. unfold depends in Hd. destruct (split_mid _ _ _ _ _ _ E) as [(r & ->)|[(p & r & E1 & ->)|(p & -> & ->)]].
    + rewrite Dy in Hd.
      * apply (D m1 x (r ++ t :: l2)); [now rewrite <- app_assoc|exact Hd].
      * intros ->. apply Fn. rewrite !in_app_iff. left. right. now left.
      * intros ->. apply N1. rewrite in_app_iff. right. now left.
    + destruct p as [|a [|b [|]]]; try discriminate.
      * injection E1 as <- _. rewrite Dn in Hd. rewrite app_nil_r. now apply (D l1 t l2).
      * injection E1 as -> <- _. rewrite Dt in Hd. apply in_app_iff. right. exact Hd.
    + rewrite Dy in Hd.
      * assert (I : In d (l1 ++ t :: p)) by (apply (D (l1 ++ t :: p) x m2); [now rewrite <- app_assoc|exact Hd]). rewrite !in_app_iff in *. cbn in *. intuition.
      * intros ->. apply Fn. rewrite in_app_iff. right. right. rewrite in_app_iff. right. now left.
      * intros ->. apply N2. rewrite in_app_iff. right. now left.
Qed.
Lemma after_order P P' n t o : wf P -> execution_order P o -> registered P t -> n = length (p_refs P) -> p_stages P' = p_stages P ++ [n] ->
  deps P' n = [t] -> (forall y, y <> n -> deps P' y = if nin y (p_stages P) && nin t (deps P y) then rewired t n (deps P y) else deps P y) -> exists o', execution_order P' o'.
Proof.
  intros W O Rt En Es Dn Dy. destruct (order_pos P o t O Rt) as (l1 & l2 & -> & N1 & N2). destruct O as (N & C & D).
  assert (Fn : ~ In n (l1 ++ t :: l2)) by (rewrite C; intros H; apply (wf_alloc P W) in H; lia).
  exists (l1 ++ [t; n] ++ l2). apply order_intro.
  - apply NoDup_Add with (a:=n) (l:=(l1 ++ [t]) ++ l2); [|rewrite <- app_assoc; now split]. replace (l1 ++ [t; n] ++ l2) with ((l1 ++ [t]) ++ n :: l2) by now rewrite <- app_assoc. apply Add_app.
  - intros x. unfold registered. rewrite Es. rewrite !in_app_iff. specialize (C x). rewrite in_app_iff in C. unfold registered in C. cbn in *. rewrite <- C. intuition.
  - intros m1 x m2 E d Hd. unfold depends in Hd. destruct (split_mid _ _ _ _ _ _ E) as [(r & ->)|[(p & r & E1 & ->)|(p & -> & ->)]].
    + assert (A : forall d, In d (deps P x) -> In d m1) by (intros d' Hd'; apply (D m1 x (r ++ t :: l2)); [now rewrite <- app_assoc|exact Hd']).
      rewrite Dy in Hd by (intros ->; apply Fn; rewrite !in_app_iff; left; right; now left).
      replace (nin t (deps P x)) with false in Hd; [rewrite andb_false_r in Hd; now apply A|].
      symmetry. apply nin_notin. intros H. apply N1. apply in_app_iff. left. now apply A.
    + destruct p as [|a [|b [|]]]; try discriminate.
      * injection E1 as <- _. rewrite app_nil_r. rewrite Dy in Hd by (intros ->; apply Fn, in_app_iff; right; now left).
        assert (A : forall d, In d (deps P t) -> In d l1) by (intros d' Hd'; now apply (D l1 t l2)).
        replace (nin t (deps P t)) with false in Hd; [rewrite andb_false_r in Hd; now apply A|]. symmetry. apply nin_notin. intros H. now apply N1, A.
      * injection E1 as -> <- _. rewrite Dn in Hd. apply in_app_iff. right. exact Hd.
    + assert (A : forall d, In d (deps P x) -> In d (l1 ++ t :: p)) by (intros d' Hd'; apply (D (l1 ++ t :: p) x m2); [now rewrite <- app_assoc|exact Hd']).
      rewrite Dy in Hd by (intros ->; apply Fn; rewrite in_app_iff; right; right; rewrite in_app_iff; right; now left).
      destruct (nin x (p_stages P) && nin t (deps P x)).
      * apply rewired_in in Hd. destruct Hd as [[Hd _]| ->]; [apply A in Hd|]; rewrite !in_app_iff in *; cbn in *; intuition.
      * apply A in Hd. rewrite !in_app_iff in *; cbn in *; intuition.
Qed.
Lemma replace_order P P' n t o : wf P -> execution_order P o -> registered P t -> n = length (p_refs P) -> p_stages P' = drop t (p_stages P) ++ [n] ->
  deps P' n = deps P t -> (forall y, y <> n -> deps P' y = if nin y (p_stages P) && nin t (deps P y) then rewired t n (deps P y) else deps P y) -> exists o', execution_order P' o'.
Proof.
  intros W O Rt En Es Dn Dy. destruct (order_pos P o t O Rt) as (l1 & l2 & -> & N1 & N2). destruct O as (N & C & D).
  assert (Fn : ~ In n (l1 ++ t :: l2)) by (rewrite C; intros H; apply (wf_alloc P W) in H; lia).
  exists (l1 ++ [n] ++ l2). apply order_intro.
  - apply NoDup_Add with (a:=n) (l:=l1 ++ l2); [apply Add_app|]. split; [now apply NoDup_remove_1 in N|]. rewrite in_app_iff in *. cbn in *. intuition.
  - intros x. unfold registered. rewrite Es. rewrite !in_app_iff, drop_in. specialize (C x). rewrite in_app_iff in C. unfold registered in C. cbn in *. rewrite <- C.
    split; intros H; [|now intuition congruence]. destruct H as [H|[[->|[]]|H]]; [left; split; [now left|intros ->; contradiction]|right; now left|left; split; [right; now right|intros ->; contradiction]].
  - intros m1 x m2 E d Hd. unfold depends in Hd. destruct (split_mid _ _ _ _ _ _ E) as [(r & ->)|[(p & r & E1 & ->)|(p & -> & ->)]].
    + assert (A : forall d, In d (deps P x) -> In d m1) by (intros d' Hd'; apply (D m1 x (r ++ t :: l2)); [now rewrite <- app_assoc|exact Hd']).
      rewrite Dy in Hd by (intros ->; apply Fn; rewrite !in_app_iff; left; right; now left).
      replace (nin t (deps P x)) with false in Hd; [rewrite andb_false_r in Hd; now apply A|].
      symmetry. apply nin_notin. intros H. apply N1. apply in_app_iff. left. now apply A.
    + destruct p as [|a [|]]; try discriminate. injection E1 as <- _. rewrite app_nil_r. rewrite Dn in Hd. now apply (D l1 t l2).
    + assert (A : forall d, In d (deps P x) -> In d (l1 ++ t :: p)) by (intros d' Hd'; apply (D (l1 ++ t :: p) x m2); [now rewrite <- app_assoc|exact Hd']).
      assert (Rx : In x (p_stages P)) by (apply C, in_app_iff; right; right; apply in_app_iff; right; now left). apply nin_in in Rx.
      rewrite Dy in Hd by (intros ->; apply Fn; rewrite in_app_iff; right; right; rewrite in_app_iff; right; now left).
      rewrite Rx in Hd. cbn [andb] in Hd. destruct (nin t (deps P x)) eqn:T.
      * apply rewired_in in Hd. destruct Hd as [[Hd Nd]| ->]; [apply A in Hd|]; rewrite !in_app_iff in *; cbn in *; intuition congruence.
      * apply nin_notin in T. assert (Nd : d <> t) by now intros ->. apply A in Hd. rewrite !in_app_iff in *; cbn in *; intuition congruence.
Qed.

(** ** [_reaches] *)
Section Reach.
  Variables (P : pipe) (dst : nat).
  Notation dep := (depends P).
  Lemma reaches_true fuel : forall stack seen, reaches fuel P dst stack seen = Ok true -> exists x, In x stack /\ clos_refl_trans nat dep x dst.
  Proof.
    induction fuel as [|k IH]; intros stack seen E; [discriminate|]. cbn [reaches] in E. destruct stack as [|x st]; [discriminate|].
    destruct (Nat.eqb_spec x dst) as [->|Nx]; [exists dst; split; [now left|apply rt_refl]|]. destruct (nin x seen).
    - destruct (IH _ _ E) as (y & Hy & H). exists y. split; [now right|exact H].
    - destruct (IH _ _ E) as (y & Hy & H). apply in_app_iff in Hy. destruct Hy as [Hy|Hy].
      + apply in_rev in Hy. exists x. split; [now left|]. apply rt_trans with y; [now apply rt_step|exact H].
      + exists y. split; [now right|exact H].
  Qed.
  Lemma reaches_false fuel : forall stack seen, ~ In dst seen -> (forall s d, In s seen -> dep s d -> In d seen \/ In d stack) -> reaches fuel P dst stack seen = Ok false ->
    exists C, (forall x, In x stack \/ In x seen -> In x C) /\ ~ In dst C /\ forall s d, In s C -> dep s d -> In d C.
  Proof.
    induction fuel as [|k IH]; intros stack seen Nd Cl E; [discriminate|]. cbn [reaches] in E. destruct stack as [|x st].
    - exists seen. split; [now intros x [[]|H]|]. split; [exact Nd|]. intros s d Hs Hd. destruct (Cl s d Hs Hd) as [H|[]]. exact H.
    - destruct (Nat.eqb_spec x dst) as [->|Nx]; [discriminate|]. destruct (nin x seen) eqn:I.
      + apply nin_in in I. destruct (IH st seen) as (C & H1 & H2 & H3); [exact Nd| |exact E|].
        * intros s d Hs Hd. destruct (Cl s d Hs Hd) as [H|[<-|H]]; auto.
        * exists C. split; [|now split]. intros y [[<-|Hy]|Hy]; apply H1; auto.
      + destruct (IH (rev (deps P x) ++ st) (x :: seen)) as (C & H1 & H2 & H3); [|  |exact E|].
        * intros [->|H]; [now apply Nx|now apply Nd].
        * intros s d [<-|Hs] Hd; [right; apply in_app_iff; left; now rewrite <- in_rev|]. destruct (Cl s d Hs Hd) as [H|[<-|H]]; [left; now right|left; now left|right; apply in_app_iff; now right].
        * exists C. split; [|now split]. intros y [[<-|Hy]|Hy]; apply H1; [right; now left|left; apply in_app_iff; now right|right; now right].
  Qed.
  Hypothesis known : forall x d, dep x d -> d < length (p_refs P).
  Lemma reaches_fuel : forall m seen, NoDup seen -> (forall x, In x seen -> x < length (p_refs P)) -> length (p_refs P) <= m + length seen ->
    forall stack, (forall x, In x stack -> x < length (p_refs P)) -> exists N, forall fuel, N <= fuel -> reaches fuel P dst stack seen <> Err RecursionError.
  Proof.
    induction m as [|m IHm]; intros seen Ns Ss L stack Hs.
    - assert (All : forall x, x < length (p_refs P) -> In x seen).
      { intros x Hx. apply (NoDup_length_incl (l' := seq 0 (length (p_refs P))) Ns); [rewrite seq_length; lia|intros y Hy; apply in_seq; specialize (Ss y Hy); lia|apply in_seq; lia]. }
      induction stack as [|x st IHs]; [exists 1; intros [|k] Lk; [lia|discriminate]|]. destruct IHs as (N & HN); [intros y Hy; apply Hs; now right|].
      exists (S N). intros [|k] Lk; [lia|]. cbn [reaches]. destruct (x =? dst); [discriminate|].
      assert (I : nin x seen = true) by (apply nin_in, All, Hs; now left). rewrite I. apply HN. lia.
    - induction stack as [|x st IHs]; [exists 1; intros [|k] Lk; [lia|discriminate]|]. destruct IHs as (N & HN); [intros y Hy; apply Hs; now right|].
      destruct (nin x seen) eqn:I.
      + exists (S N). intros [|k] Lk; [lia|]. cbn [reaches]. destruct (x =? dst); [discriminate|]. rewrite I. apply HN. lia.
      + apply nin_notin in I. destruct (IHm (x :: seen)) with (stack := rev (deps P x) ++ st) as (N2 & HN2).
        * now constructor.
        * intros y [<-|Hy]; [apply Hs; now left|now apply Ss].
        * cbn [length]. lia.
        * intros y Hy. apply in_app_iff in Hy. destruct Hy as [Hy|Hy]; [apply in_rev in Hy; now apply (known x)|apply Hs; now right].
        * exists (S N2). intros [|k] Lk; [lia|]. cbn [reaches]. destruct (x =? dst); [discriminate|]. apply nin_notin in I. rewrite I. apply HN2. lia.
  Qed.
End Reach.
Lemma reaches_no fuel P t d : reaches fuel P t [d] [] = Ok false -> ~ clos_refl_trans nat (depends P) d t.
Proof.
  intros E H. destruct (reaches_false P t fuel [d] [] (fun H => H)) with (2 := E) as (C & H1 & H2 & H3); [intros s x []|].
  assert (Hd : In d C) by (apply H1; left; now left). apply H2. clear H2 E H1. apply Operators_Properties.clos_rt_rtn1 in H. induction H as [|y z Hy H IH]; [exact Hd|]. now apply (H3 y).
Qed.
Lemma reaches_err fuel P t : forall stack seen e, reaches fuel P t stack seen = Err e -> e = RecursionError.
Proof.
  induction fuel as [|k IH]; intros stack seen e E; [now injection E as <-|]. cbn [reaches] in E. destruct stack as [|x st]; [discriminate|]. destruct (x =? t); [discriminate|].
  destruct (nin x seen); now apply (IH _ _ _ E).
Qed.

Lemma add_deps P t d y : wf P -> registered P t -> depends P y = depends P y -> deps (depends_on t [d] P) y = if y =? t then add_dep (deps P y) d else deps P y.
Proof. intros W Rt _. unfold depends_on. rewrite deps_with by now apply (wf_alloc P W). reflexivity. Qed.
Lemma add_depends P t d a b : wf P -> registered P t -> depends (depends_on t [d] P) a b <-> depends P a b \/ (a = t /\ b = d).
Proof.
  intros W Rt. unfold depends. rewrite (add_deps P t d a W Rt eq_refl). destruct (Nat.eqb_spec a t) as [->|Na]; [|intuition congruence].
  change (add_dep (deps P t) d) with (fold_left add_dep [d] (deps P t)). rewrite add_dep_in. cbn. intuition.
Qed.
Lemma ct_rt (R : nat -> nat -> Prop) a b : clos_trans nat R a b -> clos_refl_trans nat R a b.
Proof. induction 1; [now apply rt_step|eapply rt_trans; eassumption]. Qed.
Lemma added_path (R R' : nat -> nat -> Prop) t d : (forall a b, R' a b -> R a b \/ (a = t /\ b = d)) -> forall a b, clos_trans nat R' a b ->
  clos_trans nat R a b \/ (clos_refl_trans nat R a t /\ clos_refl_trans nat R d b).
Proof.
  intros H a b C. apply Operators_Properties.clos_trans_tn1 in C. induction C as [b E|b c E C IH].
  - destruct (H a b E) as [E1|[-> ->]]; [left; now apply t_step|right; split; apply rt_refl].
  - destruct (H b c E) as [E1|[-> ->]].
    + destruct IH as [IH|[I1 I2]]; [left; apply t_trans with b; [exact IH|now apply t_step]|right; split; [exact I1|apply rt_trans with b; [exact I2|now apply rt_step]]].
    + right. split; [|apply rt_refl]. destruct IH as [IH|[I1 I2]]; [now apply ct_rt|exact I1].
Qed.
Lemma add_executable P t d : wf P -> registered P t -> registered P d -> ~ clos_refl_trans nat (depends P) d t -> executable P -> executable (depends_on t [d] P).
Proof.
  intros W Rt Rd Nr [E1 E2]. split.
  - intros a b Ra D. apply (add_depends P t d a b W Rt) in D. destruct D as [D|[-> ->]]; [now apply (E1 a)|exact Rd].
  - intros a Ra C. apply (added_path (depends P) _ t d) in C; [|intros x y H; now apply (add_depends P t d x y W Rt)].
    destruct C as [C|[C1 C2]]; [now apply (E2 a)|]. apply Nr. now apply rt_trans with a.
Qed.

Theorem add_dependency_exactly P a b : wf P -> exists N, forall fuel, N <= fuel ->
  match add_dependency fuel a b P with
  | Ok P' => exists t d, named P a t /\ named P b d /\ ~ clos_refl_trans nat (depends P) d t /\
      (forall x y, depends P' x y <-> depends P x y \/ (x = t /\ y = d)) /\ p_stages P' = p_stages P /\ p_results P' = p_results P /\ p_evals P' = p_evals P /\
      (forall x, name_of P' x = name_of P x /\ fn_of P' x = fn_of P x)
  | Err e => (e = KeyError /\ (forall t d, ~ (named P a t /\ named P b d))) \/
      (e = ValueError /\ exists t d, named P a t /\ named P b d /\ clos_refl_trans nat (depends P) d t)
  end.
Proof.
  intros W. destruct (get_stage a P) as [t|ea] eqn:Ga.
  2:{ exists 0. intros fuel _. unfold add_dependency. rewrite Ga. cbn [rbind]. destruct (get_err _ _ _ Ga) as [-> H]. left. split; [reflexivity|]. intros t d [H1 _]. now apply (H t). }
  destruct (get_stage b P) as [d|eb] eqn:Gb.
  2:{ exists 0. intros fuel _. unfold add_dependency. rewrite Ga, Gb. cbn [rbind]. destruct (get_err _ _ _ Gb) as [-> H]. left. split; [reflexivity|]. intros t' d [_ H1]. now apply (H d). }
  pose proof (proj1 (get_spec _ _ _ W) Ga) as Na. pose proof (proj1 (get_spec _ _ _ W) Gb) as Nb.
  destruct (reaches_fuel P t (wf_known P W) (length (p_refs P)) []) with (stack := [d]) as (N & HN); [constructor|intros x []|cbn; lia|intros x [<-|[]]; apply (wf_alloc P W), Nb|].
  exists N. intros fuel L. specialize (HN fuel L). unfold add_dependency. rewrite Ga, Gb. cbn [rbind]. destruct (reaches fuel P t [d] []) as [[]|e] eqn:R; cbn [rbind].
  - right. split; [reflexivity|]. exists t, d. split; [exact Na|]. split; [exact Nb|]. destruct (reaches_true P t fuel _ _ R) as (x & [<-|[]] & H). exact H.
  - exists t, d. split; [exact Na|]. split; [exact Nb|]. split; [exact (reaches_no _ _ _ _ R)|]. split; [intros x y; apply (add_depends P t d x y W), Na|].
    repeat (split; [reflexivity|]). intros x. unfold depends_on. now rewrite name_with, fn_with.
  - exfalso. apply HN. now rewrite (reaches_err _ _ _ _ _ _ R).
Qed.

(** ** Histories without raw wiring stay executable *)
Lemma nothing_deps P fn n c x P' : wf P -> register_stage fn n c P = Ok (x, P') -> executable P -> executable P'.
Proof.
  intros W E X. destruct (executable_order P X) as (o & O). destruct (register_spec _ _ _ _ _ _ E) as (_ & Ex & _ & Es & _ & _ & D & _).
  apply (order_executable P' (o ++ [x])). apply (end_order P P' x o O); [intros H; apply (wf_alloc P W) in H; lia|exact Es|intros y _; apply D|].
  intros d Hd. rewrite D, deps_out in Hd by lia. destruct Hd.
Qed.
Lemma exec_ext P P' : p_stages P' = p_stages P -> (forall x, deps P' x = deps P x) -> executable P -> executable P'.
Proof.
  intros Es D X. destruct (executable_order P X) as (o & N & C & O). apply (order_executable P' o). apply order_intro; [exact N|unfold registered; rewrite Es; exact C|].
  intros l1 x l2 E d Hd. unfold depends in Hd. rewrite D in Hd. now apply (O l1 x l2).
Qed.
Lemma before_exec target fn name ds c P n P' : wf P -> insert_stage_before target fn name ds c P = Ok (n, P') -> executable P -> executable P'.
Proof.
  intros W E X. destruct (executable_order P X) as (o & O). destruct ds as [names|].
  - destruct (explicit_spec _ _ _ _ _ _ _ _ W E) as (ds & F & Sm & _ & _ & Es & _ & _ & Dn & Dy & _). destruct (se_new _ _ _ Sm) as [En _].
    assert (Fr : ~ registered P n) by (intros H; apply (wf_alloc P W) in H; lia).
    apply (order_executable P' (o ++ [n])). apply (end_order P P' n o O Fr Es); [intros y Hy; apply Dy; now intros ->|].
    intros d Hd. rewrite Dn in Hd. apply add_dep_in in Hd. destruct Hd as [[]|Hd]. clear -F Hd. induction F as [|a b l l' H F IH]; [destruct Hd|]. destruct Hd as [->|Hd]; [apply H|now apply IH].
  - destruct (before_spec _ _ _ _ _ _ _ W E) as (t & Nt & Sm & _ & _ & _ & Es & _ & _ & Dn & Dt & Dy & _). destruct (se_new _ _ _ Sm) as [En _].
    destruct (before_order P P' n t o W O (proj1 Nt) En Es Dn Dt Dy) as (o' & O'). now apply (order_executable P' o').
Qed.
Lemma after_exec target fn name c P n P' : wf P -> insert_stage_after target fn name c P = Ok (n, P') -> executable P -> executable P'.
Proof.
  intros W E X. destruct (executable_order P X) as (o & O). destruct (after_spec _ _ _ _ _ _ _ W E) as (t & Nt & Sm & _ & _ & Es & _ & _ & Dn & Dy & _). destruct (se_new _ _ _ Sm) as [En _].
  destruct (after_order P P' n t o W O (proj1 Nt) En Es Dn Dy) as (o' & O'). now apply (order_executable P' o').
Qed.
Lemma replace_exec target fn name c P n P' : wf P -> replace_stage target fn name c P = Ok (n, P') -> executable P -> executable P'.
Proof.
  intros W E X. destruct (executable_order P X) as (o & O). destruct (replace_spec _ _ _ _ _ _ _ W E) as (t & Nt & Sm & _ & _ & Es & _ & _ & Dn & Dy & _). destruct (se_new _ _ _ Sm) as [En _].
  destruct (replace_order P P' n t o W O (proj1 Nt) En Es Dn Dy) as (o' & O'). now apply (order_executable P' o').
Qed.
Theorem made_executable P : made false P -> executable P.
Proof.
  intros M. induction M as [|P fn n c x P' M IH E|P fn n c x P' M IH E|P s H0 M IH E|P x ds H0 M IH H|P t fn n ds c x P' M IH E|P t fn n c x P' M IH E|P t fn n c x P' M IH E|P fuel a b P' M IH E|P a b P' M IH E];
    try discriminate; try (pose proof (made_wf _ _ M) as W).
  - split; [intros a d []|intros a []].
  - exact (nothing_deps _ _ _ _ _ _ W E IH).
  - apply register_eval_inv in E. destruct E as (P1 & E & ->). apply (exec_ext P1); [reflexivity|reflexivity|]. exact (nothing_deps _ _ _ _ _ _ W E IH).
  - exact (before_exec _ _ _ _ _ _ _ _ W E IH).
  - exact (after_exec _ _ _ _ _ _ _ W E IH).
  - exact (replace_exec _ _ _ _ _ _ _ W E IH).
  - destruct (add_inv _ _ _ _ _ E) as (t & d & Ga & Gb & R & ->). apply (get_spec a P t W) in Ga. apply (get_spec b P d W) in Gb.
    apply add_executable; [exact W|apply Ga|apply Gb|exact (reaches_no _ _ _ _ R)|exact IH].
  - destruct (remove_inv _ _ _ _ E) as (t & d & Ga & _ & _ & ->). apply (get_spec a P t W) in Ga. destruct (executable_order P IH) as (o & N & C & O).
    apply (order_executable _ o). apply order_intro; [exact N|exact C|]. intros l1 x l2 E1 y Hy. unfold depends in Hy. rewrite deps_with in Hy by apply (wf_alloc P W), Ga.
    apply (O l1 x l2 E1). destruct (x =? t); [apply drop_in in Hy; apply Hy|exact Hy].
Qed.
