(** Proofs about export pipelines: what a run returns, and where inserted stages run. *)
From Coq Require Import String Relations Permutation.
From Verif Require Import Prelude PipelineModel PipelineSpec PipelineProofs PipelineEditProofs.
Local Open Scope nat_scope.
Local Open Scope list_scope.

Section Runs.
  Context {V U M : Type} (call : nat -> U -> list V -> result V * U) (metric : V -> V -> result M) (P : pipe) (input : V).
  Implicit Types res : list (nat * V).
  Lemma ran_keys l res u res' u' : ran call P input l res u res' u' -> map fst res' = map fst res ++ l.
  Proof. induction 1 as [|x l res u args v u' res' u'' _ _ _ IH]; [now rewrite app_nil_r|]. rewrite IH, map_app, <- app_assoc. reflexivity. Qed.
  Lemma pairs_in (l : list (nat * V)) p q : In (p, q) (pairs l) <-> exists l1 l2 l3, l = l1 ++ p :: l2 ++ q :: l3.
  Proof.
    induction l as [|a l IH]; cbn [pairs].
    - split; [intros []|intros (l1 & l2 & l3 & E); destruct l1; discriminate].
    - rewrite in_app_iff, IH, in_map_iff. split.
      + intros [(x & [= -> ->] & Hx)|(l1 & l2 & l3 & ->)]; [|now exists (a :: l1), l2, l3]. apply in_split in Hx. destruct Hx as (l2 & l3 & ->). now exists [], l2, l3.
      + intros ([|b l1] & l2 & l3 & E).
        * injection E as -> ->. left. exists q. split; [reflexivity|]. apply in_app_iff. right. now left.
        * injection E as -> ->. right. now exists l1, l2, l3.
  Qed.
  Lemma rmapM_in {A B} (f : A -> result B) : forall l l', rmapM f l = Ok l' -> forall b, In b l' <-> exists a, In a l /\ f a = Ok b.
  Proof.
    induction l as [|a l IH]; intros l' E b.
    - injection E as <-. split; [intros []|intros (a & [] & _)].
    - cbn [rmapM] in E. destruct (f a) as [y|] eqn:F; [|discriminate]. cbn [rbind] in E. destruct (rmapM f l) as [ys|] eqn:R; [|discriminate]. cbn [rbind] in E. injection E as <-.
      specialize (IH ys eq_refl b). split.
      + intros [<-|H]; [exists a; split; [now left|exact F]|]. apply IH in H. destruct H as (c & Hc & H). exists c. split; [now right|exact H].
      + intros (c & [<-|Hc] & H); [left; congruence|right; apply IH; now exists c].
  Qed.
  Lemma rmapM_bad {A B} (f : A -> result B) : forall l e, rmapM f l = Err e -> exists a, In a l /\ f a = Err e.
  Proof.
    induction l as [|a l IH]; intros e E; [discriminate|]. cbn [rmapM] in E. destruct (f a) as [y|e1] eqn:F; cbn [rbind] in E.
    - destruct (rmapM f l) as [ys|e2]; [discriminate|]. cbn [rbind] in E. injection E as <-. destruct (IH e2 eq_refl) as (c & Hc & H). exists c. split; [now right|exact H].
    - injection E as <-. exists a. split; [now left|exact F].
  Qed.
  Definition vals (res : list (nat * V)) (l : list nat) : list (nat * V) := flat_map (fun x => match lookup x res with Ok v => [(x, v)] | Err _ => [] end) l.
  Lemma vals_app res l l' : vals res (l ++ l') = vals res l ++ vals res l'.
  Proof. apply flat_map_app. Qed.
  Lemma vals_keys res l : (forall x, In x l -> In x (map fst res)) -> map fst (vals res l) = l.
  Proof.
    induction l as [|x l IH]; intros H; [reflexivity|]. cbn [vals flat_map]. destruct (lookup_some res x) as (v & E); [apply H; now left|]. rewrite E. cbn [app map fst]. f_equal. apply IH. intros y Hy. apply H. now right.
  Qed.
  Lemma vals_in res l x v : In (x, v) (vals res l) -> In (x, v) res.
  Proof.
    unfold vals. rewrite in_flat_map. intros (y & _ & H). destruct (lookup y res) as [w|] eqn:E; [|destruct H]. destruct H as [[= <- <-]|[]]. now apply lookup_in.
  Qed.
  Lemma map_split {A B} (f : A -> B) : forall l p x r, map f l = p ++ x :: r -> exists p' a r', l = p' ++ a :: r' /\ map f p' = p /\ f a = x /\ map f r' = r.
  Proof.
    induction l as [|a l IH]; intros p x r E; [destruct p; discriminate|]. destruct p as [|b p].
    - injection E as E1 E2. now exists [], a, l.
    - injection E as E1 E2. destruct (IH _ _ _ E2) as (p' & c & r' & -> & E3 & E4 & E5). exists (a :: p'), c, r'. cbn. now rewrite E1, E3.
  Qed.

  Lemma compare_ok res ev : NoDup (map fst res) -> (forall x, In x (p_evals P) -> In x (map fst res)) -> compare_eval_stages metric P res = Ok ev ->
    forall a b m, In ((a, b), m) ev <-> compared metric P res a b m.
  Proof.
    intros N Hp E a b m. unfold compare_eval_stages, compare in E. rewrite (rmapM_in _ _ _ E). fold (vals res (p_evals P)). split.
    - intros ([[a' va] [b' vb]] & Hin & F). cbn [fst snd] in F. destruct (metric va vb) as [m'|] eqn:Mt; [|discriminate]. cbn [rbind] in F. injection F as -> -> ->.
      apply pairs_in in Hin. destruct Hin as (l1 & l2 & l3 & El). exists (map fst l1), (map fst l2), (map fst l3), va, vb. split; [|split; [|split; [|exact Mt]]].
      + rewrite <- (vals_keys res _ Hp), El. rewrite map_app. cbn [map fst]. now rewrite map_app.
      + apply (vals_in res (p_evals P)). rewrite El. apply in_app_iff. right. now left.
      + apply (vals_in res (p_evals P)). rewrite El. apply in_app_iff. right. right. apply in_app_iff. right. now left.
    - intros (l1 & l2 & l3 & va & vb & El & Ha & Hb & Mt). exists ((a, va), (b, vb)). cbn [fst snd]. rewrite Mt. cbn [rbind]. split; [|reflexivity].
      apply pairs_in. pose proof (vals_keys res _ Hp) as K. rewrite El in K at 2. apply map_split in K. destruct K as (p & [a' va'] & r & E1 & E2 & E3 & E4).
      apply map_split in E4. destruct E4 as (p2 & [b' vb'] & r2 & -> & E5 & E6 & E7). cbn in E3, E6. subst a' b'. exists p, p2, r2. rewrite E1.
      assert (Ia : In (a, va') res) by (apply (vals_in res (p_evals P)); rewrite E1; apply in_app_iff; right; now left).
      assert (Ib : In (b, vb') res) by (apply (vals_in res (p_evals P)); rewrite E1; apply in_app_iff; right; right; apply in_app_iff; right; now left).
      apply (lookup_uniq res a va' N) in Ia. apply (lookup_uniq res a va N) in Ha. apply (lookup_uniq res b vb' N) in Ib. apply (lookup_uniq res b vb N) in Hb. congruence.
  Qed.
  Lemma compare_bad res e : compare_eval_stages metric P res = Err e -> exists a va b vb, In (a, va) res /\ In (b, vb) res /\ In a (p_evals P) /\ In b (p_evals P) /\ metric va vb = Err e.
  Proof.
    unfold compare_eval_stages, compare. intros E. apply rmapM_bad in E. fold (vals res (p_evals P)) in E. destruct E as ([[a va] [b vb]] & Hin & F). cbn [fst snd] in F.
    destruct (metric va vb) as [|e'] eqn:Mt; [discriminate|]. cbn [rbind] in F. injection F as ->. apply pairs_in in Hin. destruct Hin as (l1 & l2 & l3 & El).
    assert (Ia : In (a, va) (vals res (p_evals P))) by (rewrite El; apply in_app_iff; right; now left).
    assert (Ib : In (b, vb) (vals res (p_evals P))) by (rewrite El; apply in_app_iff; right; right; apply in_app_iff; right; now left).
    assert (K : forall x v, In (x, v) (vals res (p_evals P)) -> In x (p_evals P)).
    { intros x v. unfold vals. rewrite in_flat_map. intros (y & Hy & H). destruct (lookup y res); [|destruct H]. destruct H as [[= <- _]|[]]. exact Hy. }
    exists a, va, b, vb. split; [now apply (vals_in res (p_evals P))|]. split; [now apply (vals_in res (p_evals P))|]. split; [now apply (K a va)|]. split; [now apply (K b vb)|exact Mt].
  Qed.

  Theorem run_exactly : wf P -> exists N, forall fuel last u, N <= fuel ->
    match run_pipeline call metric fuel P input last u with
    | (Ok (out, ev), u') => executable P /\ exists order res, execution_order P order /\ ran call P input order [] u res u' /\ returned P last order res out /\
        forall a b m, In ((a, b), m) ev <-> compared metric P res a b m
    | (Err e, u') =>
        (e = ValueError /\ ~ executable P /\ u' = u) \/
        (executable P /\ exists order, execution_order P order /\
           ((exists l1 x l2 res u1 args, order = l1 ++ x :: l2 /\ ran call P input l1 [] u res u1 /\ given_to P input res x args /\ call (fn_of P x) u1 args = (Err e, u')) \/
            (exists res, ran call P input order [] u res u' /\
               ((exists a va b vb, In (a, va) res /\ In (b, vb) res /\ In a (p_evals P) /\ In b (p_evals P) /\ metric va vb = Err e) \/ (last = true /\ order = [] /\ e = ValueError)))))
    end.
  Proof.
    intros W. destruct (build_exactly P) as (N & HN). exists N. intros fuel last u L. unfold run_pipeline. destruct (HN fuel L) as [(order & B & O & X)|[B X]].
    2:{ rewrite B. left. now split. }
    rewrite B. pose proof O as (No & Co & Do).
    pose proof (execute_ran call P input order [] u) as R. cbn [map app] in R. specialize (R Do). destruct (execute call P input order [] u) as [[res|e] u'].
    2:{ right. split; [exact X|]. exists order. split; [exact O|]. left. exact R. }
    destruct R as [R K]. assert (Nr : NoDup (map fst res)) by now rewrite K.
    assert (Hev : forall x, In x (p_evals P) -> In x (map fst res)) by (intros x Hx; rewrite K; apply Co; now apply (wf_evals P W)).
    destruct (compare_eval_stages metric P res) as [ev|e] eqn:Cm.
    2:{ cbn [rbind]. right. split; [exact X|]. exists order. split; [exact O|]. right. exists res. split; [exact R|]. left. now apply compare_bad. }
    cbn [rbind]. pose proof (compare_ok res ev Nr Hev Cm) as Cp. destruct last.
    - destruct (rev order) as [|x l] eqn:Rv.
      + cbn [rbind]. right. split; [exact X|]. exists order. split; [exact O|]. right. exists res. split; [exact R|]. right. split; [reflexivity|]. split; [|reflexivity].
        apply (f_equal (@rev nat)) in Rv. now rewrite rev_involutive in Rv.
      + assert (Eo : order = rev l ++ [x]) by (apply (f_equal (@rev nat)) in Rv; now rewrite rev_involutive in Rv).
        destruct (lookup_some res x) as (v & Lx); [rewrite K, Eo; apply in_app_iff; right; now left|]. rewrite Lx. cbn [rbind].
        split; [exact X|]. exists order, res. split; [exact O|]. split; [exact R|]. split; [|exact Cp]. exists (rev l), x, v. split; [exact Eo|]. split; [now apply lookup_in|reflexivity].
    - assert (T : exists out, rmapM (fun x => let? v := lookup x res in Ok (name_of P x, v)) (p_results P) = Ok out /\ Forall2 (fun x o => fst o = name_of P x /\ In (x, snd o) res) (p_results P) out).
      { assert (Hr : forall x, In x (p_results P) -> In x (map fst res)) by (intros x Hx; rewrite K; apply Co; now apply (wf_results P W)).
        clear -Hr. induction (p_results P) as [|x l IH]; [exists []; now split|]. destruct IH as (out & E & F); [intros y Hy; apply Hr; now right|].
        destruct (lookup_some res x) as (v & Lx); [apply Hr; now left|]. exists ((name_of P x, v) :: out).
        cbn [rmapM]. rewrite Lx. cbn [rbind]. rewrite E. cbn [rbind]. split; [reflexivity|]. constructor; [|exact F]. split; [reflexivity|]. now apply lookup_in. }
      destruct T as (out & E & F). rewrite E. cbn [rbind]. split; [exact X|]. exists order, res. split; [exact O|]. split; [exact R|]. now split.
  Qed.
End Runs.

(** ** The stage inserted before another one runs directly before it *)
Section Adjacent.
  Variables (P : pipe) (n t : nat).
  Hypothesis only_t : forall y, In n (deps P y) -> y = t.
  Hypothesis dt : deps P t = [n].
  Hypothesis Nnt : n <> t.
  Hypothesis Rt : registered P t.
  Hypothesis Rn : registered P n.
  Definition J (o : list nat) : Prop := (exists l1 l2, o = l1 ++ n :: t :: l2) \/ (~ In n o /\ ~ In t o).
  Lemma J_snoc o x : x <> n -> x <> t -> J o -> J (o ++ [x]).
  Proof.
    intros N1 N2 [(l1 & l2 & ->)|[H1 H2]]; [left; exists l1, (l2 ++ [x]); now rewrite <- app_assoc|]. right. rewrite !in_app_iff. cbn. intuition.
  Qed.
  Lemma walk_J k x visiting : forall l o o', ~ In x visiting ->
    (forall visiting o y o', y <> n -> registered P y -> good P o -> (forall v, In v visiting -> ~ In v o) -> J o -> visit k P visiting o y = Ok o' -> J o') ->
    ~ In n l -> good P o -> (forall v, In v (x :: visiting) -> ~ In v o) -> J o ->
    walk (fun o d => if nin d (p_stages P) then visit k P (x :: visiting) o d else Err ValueError) l o = Ok o' ->
    good P o' /\ (forall v, In v (x :: visiting) -> ~ In v o') /\ J o'.
  Proof.
    induction l as [|d l IHl]; intros o o' Nx IH Nl G V Jo E.
    - injection E as <-. now split.
    - cbn [walk] in E. destruct (nin d (p_stages P)) eqn:Rd; [|discriminate]. apply nin_in in Rd. destruct (visit k P (x :: visiting) o d) as [o1|] eqn:E1; [|discriminate]. cbn [rbind] in E.
      destruct (visit_ok P k (x :: visiting) o d o1 G Rd V E1) as ((G1 & V1) & _).
      apply (IHl o1 o' Nx IH); [intros H; apply Nl; now right|exact G1|exact V1| |exact E].
      apply (IH (x :: visiting) o d o1); [intros ->; apply Nl; now left|exact Rd|exact G|exact V|exact Jo|exact E1].
  Qed.
  Lemma visit_J k : forall visiting o x o', x <> n -> registered P x -> good P o -> (forall v, In v visiting -> ~ In v o) -> J o -> visit k P visiting o x = Ok o' -> J o'.
  Proof.
    induction k as [k IH] using (well_founded_induction Nat.lt_wf_0). intros visiting o x o' Nx Rx G V Jo E. destruct k as [|k]; [discriminate|]. cbn [visit] in E.
    destruct (nin x visiting) eqn:Iv; [discriminate|]. apply nin_notin in Iv. destruct (nin x o) eqn:Io; [now injection E as <-|]. apply nin_notin in Io.
    destruct (walk _ (deps P x) o) as [o1|] eqn:W; [|discriminate]. cbn [rbind] in E. injection E as <-.
    assert (Vx : forall v, In v (x :: visiting) -> ~ In v o) by (intros v [<-|Hv]; [exact Io|now apply V]).
    destruct (Nat.eq_dec x t) as [->|Nt].
    - rewrite dt in W. cbn [walk] in W. destruct (nin n (p_stages P)); [|discriminate].
      destruct (visit k P (t :: visiting) o n) as [o2|] eqn:E2; [|discriminate]. cbn [rbind] in W. injection W as ->.
      destruct k as [|k]; [discriminate|]. cbn [visit] in E2. destruct (nin n (t :: visiting)) eqn:In1; [discriminate|]. apply nin_notin in In1.
      assert (No : ~ In n o).
      { destruct Jo as [(l1 & l2 & ->)|[H _]]; [|exact H]. exfalso. apply Io. apply in_app_iff. right. right. now left. }
      destruct (nin n o) eqn:In2; [apply nin_in in In2; contradiction|].
      destruct (walk _ (deps P n) o) as [o3|] eqn:W3; [|discriminate]. cbn [rbind] in E2. injection E2 as <-.
      destruct (walk_J k n (t :: visiting) (deps P n) o o3 In1) with (6 := W3) as (G3 & V3 & J3).
      + intros v' o' y o'' H1 H2 H3 H4 H5 H6. apply (IH k) with (visiting := v') (o := o') (x := y); auto.
      + intros H. apply only_t in H. contradiction.
      + exact G.
      + intros v [<-|Hv]; [exact No|now apply Vx].
      + exact Jo.
      + left. exists o3, []. now rewrite <- app_assoc.
    - destruct (walk_J k x visiting (deps P x) o o1 Iv) with (6 := W) as (_ & _ & J1).
      + intros v' o' y o'' H1 H2 H3 H4 H5 H6. apply (IH k) with (visiting := v') (o := o') (x := y); auto.
      + intros H. apply Nt. now apply only_t.
      + exact G.
      + exact Vx.
      + exact Jo.
      + now apply J_snoc.
  Qed.
  Lemma build_adjacent fuel l o : p_stages P = l ++ [n] -> ~ In n l -> build_pipeline fuel P None = Ok o -> exists l1 l2, o = l1 ++ n :: t :: l2.
  Proof.
    intros Es Nl B. destruct (build_ok P fuel o B) as (_ & Co & _). cbn [build_pipeline] in B. rewrite Es in B.
    assert (X : forall l o1 o, ~ In n l -> (forall x, In x l -> registered P x) -> good P o1 -> J o1 -> walk (visit fuel P []) l o1 = Ok o -> good P o /\ J o /\ forall x, In x l \/ In x o1 -> In x o).
    { clear -only_t dt Nnt. induction l as [|x l IH]; intros o1 o N R G Jo E.
      - injection E as <-. split; [exact G|]. split; [exact Jo|]. now intros x [[]|H].
      - cbn [walk] in E. destruct (visit fuel P [] o1 x) as [o2|] eqn:V; [|discriminate]. cbn [rbind] in E.
        destruct (visit_ok P fuel [] o1 x o2 G (R x (or_introl eq_refl)) (fun v H => match H with end) V) as ((G2 & _) & (e & E2) & I2).
        destruct (IH o2 o) as (A & B & C); [intros H; apply N; now right|intros y Hy; apply R; now right|exact G2| |exact E|].
        + apply (visit_J fuel [] o1 x o2); [intros ->; apply N; now left|apply R; now left|exact G|intros v []|exact Jo|exact V].
        + split; [exact A|]. split; [exact B|]. intros y [[<-|Hy]|Hy]; apply C; [now right|now left|right; rewrite E2; apply in_app_iff; now left]. }
    assert (Wl : forall a, walk (visit fuel P []) (l ++ [n]) a = Ok o -> exists o1, walk (visit fuel P []) l a = Ok o1 /\ visit fuel P [] o1 n = Ok o).
    { clear. induction l as [|x l IH]; intros a B.
      - cbn [app walk] in B. exists a. split; [reflexivity|]. destruct (visit fuel P [] a n); exact B.
      - cbn [app walk] in B. cbn [walk]. destruct (visit fuel P [] a x) as [b|]; [|discriminate]. cbn [rbind] in *. now apply IH. }
    destruct (Wl [] B) as (o1 & W1 & V1).
    destruct (X l [] o1 Nl) as (G1 & J1 & C1); [|split; [constructor|]; split; [intros x []|intros [|? ?] x l2 E; discriminate]|right; split; intros []|exact W1|].
    { intros x Hx. unfold registered. rewrite Es. apply in_app_iff. now left. }
    assert (It : In t o1). { apply C1. left. unfold registered in Rt. rewrite Es in Rt. apply in_app_iff in Rt. destruct Rt as [H|[H|[]]]; [exact H|contradiction]. }
    destruct J1 as [(l1 & l2 & E1)|[_ H]]; [|contradiction]. destruct fuel as [|k]; [discriminate|]. cbn [visit] in V1. change (nin n []) with false in V1.
    assert (In1 : nin n o1 = true) by (apply nin_in; rewrite E1; apply in_app_iff; right; now left). rewrite In1 in V1. injection V1 as <-. now exists l1, l2.
  Qed.
End Adjacent.
Theorem before_adjacent target fn name c P n P' : wf P -> insert_stage_before target fn name None c P = Ok (n, P') -> forall fuel order, build_pipeline fuel P' None = Ok order ->
  exists t l1 l2, named P target t /\ order = l1 ++ n :: t :: l2.
Proof.
  intros W E fuel order B. destruct (before_spec _ _ _ _ _ _ _ W E) as (t & Nt & Sm & _ & _ & _ & Es & _ & _ & Dn & Dt & Dy & W'). destruct (se_new _ _ _ Sm) as [En _].
  assert (Fr : forall y, ~ In n (deps P y)) by (intros y H; apply (wf_known P W y) in H; lia).
  assert (Lt : t < n) by (rewrite En; apply (wf_alloc P W), Nt).
  exists t. destruct (build_adjacent P' n t) with (fuel := fuel) (l := p_stages P) (o := order) as (l1 & l2 & H).
  - intros y Hy. destruct (Nat.eq_dec y t) as [->|Ny]; [reflexivity|]. destruct (Nat.eq_dec y n) as [->|Nn]; [rewrite Dn in Hy|rewrite Dy in Hy by assumption]; now apply Fr in Hy.
  - exact Dt.
  - lia.
  - unfold registered. rewrite Es. apply in_app_iff. left. apply Nt.
  - exact Es.
  - intros H. apply (wf_alloc P W) in H. lia.
  - exact B.
  - now exists l1, l2.
Qed.
