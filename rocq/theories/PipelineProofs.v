(** Proofs about export pipelines. *)
From Coq Require Import String Relations Permutation.
From Verif Require Import Prelude PipelineModel PipelineSpec.
Local Open Scope nat_scope.
Local Open Scope list_scope.

Lemma nin_in x l : nin x l = true <-> In x l.
Proof. unfold nin. rewrite existsb_exists. split; [intros (y & H & E); apply Nat.eqb_eq in E; now subst|intros H; exists x; split; [exact H|apply Nat.eqb_refl]]. Qed.
Lemma nin_notin x l : nin x l = false <-> ~ In x l.
Proof. rewrite <- nin_in. destruct (nin x l); intuition congruence. Qed.
Lemma drop_in x y l : In y (drop x l) <-> In y l /\ y <> x.
Proof. unfold drop. rewrite filter_In. rewrite negb_true_iff, Nat.eqb_neq. reflexivity. Qed.

(** ** Building *)
Section Build.
  Variable P : pipe.
  Notation dep := (depends P).
  Definition good (o : list nat) : Prop :=
    NoDup o /\ (forall x, In x o -> registered P x) /\ forall l1 x l2, o = l1 ++ x :: l2 -> forall d, dep x d -> In d l1.
  Definition bad : Prop := (exists a d, registered P a /\ dep a d /\ ~ registered P d) \/ (exists a, registered P a /\ clos_trans nat dep a a).

  Lemma good_snoc o x : good o -> ~ In x o -> registered P x -> (forall d, dep x d -> In d o) -> good (o ++ [x]).
  Proof.
    intros (N & R & D) Nx Rx Dx. split; [|split].
    - apply NoDup_Add with (a:=x) (l:=o); [|now split]. rewrite <- (app_nil_r o) at 1. apply Add_app.
    - intros y Hy. rewrite in_app_iff in Hy. destruct Hy as [Hy|[<-|[]]]; auto.
    - intros l1 y l2 E d Hd. destruct l2 as [|z l2] using rev_ind.
      + apply app_inj_tail in E. destruct E as [<- <-]. now apply Dx.
      + clear IHl2. rewrite app_comm_cons, app_assoc in E. apply app_inj_tail in E. destruct E as [E _]. now apply (D l1 y l2).
  Qed.

  Lemma walk_ok {A} (f : list nat -> A -> result (list nat)) (Q : list nat -> Prop) (R : A -> list nat -> Prop) :
    (forall o o' a, Q o' -> (exists e, o' = o ++ e) -> R a o -> R a o') ->
    forall l o o', (forall a o o', In a l -> Q o -> f o a = Ok o' -> Q o' /\ (exists e, o' = o ++ e) /\ R a o') -> Q o -> walk f l o = Ok o' ->
    Q o' /\ (exists e, o' = o ++ e) /\ forall a, In a l -> R a o'.
  Proof.
    intros Mono. induction l as [|a l IH]; intros o o' H Qo E.
    - injection E as <-. split; [exact Qo|]. split; [exists []; now rewrite app_nil_r|intros a []].
    - cbn [walk] in E. destruct (f o a) as [o1|] eqn:F; [|discriminate]. cbn [rbind] in E.
      destruct (H a o o1 (or_introl eq_refl) Qo F) as (Q1 & (e1 & E1) & R1).
      destruct (IH o1 o' (fun a o o' Ha => H a o o' (or_intror Ha)) Q1 E) as (Q2 & (e2 & E2) & R2).
      split; [exact Q2|]. split; [exists (e1 ++ e2); now rewrite E2, E1, app_assoc|].
      intros b [<-|Hb]; [|now apply R2]. apply (Mono o1 o' a Q2); [now exists e2|exact R1].
  Qed.
  Lemma walk_err {A B} (f : B -> A -> result B) : forall l o e, walk f l o = Err e -> exists a o', In a l /\ f o' a = Err e.
  Proof.
    induction l as [|a l IH]; intros o e E; [discriminate|]. cbn [walk] in E. destruct (f o a) as [o1|e1] eqn:F.
    - destruct (IH _ _ E) as (b & o' & Hb & Eb). exists b, o'. split; [now right|exact Eb].
    - injection E as <-. exists a, o. split; [now left|exact F].
  Qed.

  Lemma visit_ok fuel : forall visiting o x o', good o -> registered P x -> (forall v, In v visiting -> ~ In v o) -> visit fuel P visiting o x = Ok o' ->
    (good o' /\ forall v, In v visiting -> ~ In v o') /\ (exists e, o' = o ++ e) /\ In x o'.
  Proof.
    induction fuel as [|k IH]; intros visiting o x o' G Rx V E; [discriminate|]. cbn [visit] in E.
    destruct (nin x visiting) eqn:Nv; [discriminate|]. destruct (nin x o) eqn:No.
    - injection E as <-. split; [now split|]. split; [exists []; now rewrite app_nil_r|now apply nin_in].
    - destruct (walk _ (deps P x) o) as [o1|] eqn:W; [|discriminate]. cbn [rbind] in E. injection E as <-.
      apply nin_notin in Nv. apply nin_notin in No.
      destruct (walk_ok (fun o d => if nin d (p_stages P) then visit k P (x :: visiting) o d else Err ValueError)
                  (fun o => good o /\ forall v, In v (x :: visiting) -> ~ In v o) (fun d o => In d o)) with (l:=deps P x) (o:=o) (o':=o1) as ((G1 & V1) & (e & E1) & D1).
      + intros a b d _ (e & ->) H. apply in_app_iff. now left.
      + intros d a b _ [Ga Va] F. destruct (nin d (p_stages P)) eqn:Rd; [|discriminate]. apply nin_in in Rd. now apply (IH (x :: visiting) a d b).
      + split; [exact G|]. intros v [<-|Hv]; [exact No|now apply V].
      + exact W.
      + split; [split|].
        * apply good_snoc; [exact G1|now apply V1; left|exact Rx|exact D1].
        * intros v Hv. rewrite in_app_iff. intros [H|[<-|[]]]; [|exact (Nv Hv)]. apply (V1 v); [now right|exact H].
        * split; [exists (e ++ [x]); now rewrite E1, app_assoc|]. apply in_app_iff. right. now left.
  Qed.
  Lemma visit_err fuel : forall visiting o x e, registered P x -> (forall v, In v visiting -> clos_trans nat dep v x) -> visit fuel P visiting o x = Err e ->
    e = RecursionError \/ e = ValueError /\ bad.
  Proof.
    induction fuel as [|k IH]; intros visiting o x e Rx V E; [injection E as <-; now left|]. cbn [visit] in E.
    destruct (nin x visiting) eqn:Nv.
    - injection E as <-. right. split; [reflexivity|]. right. exists x. split; [exact Rx|]. apply V. now apply nin_in.
    - destruct (nin x o); [discriminate|]. destruct (walk _ (deps P x) o) as [o1|e1] eqn:W; [discriminate|]. cbn [rbind] in E. injection E as <-.
      apply walk_err in W. destruct W as (d & o' & Hd & F). destruct (nin d (p_stages P)) eqn:Rd.
      + apply nin_in in Rd. apply (IH (x :: visiting) o' d e1 Rd); [|exact F]. intros v [<-|Hv]; [now apply t_step|].
        apply t_trans with x; [now apply V|now apply t_step].
      + injection F as <-. right. split; [reflexivity|]. left. exists x, d. split; [exact Rx|]. split; [exact Hd|]. now apply nin_notin.
  Qed.
  Lemma walk_fuel {A B} (f : B -> A -> result B) l : (forall a o, In a l -> f o a <> Err RecursionError) -> forall o, walk f l o <> Err RecursionError.
  Proof. intros H o E. apply walk_err in E. destruct E as (a & o' & Ha & E). now apply (H a o' Ha). Qed.
  Lemma visit_fuel fuel : forall visiting o x, NoDup visiting -> (forall v, In v visiting -> registered P v) -> registered P x -> length (p_stages P) < fuel + length visiting ->
    visit fuel P visiting o x <> Err RecursionError.
  Proof.
    induction fuel as [|k IH]; intros visiting o x N V Rx L.
    - exfalso. apply (NoDup_incl_length N) in V. cbn in L. lia.
    - cbn [visit]. destruct (nin x visiting) eqn:Nv; [discriminate|]. destruct (nin x o); [discriminate|]. apply nin_notin in Nv.
      destruct (walk _ (deps P x) o) as [o1|e1] eqn:W; [discriminate|]. cbn [rbind]. intros [= ->]. revert W. apply walk_fuel.
      intros d o2 Hd. destruct (nin d (p_stages P)) eqn:Rd; [|discriminate]. apply nin_in in Rd. apply IH; [now constructor| |exact Rd|cbn [length]; lia].
      intros v [<-|Hv]; auto.
  Qed.
  Lemma good_acyclic o : good o -> forall a d, clos_trans nat dep a d -> forall l1 l2, o = l1 ++ a :: l2 -> In d l1.
  Proof.
    intros G a d H. apply Operators_Properties.clos_trans_tn1 in H. induction H as [d H|b d H1 H2 IH]; intros l1 l2 E.
    - exact (proj2 (proj2 G) l1 a l2 E d H).
    - specialize (IH l1 l2 E). apply in_split in IH. destruct IH as (m1 & m2 & ->). rewrite <- app_assoc in E. cbn [app] in E.
      apply in_app_iff. left. exact (proj2 (proj2 G) m1 b _ E d H1).
  Qed.
  Lemma order_executable o : execution_order P o -> executable P.
  Proof.
    intros (N & C & D). assert (G : good o) by (split; [exact N|]; split; [apply C|exact D]). split.
    - intros a d Ha Hd. apply C in Ha. apply in_split in Ha. destruct Ha as (l1 & l2 & E). apply C. rewrite E. apply in_app_iff. left. now apply (D l1 a l2).
    - intros a Ha H. apply C in Ha. apply in_split in Ha. destruct Ha as (l1 & l2 & E). pose proof (good_acyclic o G a a H l1 l2 E) as I.
      rewrite E in N. apply NoDup_remove_2 in N. apply N. apply in_app_iff. now left.
  Qed.
  Lemma build_ok fuel o : build_pipeline fuel P None = Ok o -> execution_order P o.
  Proof.
    intros E. cbn [build_pipeline] in E.
    destruct (walk_ok (visit fuel P []) good (fun d o => In d o)) with (l:=p_stages P) (o:=@nil nat) (o':=o) as (G & _ & C).
    - intros a b d _ (e & ->) H. apply in_app_iff. now left.
    - intros a b c Ha Gb F. destruct (visit_ok fuel [] b a c Gb Ha) as ((G1 & _) & H); [intros v []|exact F|]. split; [exact G1|exact H].
    - split; [constructor|]. split; [intros x []|intros l1 x l2 E1; destruct l1; discriminate].
    - exact E.
    - destruct G as (N & R & D). split; [exact N|]. split; [|exact D]. intros x. split; [apply R|apply C].
  Qed.
  Lemma build_err fuel e : build_pipeline fuel P None = Err e -> e = RecursionError \/ e = ValueError /\ bad.
  Proof. intros E. cbn in E. apply walk_err in E. destruct E as (a & o & Ha & F). apply (visit_err fuel [] o a e Ha); [intros v []|exact F]. Qed.
  Lemma build_fuel fuel : length (p_stages P) < fuel -> build_pipeline fuel P None <> Err RecursionError.
  Proof. intros L. cbn. apply walk_fuel. intros a o Ha. apply visit_fuel; [constructor|intros v []|exact Ha|cbn; lia]. Qed.
  Lemma bad_not : bad -> ~ executable P.
  Proof. intros [(a & d & Ra & D & Nd)|(a & Ra & C)] [E1 E2]; [exact (Nd (E1 a d Ra D))|exact (E2 a Ra C)]. Qed.
  Theorem build_exactly : exists N, forall fuel, N <= fuel ->
    (exists o, build_pipeline fuel P None = Ok o /\ execution_order P o /\ executable P) \/ (build_pipeline fuel P None = Err ValueError /\ ~ executable P).
  Proof.
    exists (S (length (p_stages P))). intros fuel L. destruct (build_pipeline fuel P None) as [o|e] eqn:E.
    - left. exists o. split; [reflexivity|]. pose proof (build_ok _ _ E) as O. split; [exact O|now apply (order_executable o)].
    - right. destruct (build_err _ _ E) as [->|[-> B]]; [exfalso; apply (build_fuel fuel L E)|]. split; [reflexivity|now apply bad_not].
  Qed.
  Corollary executable_order : executable P -> exists o, execution_order P o.
  Proof. intros X. destruct build_exactly as (N & H). destruct (H N (le_n N)) as [(o & _ & O & _)|[_ B]]; [now exists o|now destruct B]. Qed.
End Build.

(** ** Running *)
Section Runs.
  Context {V U M : Type} (call : nat -> U -> list V -> result V * U) (metric : V -> V -> result M) (P : pipe) (input : V).
  Implicit Types res : list (nat * V).
  Lemma lookup_in res x v : lookup x res = Ok v -> In (x, v) res.
  Proof.
    induction res as [|[y w] res IH]; [discriminate|]. cbn [lookup]. destruct (y =? x) eqn:E.
    - intros [= ->]. apply Nat.eqb_eq in E. subst. now left.
    - intros H. right. now apply IH.
  Qed.
  Lemma lookup_some res x : In x (map fst res) -> exists v, lookup x res = Ok v.
  Proof.
    induction res as [|[y w] res IH]; [intros []|]. cbn [lookup map fst]. destruct (y =? x) eqn:E; [eauto|]. intros [->|H]; [|now apply IH].
    rewrite Nat.eqb_refl in E. discriminate.
  Qed.
  Lemma lookup_uniq res x v : NoDup (map fst res) -> In (x, v) res -> lookup x res = Ok v.
  Proof.
    induction res as [|[y w] res IH]; [intros _ []|]. cbn [lookup map fst]. intros N H. inversion N as [|? ? N1 N2]; subst.
    destruct H as [E|H]; [injection E as -> ->; now rewrite Nat.eqb_refl|]. destruct (y =? x) eqn:E; [|now apply IH].
    apply Nat.eqb_eq in E. subst y. destruct N1. apply in_map_iff. exists (x, v). now split.
  Qed.
  Lemma inputs_given res x args : stage_inputs P input res x = Ok args -> given_to P input res x args.
  Proof.
    unfold stage_inputs, given_to. destruct (deps P x) as [|d ds]; [intros [= <-]; left; now split|]. intros E. right. split; [discriminate|].
    revert args E. generalize (d :: ds). clear. intros l. induction l as [|d l IH]; intros args E; [injection E as <-; constructor|].
    cbn [rmapM] in E. destruct (lookup d res) as [v|] eqn:L; [|discriminate]. cbn [rbind] in E. destruct (rmapM _ l) as [vs|]; [|discriminate].
    cbn [rbind] in E. injection E as <-. constructor; [now apply lookup_in|now apply IH].
  Qed.
  Lemma inputs_total res x : (forall d, depends P x d -> In d (map fst res)) -> exists args, stage_inputs P input res x = Ok args.
  Proof.
    unfold stage_inputs, depends. destruct (deps P x) as [|d ds]; [eauto|]. generalize (d :: ds). clear. intros l. induction l as [|d l IH]; intros H; [now exists []|].
    destruct (lookup_some res d) as (v & E); [apply H; now left|]. destruct IH as (vs & Es); [intros y Hy; apply H; now right|].
    exists (v :: vs). cbn [rmapM]. rewrite E. cbn [rbind]. now rewrite Es.
  Qed.
  Lemma execute_ran : forall order res u,
    (forall l1 x l2, order = l1 ++ x :: l2 -> forall d, depends P x d -> In d (map fst res ++ l1)) ->
    match execute call P input order res u with
    | (Ok res', u') => ran call P input order res u res' u' /\ map fst res' = map fst res ++ order
    | (Err e, u') => exists l1 x l2 res1 u1 args, order = l1 ++ x :: l2 /\ ran call P input l1 res u res1 u1 /\ given_to P input res1 x args /\ call (fn_of P x) u1 args = (Err e, u')
    end.
  Proof.
    induction order as [|x order IH]; intros res u H.
    - cbn. split; [constructor|now rewrite app_nil_r].
    - cbn [execute]. destruct (inputs_total res x) as (args & A).
      { intros d Hd. specialize (H [] x order eq_refl d Hd). now rewrite app_nil_r in H. }
      rewrite A. apply inputs_given in A. destruct (call (fn_of P x) u args) as [[v|e] u'] eqn:C.
      + specialize (IH (res ++ [(x, v)]) u').
        assert (H' : forall l1 y l2, order = l1 ++ y :: l2 -> forall d, depends P y d -> In d (map fst (res ++ [(x, v)]) ++ l1)).
        { intros l1 y l2 E d Hd. specialize (H (x :: l1) y l2 (f_equal (cons x) E) d Hd). rewrite map_app, <- app_assoc. exact H. }
        specialize (IH H'). destruct (execute call P input order (res ++ [(x, v)]) u') as [[res'|e] u''].
        * destruct IH as [R K]. split; [now apply (ran_cons _ _ _ x order res u args v u')|]. rewrite K, map_app, <- app_assoc. reflexivity.
        * destruct IH as (l1 & y & l2 & res1 & u1 & args' & E & R & G & C'). exists (x :: l1), y, l2, res1, u1, args'.
          split; [cbn [app]; now rewrite E|]. split; [now apply (ran_cons _ _ _ x l1 res u args v u')|]. now split.
      + exists [], x, order, res, u, args. split; [reflexivity|]. split; [constructor|]. now split.
  Qed.
End Runs.

(** ** Edits *)
Record wf (P : pipe) : Prop := mkWf {
  wf_stages : NoDup (p_stages P);
  wf_alloc : forall x, registered P x -> x < length (p_refs P);
  wf_deps : forall x, NoDup (deps P x);
  wf_known : forall x d, depends P x d -> d < length (p_refs P);
  wf_names : forall x y, registered P x -> registered P y -> name_of P x = name_of P y -> x = y;
  wf_results : forall x, In x (p_results P) -> registered P x;
  wf_results_nodup : NoDup (p_results P);
  wf_evals : forall x, In x (p_evals P) -> registered P x;
  wf_evals_nodup : NoDup (p_evals P) }.

Lemma update_length f : forall l x, length (update x f l) = length l.
Proof. induction l as [|s l IH]; intros [|x]; cbn; congruence. Qed.
Lemma update_nth f : forall l x y, nth_error (update x f l) y = if y =? x then option_map f (nth_error l y) else nth_error l y.
Proof.
  induction l as [|s l IH]; intros [|x] [|y]; cbn; try reflexivity.
  - now destruct (y =? x).
  - apply IH.
Qed.
Lemma deps_with x f P y : x < length (p_refs P) -> deps (with_deps x f P) y = if y =? x then f (deps P y) else deps P y.
Proof.
  intros L. unfold deps, with_deps. cbn [p_refs]. rewrite update_nth. destruct (y =? x) eqn:E; [|reflexivity].
  apply Nat.eqb_eq in E. subst y. destruct (nth_error (p_refs P) x) eqn:F; [reflexivity|]. apply nth_error_None in F. lia.
Qed.
Lemma name_with x f P y : name_of (with_deps x f P) y = name_of P y.
Proof. unfold name_of, with_deps. cbn [p_refs]. rewrite update_nth. destruct (y =? x); [|reflexivity]. now destruct (nth_error (p_refs P) y). Qed.
Lemma fn_with x f P y : fn_of (with_deps x f P) y = fn_of P y.
Proof. unfold fn_of, with_deps. cbn [p_refs]. rewrite update_nth. destruct (y =? x); [|reflexivity]. now destruct (nth_error (p_refs P) y). Qed.
Lemma refs_with x f P : length (p_refs (with_deps x f P)) = length (p_refs P).
Proof. unfold with_deps. cbn [p_refs]. apply update_length. Qed.
Lemma deps_out P x : length (p_refs P) <= x -> deps P x = [].
Proof. intros L. unfold deps. apply nth_error_None in L. now rewrite L. Qed.
Lemma deps_with_out x f P y : length (p_refs P) <= x -> deps (with_deps x f P) y = deps P y.
Proof.
  intros L. unfold deps, with_deps. cbn [p_refs]. rewrite update_nth. destruct (y =? x) eqn:E; [|reflexivity].
  apply Nat.eqb_eq in E. subst y. apply nth_error_None in L. now rewrite L.
Qed.

Lemma register_spec fn n c P x P' : register_stage fn n c P = Ok (x, P') ->
  (forall y, registered P y -> name_of P y <> n) /\ x = length (p_refs P) /\ length (p_refs P') = S x /\ p_stages P' = p_stages P ++ [x] /\
  p_results P' = (if c then p_results P ++ [x] else p_results P) /\ p_evals P' = p_evals P /\
  (forall y, deps P' y = deps P y) /\ (forall y, name_of P' y = if y =? x then n else name_of P y) /\ (forall y, fn_of P' y = if y =? x then fn else fn_of P y).
Proof.
  unfold register_stage. destruct (existsb _ _) eqn:Ex; [discriminate|]. intros [= <- <-].
  assert (A : forall {A} (f : stage -> A) (d : A) s y,
     match nth_error (p_refs P ++ [s]) y with Some s => f s | None => d end = if y =? length (p_refs P) then f s else match nth_error (p_refs P) y with Some s => f s | None => d end).
  { intros A f d s y. destruct (y =? length (p_refs P)) eqn:E.
    - apply Nat.eqb_eq in E. subst y. rewrite nth_error_app2, Nat.sub_diag by lia. reflexivity.
    - apply Nat.eqb_neq in E. destruct (Nat.lt_ge_cases y (length (p_refs P))) as [L|L]; [now rewrite nth_error_app1|].
      rewrite nth_error_app2 by exact L. assert (exists k, y - length (p_refs P) = S k) as (k & ->) by (exists (y - length (p_refs P) - 1); lia).
      apply nth_error_None in L. rewrite L. now destruct k. }
  split; [|split; [reflexivity|split; [cbn [p_refs]; rewrite app_length; cbn; lia|]]].
  - intros y Hy E. apply not_true_iff_false in Ex. apply Ex. apply existsb_exists. exists y. split; [exact Hy|now apply String.eqb_eq].
  - split; [reflexivity|]. split; [reflexivity|]. split; [reflexivity|]. split; [|split].
    + intros y. unfold deps. cbn [p_refs]. rewrite (A _ st_deps []). destruct (y =? length (p_refs P)) eqn:E; [|reflexivity]. apply Nat.eqb_eq in E. subst y. cbn [st_deps].
      assert (L : nth_error (p_refs P) (length (p_refs P)) = None) by (apply nth_error_None; lia). now rewrite L.
    + intros y. unfold name_of. cbn [p_refs]. now rewrite (A _ st_name EmptyString).
    + intros y. unfold fn_of. cbn [p_refs]. now rewrite (A _ st_fn 0).
Qed.
Lemma register_wf fn n c P x P' : wf P -> register_stage fn n c P = Ok (x, P') -> wf P'.
Proof.
  intros W E. destruct (register_spec _ _ _ _ _ _ E) as (Nn & Ex & Lr & Es & Er & Ev & D & Nm & _). subst x.
  assert (Fr : ~ registered P (length (p_refs P))) by (intros H; apply (wf_alloc P W) in H; lia).
  assert (ND : forall l, NoDup l -> (forall x, In x l -> registered P x) -> NoDup (l ++ [length (p_refs P)])).
  { intros l N I. apply NoDup_Add with (a:=length (p_refs P)) (l:=l); [rewrite <- (app_nil_r l) at 1; apply Add_app|]. split; [exact N|]. intros H. now apply Fr, I. }
  assert (R : forall y, registered P' y <-> registered P y \/ y = length (p_refs P)).
  { intros y. unfold registered. rewrite Es, in_app_iff. cbn. intuition. }
  split.
  - rewrite Es. apply ND; [apply W|auto].
  - intros y Hy. rewrite Lr. apply R in Hy. destruct Hy as [Hy| ->]; [apply (wf_alloc P W) in Hy; lia|lia].
  - intros y. rewrite D. apply W.
  - intros y d Hd. unfold depends in Hd. rewrite D in Hd. apply (wf_known P W) in Hd. lia.
  - intros y z Hy Hz. rewrite !Nm. apply R in Hy. apply R in Hz. destruct (Nat.eqb_spec y (length (p_refs P))) as [->|Ny], (Nat.eqb_spec z (length (p_refs P))) as [->|Nz]; intros E'; try reflexivity.
    + destruct Hz as [Hz| ->]; [|reflexivity]. destruct (Nn z Hz). now symmetry.
    + destruct Hy as [Hy| ->]; [|reflexivity]. destruct (Nn y Hy). exact E'.
    + apply (wf_names P W); [intuition|intuition|exact E'].
  - intros y Hy. apply R. rewrite Er in Hy. destruct c; [apply in_app_iff in Hy; destruct Hy as [Hy|[<-|[]]]; [left; now apply W|now right]|left; now apply W].
  - rewrite Er. destruct c; [apply ND; [apply W|apply W]|apply W].
  - intros y Hy. apply R. left. rewrite Ev in Hy. exact (wf_evals P W y Hy).
  - rewrite Ev. apply W.
Qed.
Lemma register_eval_inv fn n c P x P' : register_eval_stage fn n c P = Ok (x, P') -> exists P1, register_stage fn n c P = Ok (x, P1) /\
  P' = mkPipe (p_refs P1) (p_stages P1) (p_results P1) (p_evals P1 ++ [x]).
Proof. unfold register_eval_stage. destruct (register_stage fn n c P) as [[x1 P1]|]; [|discriminate]. cbn [rbind]. intros [= <- <-]. now exists P1. Qed.
Lemma register_eval_wf fn n c P x P' : wf P -> register_eval_stage fn n c P = Ok (x, P') -> wf P'.
Proof.
  intros W E. destruct (register_eval_inv _ _ _ _ _ _ E) as (P1 & E1 & ->). pose proof (register_wf _ _ _ _ _ _ W E1) as W1.
  destruct (register_spec _ _ _ _ _ _ E1) as (_ & Ex & _ & Es & _ & Ev & _). subst x. destruct W1. split; cbn; try assumption.
  - intros y Hy. apply in_app_iff in Hy. destruct Hy as [Hy|[<-|[]]]; [now apply wf_evals0|]. unfold registered. cbn. rewrite Es. apply in_app_iff. right. now left.
  - apply NoDup_Add with (a:=length (p_refs P)) (l:=p_evals P1); [rewrite <- (app_nil_r (p_evals P1)) at 1; apply Add_app|]. split; [assumption|].
    rewrite Ev. intros H. apply (wf_evals P W) in H. apply (wf_alloc P W) in H. lia.
Qed.
Lemma add_dep_in ds : forall l x, In x (fold_left add_dep ds l) <-> In x l \/ In x ds.
Proof.
  induction ds as [|d ds IH]; intros l x; [cbn; intuition|]. cbn [fold_left]. rewrite IH. unfold add_dep. destruct (nin d l) eqn:E.
  - apply nin_in in E. cbn. intuition (subst; auto).
  - rewrite in_app_iff. cbn. intuition.
Qed.
Lemma nodup_snoc {A} (l : list A) x : NoDup l -> ~ In x l -> NoDup (l ++ [x]).
Proof. intros N H. apply NoDup_Add with (a:=x) (l:=l); [rewrite <- (app_nil_r l) at 1; apply Add_app|now split]. Qed.
Lemma add_dep_nodup ds : forall l, NoDup l -> NoDup (fold_left add_dep ds l).
Proof.
  induction ds as [|d ds IH]; intros l N; [exact N|]. cbn [fold_left]. apply IH. unfold add_dep. destruct (nin d l) eqn:E; [exact N|]. apply nin_notin in E. now apply nodup_snoc.
Qed.
Lemma add_dep_fresh ds : forall l, NoDup (l ++ ds) -> fold_left add_dep ds l = l ++ ds.
Proof.
  induction ds as [|d ds IH]; intros l N; [now rewrite app_nil_r|]. cbn [fold_left]. unfold add_dep at 2. replace (nin d l) with false.
  - rewrite IH; rewrite <- app_assoc; [reflexivity|exact N].
  - symmetry. apply nin_notin. intros H. apply NoDup_remove_2 in N. apply N. apply in_app_iff. now left.
Qed.
Lemma with_wf x f P : wf P -> NoDup (f (deps P x)) -> (forall d, In d (f (deps P x)) -> d < length (p_refs P)) -> wf (with_deps x f P).
Proof.
  intros W N I. destruct (Nat.lt_ge_cases x (length (p_refs P))) as [L|L].
  - destruct W. split; try assumption.
    + intros y Hy. rewrite refs_with. now apply wf_alloc0.
    + intros y. rewrite deps_with by exact L. destruct (Nat.eqb_spec y x) as [->|]; auto.
    + intros y d Hd. rewrite refs_with. unfold depends in Hd. rewrite deps_with in Hd by exact L. destruct (Nat.eqb_spec y x) as [->|]; [now apply I|now apply (wf_known0 y)].
    + intros y z. rewrite !name_with. apply wf_names0.
  - destruct W. split; try assumption.
    + intros y Hy. rewrite refs_with. now apply wf_alloc0.
    + intros y. now rewrite deps_with_out.
    + intros y d Hd. rewrite refs_with. unfold depends in Hd. rewrite deps_with_out in Hd by exact L. now apply (wf_known0 y).
    + intros y z. rewrite !name_with. apply wf_names0.
Qed.
Lemma depends_on_wf x ds P : wf P -> (forall d, In d ds -> d < length (p_refs P)) -> wf (depends_on x ds P).
Proof.
  intros W I. apply with_wf; [exact W|apply add_dep_nodup; apply W|]. intros d Hd. apply add_dep_in in Hd. destruct Hd as [Hd|Hd]; [now apply (wf_known P W x)|now apply I].
Qed.
Lemma set_wf x ds P : wf P -> (forall d, In d ds -> d < length (p_refs P)) -> wf (set_dependencies x ds P).
Proof.
  intros W I. apply with_wf; [exact W|apply add_dep_nodup; constructor|]. intros d Hd. apply add_dep_in in Hd. destruct Hd as [[]|Hd]. now apply I.
Qed.
Lemma drop_nodup x l : NoDup l -> NoDup (drop x l).
Proof. apply NoDup_filter. Qed.
Lemma remove_wf x d P P' : wf P -> remove_dep x d P = Ok P' -> wf P'.
Proof.
  unfold remove_dep. intros W. destruct (nin d (deps P x)); [|discriminate]. intros [= <-]. apply with_wf; [exact W|apply drop_nodup; apply W|].
  intros y Hy. apply drop_in in Hy. now apply (wf_known P W x).
Qed.
Lemma get_spec n P x : wf P -> get_stage n P = Ok x <-> named P n x.
Proof.
  intros W. unfold get_stage. destruct (find _ _) as [y|] eqn:F.
  - apply find_some in F. destruct F as [Hy E]. apply String.eqb_eq in E. split; [intros [= <-]; now split|].
    intros [Hx Ex]. f_equal. apply (wf_names P W); [exact Hy|exact Hx|congruence].
  - split; [discriminate|]. intros [Hx Ex]. pose proof (find_none _ _ F x Hx) as H. cbn in H. rewrite Ex, String.eqb_refl in H. discriminate.
Qed.
Lemma get_err n P e : get_stage n P = Err e -> e = KeyError /\ forall x, ~ named P n x.
Proof.
  unfold get_stage. destruct (find _ _) as [y|] eqn:F; [discriminate|]. intros [= <-]. split; [reflexivity|]. intros x [Hx Ex].
  pose proof (find_none _ _ F x Hx) as H. cbn in H. rewrite Ex, String.eqb_refl in H. discriminate.
Qed.

(** what [rewire] does *)
Definition rewired (t n : nat) (l : list nat) : list nat := add_dep (drop t l) n.
Lemma rewire_spec t n : forall l P, NoDup l -> (forall x, In x l -> x < length (p_refs P) /\ In t (deps P x)) ->
  exists P', rewire t n l P = Ok P' /\ p_stages P' = p_stages P /\ p_results P' = p_results P /\ p_evals P' = p_evals P /\ length (p_refs P') = length (p_refs P) /\
    (forall y, deps P' y = if nin y l then rewired t n (deps P y) else deps P y) /\ (forall y, name_of P' y = name_of P y) /\ (forall y, fn_of P' y = fn_of P y).
Proof.
  induction l as [|x l IH]; intros P N H.
  - exists P. repeat (split; [reflexivity|]). reflexivity.
  - inversion N as [|? ? Nx Nl]; subst. destruct (H x (or_introl eq_refl)) as [Lx Tx]. cbn [rewire]. unfold remove_dep.
    apply nin_in in Tx. rewrite Tx. cbn [rbind]. set (P1 := depends_on x [n] (with_deps x (drop t) P)).
    assert (D1 : forall y, deps P1 y = if y =? x then rewired t n (deps P y) else deps P y).
    { intros y. unfold P1, depends_on. rewrite deps_with by (rewrite refs_with; exact Lx). rewrite deps_with by exact Lx. destruct (Nat.eqb_spec y x); reflexivity. }
    assert (L1 : length (p_refs P1) = length (p_refs P)) by (unfold P1, depends_on; now rewrite !refs_with).
    destruct (IH P1 Nl) as (P' & E & S1 & S2 & S3 & S4 & S5 & S6 & S7).
    { intros y Hy. rewrite L1, D1. destruct (Nat.eqb_spec y x) as [->|]; [contradiction|]. apply H. now right. }
    exists P'. split; [exact E|]. repeat (split; [first [exact S1|exact S2|exact S3|now rewrite S4, L1]|]). split.
    + intros y. rewrite S5, D1. cbn [nin existsb]. fold (nin y l). destruct (Nat.eqb_spec y x) as [->|]; cbn [orb]; [|reflexivity]. apply nin_notin in Nx. now rewrite Nx.
    + split; intros y; [rewrite S6|rewrite S7]; unfold P1, depends_on; [now rewrite !name_with|now rewrite !fn_with].
Qed.
Lemma dependents_in t P x : In x (dependents_of t P) <-> registered P x /\ In t (deps P x).
Proof. unfold dependents_of. rewrite filter_In, nin_in. reflexivity. Qed.
Lemma dependents_nodup t P : wf P -> NoDup (dependents_of t P).
Proof. intros W. apply NoDup_filter. apply W. Qed.

(** the edits *)
Record same_else (P P' : pipe) (n : nat) : Prop := mkSame {
  se_new : n = length (p_refs P) /\ length (p_refs P') = S n;
  se_names : forall y, y <> n -> name_of P' y = name_of P y;
  se_fns : forall y, y <> n -> fn_of P' y = fn_of P y }.
Lemma before_spec target fn name c P n P' : wf P -> insert_stage_before target fn name None c P = Ok (n, P') ->
  exists t, named P target t /\ same_else P P' n /\ name_of P' n = name /\ fn_of P' n = fn /\ (forall y, registered P y -> name_of P y <> name) /\
    p_stages P' = p_stages P ++ [n] /\ p_results P' = (if c then p_results P ++ [n] else p_results P) /\ p_evals P' = p_evals P /\
    deps P' n = deps P t /\ deps P' t = [n] /\ (forall y, y <> n -> y <> t -> deps P' y = deps P y) /\ wf P'.
Proof.
  intros W. unfold insert_stage_before. destruct (get_stage target P) as [t|] eqn:G; [|discriminate]. cbn [rbind]. apply (get_spec target P t W) in G.
  destruct (register_stage fn name c P) as [[n1 P1]|] eqn:R; [|discriminate]. cbn [rbind]. intros [= -> <-].
  pose proof (register_wf _ _ _ _ _ _ W R) as W1. destruct (register_spec _ _ _ _ _ _ R) as (Nn & En & Lr & Es & Er & Ev & D & Nm & Fn).
  assert (Lt : t < length (p_refs P)) by (apply (wf_alloc P W); apply G). assert (Nt : t <> n) by lia.
  assert (Dn : forall y, deps (depends_on n (deps P t) P1) y = if y =? n then deps P t else deps P y).
  { intros y. unfold depends_on. rewrite deps_with by lia. rewrite D. destruct (Nat.eqb_spec y n) as [->|]; [|reflexivity].
    rewrite (deps_out P n) by lia. apply (add_dep_fresh (deps P t) []). apply W. }
  set (P2 := depends_on n (deps P t) P1) in *. assert (L2 : length (p_refs P2) = S n) by (unfold P2, depends_on; rewrite refs_with; exact Lr).
  assert (D3 : forall y, deps (set_dependencies t [n] P2) y = if y =? t then [n] else if y =? n then deps P t else deps P y).
  { intros y. unfold set_dependencies. rewrite deps_with by lia. destruct (y =? t); [reflexivity|apply Dn]. }
  exists t. split; [exact G|]. split.
  { split; [split; [exact En|]; unfold set_dependencies; now rewrite refs_with|..]; intros y Hy; unfold set_dependencies, P2, depends_on; rewrite ?name_with, ?fn_with, ?Nm, ?Fn;
      apply Nat.eqb_neq in Hy; now rewrite Hy. }
  split; [unfold set_dependencies, P2, depends_on; rewrite !name_with, Nm, Nat.eqb_refl; reflexivity|].
  split; [unfold set_dependencies, P2, depends_on; rewrite !fn_with, Fn, Nat.eqb_refl; reflexivity|].
  split; [exact Nn|]. split; [exact Es|]. split; [exact Er|]. split; [exact Ev|].
  split; [rewrite D3; destruct (Nat.eqb_spec n t); [lia|]; now rewrite Nat.eqb_refl|]. split; [now rewrite D3, Nat.eqb_refl|]. split.
  - intros y H1 H2. rewrite D3. apply Nat.eqb_neq in H1. apply Nat.eqb_neq in H2. now rewrite H1, H2.
  - apply set_wf; [|intros d [<-|[]]; lia]. apply depends_on_wf; [exact W1|]. intros d Hd. apply (wf_known P W t) in Hd. lia.
Qed.
Lemma explicit_spec target fn name names c P n P' : wf P -> insert_stage_before target fn name (Some names) c P = Ok (n, P') ->
  exists ds, Forall2 (named P) names ds /\ same_else P P' n /\ name_of P' n = name /\ fn_of P' n = fn /\
    p_stages P' = p_stages P ++ [n] /\ p_results P' = (if c then p_results P ++ [n] else p_results P) /\ p_evals P' = p_evals P /\
    deps P' n = fold_left add_dep ds [] /\ (forall y, y <> n -> deps P' y = deps P y) /\ wf P'.
Proof.
  intros W. unfold insert_stage_before. destruct (get_stage target P) as [t|] eqn:G; [|discriminate]. cbn [rbind].
  destruct (rmapM _ names) as [ds|] eqn:M; [|discriminate]. cbn [rbind].
  destruct (register_stage fn name c P) as [[n1 P1]|] eqn:R; [|discriminate]. cbn [rbind]. intros [= -> <-].
  pose proof (register_wf _ _ _ _ _ _ W R) as W1. destruct (register_spec _ _ _ _ _ _ R) as (Nn & En & Lr & Es & Er & Ev & D & Nm & Fn).
  assert (F : Forall2 (named P) names ds).
  { clear -W M. revert ds M. induction names as [|a l IH]; intros ds M; [injection M as <-; constructor|]. cbn [rmapM] in M.
    destruct (get_stage a P) as [x|] eqn:E; [|discriminate]. cbn [rbind] in M. destruct (rmapM _ l) as [xs|]; [|discriminate]. cbn [rbind] in M. injection M as <-.
    constructor; [now apply (get_spec a P x W)|now apply IH]. }
  assert (Ld : forall d, In d ds -> d < length (p_refs P)).
  { clear -F W. intros d Hd. induction F as [|a b l l' H F IH]; [destruct Hd|]. destruct Hd as [->|Hd]; [apply (wf_alloc P W), H|now apply IH]. }
  assert (Dn : forall y, deps (depends_on n ds P1) y = if y =? n then fold_left add_dep ds [] else deps P y).
  { intros y. unfold depends_on. rewrite deps_with by lia. rewrite D. destruct (Nat.eqb_spec y n) as [->|]; [|reflexivity]. now rewrite (deps_out P n) by lia. }
  exists ds. split; [exact F|]. split.
  { split; [split; [exact En|]; unfold depends_on; now rewrite refs_with|..]; intros y Hy; unfold depends_on; rewrite ?name_with, ?fn_with, ?Nm, ?Fn;
      apply Nat.eqb_neq in Hy; now rewrite Hy. }
  split; [unfold depends_on; rewrite name_with, Nm, Nat.eqb_refl; reflexivity|].
  split; [unfold depends_on; rewrite fn_with, Fn, Nat.eqb_refl; reflexivity|].
  split; [exact Es|]. split; [exact Er|]. split; [exact Ev|].
  split; [now rewrite Dn, Nat.eqb_refl|]. split.
  - intros y H1. rewrite Dn. apply Nat.eqb_neq in H1. now rewrite H1.
  - apply depends_on_wf; [exact W1|]. intros d Hd. apply Ld in Hd. lia.
Qed.
Lemma drop_notin t l : ~ In t l -> drop t l = l.
Proof.
  unfold drop. induction l as [|a l IH]; intros H; [reflexivity|]. cbn [filter]. destruct (Nat.eqb_spec a t) as [->|]; [destruct H; now left|]. cbn. f_equal. apply IH. intros H1. apply H. now right.
Qed.
Lemma rewired_at t n l1 l2 : NoDup (l1 ++ t :: l2) -> ~ In n (l1 ++ t :: l2) -> rewired t n (l1 ++ t :: l2) = l1 ++ l2 ++ [n].
Proof.
  intros N Nn. unfold rewired. assert (drop t (l1 ++ t :: l2) = l1 ++ l2) as ->.
  { pose proof (NoDup_remove_2 _ _ _ N) as H. unfold drop. rewrite filter_app. cbn [filter]. rewrite Nat.eqb_refl. cbn [negb]. fold (drop t l1). fold (drop t l2).
    rewrite !drop_notin; [reflexivity|..]; intros H1; apply H; apply in_app_iff; auto. }
  unfold add_dep. replace (nin n (l1 ++ l2)) with false; [now rewrite app_assoc|]. symmetry. apply nin_notin. intros H. apply Nn. rewrite in_app_iff in *. cbn. intuition.
Qed.
Lemma rewired_nodup t n l : NoDup l -> NoDup (rewired t n l).
Proof. intros N. apply (add_dep_nodup [n]). now apply drop_nodup. Qed.
Lemma rewired_in t n l x : In x (rewired t n l) <-> (In x l /\ x <> t) \/ x = n.
Proof. unfold rewired. change (add_dep (drop t l) n) with (fold_left add_dep [n] (drop t l)). rewrite add_dep_in. rewrite drop_in. cbn. intuition. Qed.

Lemma after_spec target fn name c P n P' : wf P -> insert_stage_after target fn name c P = Ok (n, P') ->
  exists t, named P target t /\ same_else P P' n /\ name_of P' n = name /\ fn_of P' n = fn /\
    p_stages P' = p_stages P ++ [n] /\ p_results P' = (if c then p_results P ++ [n] else p_results P) /\ p_evals P' = p_evals P /\
    deps P' n = [t] /\ (forall y, y <> n -> deps P' y = if nin y (p_stages P) && nin t (deps P y) then rewired t n (deps P y) else deps P y) /\ wf P'.
Proof.
  intros W. unfold insert_stage_after. destruct (get_stage target P) as [t|] eqn:G; [|discriminate]. cbn [rbind]. apply (get_spec target P t W) in G.
  destruct (register_stage fn name c P) as [[n1 P1]|] eqn:R; [|discriminate]. cbn [rbind].
  pose proof (register_wf _ _ _ _ _ _ W R) as W1. destruct (register_spec _ _ _ _ _ _ R) as (Nn & En & Lr & Es & Er & Ev & D & Nm & Fn).
  assert (Lt : t < length (p_refs P)) by (apply (wf_alloc P W); apply G).
  assert (Dn : forall y, deps (depends_on n1 [t] P1) y = if y =? n1 then [t] else deps P y).
  { intros y. unfold depends_on. rewrite deps_with by lia. rewrite D. destruct (Nat.eqb_spec y n1) as [->|]; [|reflexivity]. now rewrite (deps_out P n1) by lia. }
  assert (W2 : wf (depends_on n1 [t] P1)) by (apply depends_on_wf; [exact W1|intros d [<-|[]]; lia]).
  assert (L2 : length (p_refs (depends_on n1 [t] P1)) = S n1) by (unfold depends_on; now rewrite refs_with).
  assert (S2 : p_stages (depends_on n1 [t] P1) = p_stages P1) by reflexivity.
  destruct (rewire_spec t n1 (dependents_of t P) (depends_on n1 [t] P1)) as (P3 & E & S3 & R3 & V3 & L3 & D3 & N3 & F3).
  { now apply dependents_nodup. }
  { intros x Hx. apply dependents_in in Hx. destruct Hx as [Hx Ht]. pose proof (wf_alloc P W x Hx). split; [lia|]. rewrite Dn. destruct (Nat.eqb_spec x n1); [lia|exact Ht]. }
  rewrite E. cbn [rbind]. intros [= -> <-].
  assert (D4 : forall y, deps P3 y = if y =? n then [t] else if nin y (p_stages P) && nin t (deps P y) then rewired t n (deps P y) else deps P y).
  { intros y. rewrite D3, Dn. destruct (nin y (dependents_of t P)) eqn:I.
    - apply nin_in in I. apply dependents_in in I. destruct I as [I1 I2]. pose proof (wf_alloc P W y I1). destruct (Nat.eqb_spec y n); [lia|].
      apply nin_in in I1. apply nin_in in I2. unfold registered in I1. now rewrite I1, I2.
    - destruct (y =? n); [reflexivity|]. apply nin_notin in I. destruct (nin y (p_stages P) && nin t (deps P y)) eqn:B; [|reflexivity].
      apply andb_true_iff in B. destruct B as [B1 B2]. apply nin_in in B1. apply nin_in in B2. destruct I. apply dependents_in. now split. }
  exists t. split; [exact G|]. split.
  { split; [split; [exact En|now rewrite L3]|..]; intros y Hy; rewrite ?N3, ?F3; unfold depends_on; rewrite ?name_with, ?fn_with, ?Nm, ?Fn; apply Nat.eqb_neq in Hy; now rewrite Hy. }
  split; [rewrite N3; unfold depends_on; rewrite name_with, Nm, Nat.eqb_refl; reflexivity|].
  split; [rewrite F3; unfold depends_on; rewrite fn_with, Fn, Nat.eqb_refl; reflexivity|].
  split; [now rewrite S3|]. split; [now rewrite R3|]. split; [now rewrite V3|]. split; [now rewrite D4, Nat.eqb_refl|]. split.
  - intros y Hy. rewrite D4. apply Nat.eqb_neq in Hy. now rewrite Hy.
  - split.
    + rewrite S3. apply W2.
    + intros y Hy. unfold registered in Hy. rewrite S3 in Hy. rewrite L3. now apply (wf_alloc _ W2).
    + intros y. rewrite D3. destruct (nin y _); [apply rewired_nodup|]; apply W2.
    + intros y d Hd. rewrite L3. unfold depends in Hd. rewrite D3 in Hd. destruct (nin y _); [apply rewired_in in Hd; destruct Hd as [[Hd _]| ->]; [|lia]|]; now apply (wf_known _ W2 y).
    + intros y z. unfold registered. rewrite S3, !N3. apply (wf_names _ W2).
    + intros y. unfold registered. rewrite S3, R3. apply (wf_results _ W2).
    + rewrite R3. apply W2.
    + intros y. unfold registered. rewrite S3, V3. apply (wf_evals _ W2).
    + rewrite V3. apply W2.
Qed.
