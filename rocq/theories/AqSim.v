(** Proofs for C90, third part: isolation keeps what the code does. *)
From Coq Require Import String Ascii.
From Verif Require Import Prelude AqModel AqSpec AqProofs AqIso.
Local Open Scope nat_scope.
Local Open Scope list_scope.

Section Sim.
  Context {V U : Type} (s : semantics V U).
  Notation eval := (eval s). Notation evals := (evals s). Notation assign := (assign s). Notation assigns := (assigns s).
  Notation exec_small := (exec_small s). Notation exec_smalls := (exec_smalls s).
  Notation state := (state V U). Notation env := (env V).

  Definition clean (l : list string) : Prop := forall x, In x l -> ~ temporary x.
  Lemma clean_app : forall l l', clean (l ++ l') -> clean l /\ clean l'.
  Proof. intros l l' H. split; intros x I; apply H, in_or_app; auto. Qed.
  Lemma clean_cons : forall x l, clean (x :: l) -> ~ temporary x /\ clean l.
  Proof. intros x l H. split; [apply H; left; reflexivity | intros y I; apply H; right; exact I]. Qed.

  (** *** alike states *)
  Lemma alike_refl : forall rho : env, alike rho rho.
  Proof. intros rho x _. reflexivity. Qed.
  Lemma alike_trans : forall a b c : env, alike a b -> alike b c -> alike a c.
  Proof. intros a b c H K x N. rewrite H, K by exact N. reflexivity. Qed.
  Lemma alike_sym : forall a b : env, alike a b -> alike b a.
  Proof. intros a b H x N. symmetry. apply H. exact N. Qed.
  Lemma alike_update : forall (a b : env) x v, alike a b -> alike (update a x v) (update b x v).
  Proof. intros a b x v H y N. unfold update. destruct (String.eqb x y); [reflexivity | apply H; exact N]. Qed.
  Lemma alike_map : forall (a b : env) l, alike a b -> clean l -> map a l = map b l.
  Proof. intros a b l H C. apply map_ext_in. intros x I. apply H, C. exact I. Qed.

  Definition same_result {A} (m m' : result A * state) : Prop := fst m = fst m' /\ alike_state (snd m) (snd m').
  Lemma same_bind : forall {A B} (m m' : result A * state) (k k' : A -> state -> result B * state),
    same_result m m' -> (forall a st st', alike_state st st' -> same_result (k a st) (k' a st')) -> same_result (bind m k) (bind m' k').
  Proof.
    intros A B [r st] [r' st'] k k' [H1 H2] K. cbn in *. subst r'. destruct r; [apply K; exact H2 | split; [reflexivity | exact H2]].
  Qed.
  Lemma same_lift : forall {A} (f : U -> result A * U) st st', alike_state st st' -> same_result (lift f st) (lift f st').
  Proof.
    intros A f [rho u] [rho' u'] [H1 H2]. cbn in *. subst u'. unfold lift. cbn. destruct (f u) as [r u1]. split; [reflexivity | split; [exact H1 | reflexivity]].
  Qed.
  Lemma same_ok : forall {A} (a : A) st st', alike_state st st' -> same_result (Ok a, st) (Ok a, st').
  Proof. intros. split; [reflexivity | assumption]. Qed.
  Lemma eval_alike : forall e, clean (names e) -> forall st st', alike_state st st' -> same_result (eval e st) (eval e st').
  Proof.
    induction e using expr_ind'; cbn [names]; intros C st st' A.
    - destruct A as [A1 A2]. split; [|split; assumption]. cbn. rewrite A1; [reflexivity | apply C; left; reflexivity].
    - apply same_ok. exact A.
    - rewrite !eval_node. apply same_bind; [|intros; apply same_lift; assumption].
      revert st st' A. clear k. induction H as [|e l He _ IH]; intros st st' A; [apply same_ok; exact A|].
      cbn in C. apply clean_app in C. destruct C as [C1 C2]. cbn. apply same_bind; [apply He; assumption|].
      intros. apply same_bind; [apply IH; assumption|]. intros. apply same_ok. assumption.
    - apply clean_app in C. destruct C as [C1 C2]. cbn. apply same_bind; [apply IHe1; assumption|]. intros. apply same_bind; [apply same_lift; assumption|].
      intros t st1 st1' A1. destruct (Bool.eqb t o); [apply IHe2; assumption | apply same_ok; exact A1].
    - apply clean_app in C. destruct C as [C1 C2]. apply clean_app in C2. destruct C2 as [C2 C3].
      cbn. apply same_bind; [apply IHe1; assumption|]. intros. apply same_bind; [apply same_lift; assumption|].
      intros t st1 st1' A1. destruct t; auto.
    - cbn. destruct A as [A1 A2]. rewrite (alike_map _ _ _ A1 C). apply same_lift. split; assumption.
    - cbn. apply clean_app in C. destruct C as [_ C]. destruct A as [A1 A2]. rewrite (alike_map _ _ _ A1 C). apply same_ok. split; assumption.
    - cbn. apply clean_cons in C. destruct C as [_ C]. apply same_bind; [apply IHe; assumption|]. intros a st1 st1' [A1 A2]. apply same_ok. split; [apply alike_update; exact A1 | exact A2].
    - cbn. apply IHe; assumption.
  Qed.
  Lemma evals_alike : forall l, clean (flat_map names l) -> forall st st', alike_state st st' -> same_result (evals l st) (evals l st').
  Proof.
    induction l as [|e l IH]; intros C st st' A; [apply same_ok; exact A|]. cbn in C. apply clean_app in C. destruct C as [C1 C2].
    cbn. apply same_bind; [apply eval_alike; assumption|]. intros. apply same_bind; [apply IH; assumption|]. intros. apply same_ok. assumption.
  Qed.
  Lemma assign_alike : forall t, clean (names t) -> forall v st st', alike_state st st' -> same_result (assign t v st) (assign t v st').
  Proof.
    induction t using expr_ind'; intros C v st st' A; try (split; [reflexivity | exact A]).
    - cbn. apply same_ok. destruct A. split; [apply alike_update|]; assumption.
    - assert (E : forall vs st st', alike_state st st' -> same_result (each s l vs st) (each s l vs st')).
      { cbn in C. clear - H C. induction H as [|t l Ht _ IH]; intros vs st st' A; [destruct vs; apply same_ok; exact A|].
        destruct vs as [|v vs]; [apply same_ok; exact A|]. cbn in C. apply clean_app in C. destruct C as [C1 C2]. cbn [each].
        apply same_bind; [apply Ht; assumption|]. intros. apply IH; assumption. }
      destruct k; try (split; [reflexivity | exact A]).
      + cbn [assign AqModel.assign]. apply same_bind; [apply evals_alike; assumption|]. intros. apply same_lift. assumption.
      + cbn [assign AqModel.assign]. apply same_bind; [apply evals_alike; assumption|]. intros. apply same_lift. assumption.
      + rewrite !assign_tuple. apply same_bind; [apply same_lift; exact A|]. intros. apply E. assumption.
      + rewrite !assign_list. apply same_bind; [apply same_lift; exact A|]. intros. apply E. assumption.
  Qed.
  Lemma assigns_alike : forall l, clean (flat_map names l) -> forall v st st', alike_state st st' -> same_result (assigns l v st) (assigns l v st').
  Proof.
    induction l as [|e l IH]; intros C v st st' A; [apply same_ok; exact A|]. cbn in C. apply clean_app in C. destruct C as [C1 C2].
    cbn. apply same_bind; [apply assign_alike; assumption|]. intros. apply IH; assumption.
  Qed.
  Lemma augment_alike : forall t o v, clean (names t ++ names v) -> forall st st', alike_state st st' -> same_result (augment s t o v st) (augment s t o v st').
  Proof.
    intros t o v C st st' A. apply clean_app in C. destruct C as [C1 C2]. destruct t as [x| |k l| | | | | |]; try (split; [reflexivity | exact A]).
    - cbn [augment]. apply same_bind; [apply eval_alike; assumption|]. intros. apply same_bind; [apply eval_alike; assumption|]. intros.
      apply same_bind; [apply same_lift; assumption|]. intros ? ? ? [? ?]. apply same_ok. split; [apply alike_update|]; assumption.
    - destruct k; try (split; [reflexivity | exact A]); cbn [augment];
        (apply same_bind; [apply evals_alike; assumption|]; intros; apply same_bind; [apply same_lift; assumption|]; intros;
         apply same_bind; [apply eval_alike; assumption|]; intros; apply same_bind; [apply same_lift; assumption|]; intros; apply same_lift; assumption).
  Qed.

  Lemma same_on : forall {A} (m m' : result A * state) (k k' : A -> state -> out V U),
    same_result m m' -> (forall a st st', alike_state st st' -> same_end (k a st) (k' a st')) -> same_end (on m k) (on m' k').
  Proof.
    intros A [r st] [r' st'] k k' [H1 H2] K. cbn in *. subst r'. destruct r; [apply K; exact H2 | exact Logic.I].
  Qed.
  Lemma same_ends : forall m m', same_result m m' -> same_end (ends m) (ends m').
  Proof. intros [r st] [r' st'] [H1 H2]. cbn in *. subst r'. destruct r; [exact H2 | exact Logic.I]. Qed.
  Lemma exec_small_alike : forall m, clean (names_small m) -> forall st st', alike_state st st' -> same_end (exec_small m st) (exec_small m st').
  Proof.
    intros [ts v|t o v|e|[e|]|t m|e c| | |] C st st' A; cbn [names_small names_opt] in C; cbn [exec_small AqModel.exec_small].
    - apply clean_app in C. destruct C. apply same_on; [apply eval_alike; assumption|]. intros. apply same_ends, assigns_alike; assumption.
    - apply same_ends, augment_alike; assumption.
    - apply same_on; [apply eval_alike; assumption|]. intros. assumption.
    - apply same_on; [apply eval_alike; assumption|]. intros ? ? ? [? ?]. cbn. auto.
    - destruct A. cbn. auto.
    - apply clean_app in C. destruct C. apply same_on; [apply eval_alike; assumption|]. intros. apply same_on; [apply same_lift; assumption|].
      intros [] ? ? ?; [assumption|]. destruct m; [|exact Logic.I]. apply same_on; [apply eval_alike; assumption|]. intros. exact Logic.I.
    - apply clean_app in C. destruct C. apply same_on; [apply eval_alike; assumption|]. intros. destruct c; [|exact Logic.I].
      apply same_on; [apply eval_alike; assumption|]. intros. exact Logic.I.
    - exact A.
    - exact A.
    - exact A.
  Qed.
  Lemma same_andthen : forall o o' (k k' : state -> out V U), same_end o o' -> (forall st st', alike_state st st' -> same_end (k st) (k' st')) -> same_end (andthen o k) (andthen o' k').
  Proof. intros [] [] k k' H K; cbn in *; try contradiction; auto. Qed.
  Lemma exec_smalls_alike : forall l, clean (flat_map names_small l) -> forall st st', alike_state st st' -> same_end (exec_smalls l st) (exec_smalls l st').
  Proof.
    induction l as [|m l IH]; intros C st st' A; [exact A|]. cbn in C. apply clean_app in C. destruct C as [C1 C2].
    cbn. apply same_andthen; [apply exec_small_alike; assumption | apply IH; assumption].
  Qed.

  (** *** temporaries *)
  (** [rho'] is [rho] but for the temporaries from [n] on *)
  Definition past (n : nat) (rho rho' : env) : Prop := forall x, (forall k, n <= k -> x <> tmp k) -> rho x = rho' x.
  Lemma past_alike : forall n a b, past n a b -> alike a b.
  Proof. intros n a b H x N. apply H. intros k _ E. apply N. rewrite E. apply tmp_temporary. Qed.
  Lemma past_trans : forall n a b c, past n a b -> past n b c -> past n a c.
  Proof. intros n a b c H K x N. rewrite H, K by exact N. reflexivity. Qed.
  Lemma past_refl : forall n a, past n a a.
  Proof. intros n a x _. reflexivity. Qed.
  Lemma past_sym : forall n a b, past n a b -> past n b a.
  Proof. intros n a b H x N. symmetry. apply H. exact N. Qed.
  Lemma past_le : forall n m a b, m <= n -> past n a b -> past m a b.
  Proof. intros n m a b L H x N. apply H. intros k K. apply N. lia. Qed.
  Lemma past_update : forall n a v, past n a (update a (tmp n) v).
  Proof. intros n a v x N. unfold update. destruct (String.eqb (tmp n) x) eqn:E; [|reflexivity]. apply String.eqb_eq in E. exfalso. apply (N n); [lia | congruence]. Qed.

  Fixpoint put (ins : list (string * expr)) (st : state) : result unit * state :=
    match ins with
    | [] => (Ok tt, st)
    | (x, e) :: ins' => bind (eval e st) (fun v st => put ins' (update (fst st) x v, snd st))
    end.
  Lemma put_app : forall i j st, put (i ++ j) st = bind (put i st) (fun _ st => put j st).
  Proof.
    induction i as [|[x e] i IH]; intros j st; [reflexivity|]. cbn. destruct (eval e st) as [[v|] st']; [cbn; apply IH | reflexivity].
  Qed.
  Lemma run_insertions : forall fuel ins st, run s fuel (map insertion ins) st = ends (put ins st).
  Proof.
    induction ins as [|[x e] ins IH]; intros st; [reflexivity|]. cbn. destruct (eval e st) as [[v|] st']; [cbn; apply IH | reflexivity].
  Qed.

  (** ** One expression *)
  Variable stable : kind -> bool.
  Hypothesis Hstable : forall k, stable k = true -> stable_kind s k.
  Notation settled := (settled stable). Notation ordered := (ordered stable). Notation in_order := (in_order stable). Notation calm := (calm stable).

  (** what moving [ins] out of something that does [before] and leaves [after] must satisfy *)
  Definition kept {A} (before after : state -> result A * state) (still : bool) (ins : list (string * expr)) (n n' : nat) : Prop :=
    forall rho u,
    (exists x st, put ins (rho, u) = (Err x, st) /\ exists y, fst (before (rho, u)) = Err y) \/
    exists rho1 u2, put ins (rho, u) = (Ok tt, (rho1, u2)) /\ past n rho rho1 /\
      (forall rho2, past n' rho1 rho2 ->
         match before (rho, u) with
         | (Ok a, (_, u1)) => after (rho2, u2) = (Ok a, (rho2, u1)) /\
             (still = true -> u2 = u1 /\ forall w, after (rho2, w) = (Ok a, (rho2, w)))
         | (Err _, _) => (exists x, fst (after (rho2, u2)) = Err x) /\ (still = true -> forall w, exists x, fst (after (rho2, w)) = Err x)
         end).

  Lemma put_past : forall ins n n', good ins n n' -> forallb (fun i => no_walrus (snd i)) ins = true ->
    forall rho u, (exists x st, put ins (rho, u) = (Err x, st)) \/ exists rho1 u2, put ins (rho, u) = (Ok tt, (rho1, u2)) /\ past n rho rho1.
  Proof.
    induction ins as [|[x e] ins IH]; intros n n' (L & M & F) W rho u; [right; exists rho, u; split; [reflexivity | apply past_refl]|].
    cbn in W. apply andb_true_iff in W. destruct W as [W1 W2]. cbn in M. destruct (n' - n) as [|d] eqn:D; [discriminate|]. cbn in M. injection M as -> M.
    cbn. pose proof (no_walrus_env s e W1 (rho, u)) as N. destruct (eval e (rho, u)) as [[v|y] [rho' u']]; [|left; eexists; eexists; reflexivity].
    cbn in N |- *. subst rho'.
    assert (G : good ins (S n) n').
    { split; [lia|]. replace (n' - S n) with d by lia. split; [exact M|]. inversion F; assumption. }
    destruct (IH (S n) n' G W2 (update rho (tmp n) v) u') as [(y & st & E)|(rho1 & u2 & E & P)]; [left; eauto|].
    right. exists rho1, u2. split; [exact E|]. eapply past_trans; [apply past_update|]. eapply past_le; [|exact P]. lia.
  Qed.
  Lemma isolate_no_walrus : forall e n ins e' n', no_walrus e = true -> ordered e = true -> isolate e n = (ins, e', n') ->
    forallb (fun i => no_walrus (snd i)) ins = true /\ no_walrus e' = true.
  Proof.
    induction e using expr_ind'; cbn [no_walrus AqSpec.ordered]; intros n ins e' n' W O E; try (cbn in E; injection E as <- <- <-; split; [reflexivity | exact W]); try discriminate.
    - rewrite isolate_node in E. apply andb_true_iff in O. destruct O as [O _].
      assert (R : forall n ins l' n', isolates l n = (ins, l', n') -> forallb (fun i => no_walrus (snd i)) ins = true /\ forallb no_walrus l' = true).
      { clear - H W O. induction H as [|e l He _ IH]; intros n ins l' n' E; cbn in E; [injection E as <- <- <-; split; reflexivity|].
        cbn in W, O. apply andb_true_iff in W, O. destruct W as [W1 W2], O as [O1 O2].
        destruct (isolate e n) as [[i e1] n1] eqn:E1. destruct (isolates l n1) as [[is l1] n2] eqn:E2. injection E as <- <- <-.
        destruct (He _ _ _ _ W1 O1 E1) as [A1 A2], (IH W2 O2 _ _ _ _ E2) as [B1 B2]. split; [rewrite forallb_app, A1, B1; reflexivity | cbn; rewrite A2, B2; reflexivity]. }
      destruct (isolates l n) as [[i l1] n1] eqn:E1. injection E as <- <- <-. apply (R _ _ _ _ E1).
    - apply andb_true_iff in W, O. destruct W as [W1 W2], O as [O1 O2]. apply negb_true_iff in O2. cbn in E.
      destruct (isolate e1 n) as [[i a'] n1] eqn:E1. rewrite (isolate_same e2) in E by exact O2. injection E as <- <- <-. destruct (IHe1 _ _ _ _ W1 O1 E1) as [A1 A2].
      rewrite app_nil_r. split; [exact A1|]. cbn. rewrite A2, W2. reflexivity.
    - apply negb_true_iff in O. rewrite isolate_same in E by exact O. injection E as <- <- <-. split; reflexivity.
    - cbn in E. destruct (isolate e n) as [[i b'] n1] eqn:E1. injection E as <- <- <-. destruct (IHe _ _ _ _ W O E1) as [A1 A2].
      rewrite forallb_app, A1. cbn. rewrite A2. split; reflexivity.
  Qed.
  Lemma isolates_no_walrus : forall l n ins l' n', forallb no_walrus l = true -> forallb ordered l = true -> isolates l n = (ins, l', n') ->
    forallb (fun i => no_walrus (snd i)) ins = true /\ forallb no_walrus l' = true.
  Proof.
    induction l as [|e l IH]; intros n ins l' n' W O E; cbn in E; [injection E as <- <- <-; split; reflexivity|].
    cbn in W, O. apply andb_true_iff in W, O. destruct W as [W1 W2], O as [O1 O2].
    destruct (isolate e n) as [[i e1] n1] eqn:E1. destruct (isolates l n1) as [[is l1] n2] eqn:E2. injection E as <- <- <-.
    destruct (isolate_no_walrus _ _ _ _ _ W1 O1 E1) as [A1 A2], (IH _ _ _ _ W2 O2 E2) as [B1 B2].
    split; [rewrite forallb_app, A1, B1; reflexivity | cbn; rewrite A2, B2; reflexivity].
  Qed.

  (** results of code without temporaries and walrus *)
  Lemma eval_rho : forall e, clean (names e) -> no_walrus e = true -> forall rho rho' u, alike rho rho' ->
    eval e (rho', u) = (fst (eval e (rho, u)), (rho', snd (snd (eval e (rho, u))))).
  Proof.
    intros e C W rho rho' u A. destruct (eval_alike e C (rho, u) (rho', u)) as [H1 [_ H2]]; [split; [exact A | reflexivity]|].
    pose proof (no_walrus_env s e W (rho', u)) as H3. destruct (eval e (rho', u)) as [r [rho1 u1]]. cbn [fst snd] in H1, H2, H3. rewrite H1, H2, H3. reflexivity.
  Qed.
  Lemma evals_env : forall l, forallb no_walrus l = true -> forall st, fst (snd (evals l st)) = fst st.
  Proof.
    induction l as [|e l IH]; intros W st; [reflexivity|]. cbn in W. apply andb_true_iff in W. destruct W as [W1 W2].
    pose proof (no_walrus_env s e W1 st) as He. cbn. destruct (eval e st) as [[v|x] st']; cbn in *; [|exact He].
    specialize (IH W2 st'). destruct (evals l st') as [[vs|x] st2]; cbn in *; congruence.
  Qed.
  Lemma evals_rho : forall l, clean (flat_map names l) -> forallb no_walrus l = true -> forall rho rho' u, alike rho rho' ->
    evals l (rho', u) = (fst (evals l (rho, u)), (rho', snd (snd (evals l (rho, u))))).
  Proof.
    intros l C W rho rho' u A. destruct (evals_alike l C (rho, u) (rho', u)) as [H1 [_ H2]]; [split; [exact A | reflexivity]|].
    pose proof (evals_env l W (rho', u)) as H3. destruct (evals l (rho', u)) as [r [rho1 u1]]. cbn [fst snd] in H1, H2, H3. rewrite H1, H2, H3. reflexivity.
  Qed.
  Lemma settled_calm : forall e, loose e = false -> settled e = true -> calm e = true.
  Proof.
    induction e using expr_ind'; cbn [loose AqSpec.settled AqSpec.calm]; intros L S; try reflexivity; try discriminate.
    apply andb_true_iff in S. destruct S as [S1 S2]. rewrite S1. cbn. clear k S1.
    induction H as [|e l He _ IH]; [reflexivity|]. cbn in *. apply orb_false_iff in L. apply andb_true_iff in S2. destruct L, S2.
    rewrite He, IH by assumption. reflexivity.
  Qed.
  (** nothing moves *)
  Lemma kept_same : forall e n, clean (names e) -> no_walrus e = true -> loose e = false -> kept (eval e) (eval e) (settled e) [] n n.
  Proof.
    intros e n C W L rho u. right. exists rho, u. split; [reflexivity|]. split; [apply past_refl|]. intros rho2 P.
    rewrite (eval_rho e C W rho rho2 u) by (apply (past_alike n); exact P).
    assert (S : settled e = true -> exists r, forall w, eval e (rho, w) = (r, (rho, w))).
    { intros S. apply (calm_eval s stable Hstable e (settled_calm e L S)). }
    destruct (eval e (rho, u)) as [[v|x] [rho' u1]] eqn:E; cbn.
    - split; [reflexivity|]. intros S1. destruct (S S1) as [r Hr]. pose proof (Hr u) as X. rewrite E in X. injection X as <- -> ->.
      split; [reflexivity|]. intros w. rewrite (eval_rho e C W rho rho2 w) by (apply (past_alike n); exact P). rewrite Hr. reflexivity.
    - split; [eexists; reflexivity|]. intros S1 w. destruct (S S1) as [r Hr]. pose proof (Hr u) as X. rewrite E in X. injection X as <- _ _.
      exists x. rewrite (eval_rho e C W rho rho2 w) by (apply (past_alike n); exact P). rewrite Hr. reflexivity.
  Qed.

  (** a list, from its head and its tail *)
  Lemma kept_cons : forall e l n i e' n1 j l' n2,
    clean (names e) -> clean (flat_map names l) -> no_walrus e = true -> forallb no_walrus l = true -> ordered e = true -> forallb ordered l = true ->
    isolate e n = (i, e', n1) -> isolates l n1 = (j, l', n2) ->
    negb (existsb loose l) || settled e = true ->
    kept (eval e) (eval e') (settled e) i n n1 -> kept (evals l) (evals l') (forallb settled l) j n1 n2 ->
    kept (evals (e :: l)) (evals (e' :: l')) (forallb settled (e :: l)) (i ++ j) n n2.
  Proof.
    intros e l n i e' n1 j l' n2 C1 C2 W1 W2 O1 O2 E1 E2 D K1 K2 rho u.
    destruct (isolate_good _ _ _ _ _ E1) as [[G1 _] _]. destruct (isolates_good _ _ _ _ _ E2) as [G2 _].
    pose proof (isolates_no_walrus _ _ _ _ _ W2 O2 E2) as [N2 _].
    rewrite put_app. pose proof (no_walrus_env s e W1 (rho, u)) as Env.
    destruct (K1 rho u) as [(x & st & P1 & y & B1)|(rho1 & u2 & P1 & A1 & B1)].
    { left. rewrite P1. exists x, st. split; [reflexivity|]. exists y. cbn. destruct (eval e (rho, u)) as [r st']. cbn in B1. subst r. reflexivity. }
    rewrite P1. cbn [bind].
    destruct (eval e (rho, u)) as [[v|x] [rho' u1]] eqn:Ee; cbn in Env; [subst rho'|].
    - (* the head has a value *)
      assert (Q : forall w, fst (evals l (rho1, w)) = fst (evals l (rho, w)) /\ snd (snd (evals l (rho1, w))) = snd (snd (evals l (rho, w)))).
      { intros w. rewrite (evals_rho l C2 W2 rho rho1 w) by (apply (past_alike n); exact A1). split; reflexivity. }
      apply orb_true_iff in D. destruct D as [D|D].
      + (* nothing moves out of the tail *)
        apply negb_true_iff in D. rewrite isolates_same in E2 by exact D. injection E2 as <- <- <-.
        right. exists rho1, u2. split; [reflexivity|]. split; [exact A1|]. intros rho2 P2. specialize (B1 rho2 P2). destruct B1 as [B1 S1].
        assert (A2 : alike rho rho2) by (eapply alike_trans; apply (past_alike n); [exact A1 | eapply past_le; [|exact P2]; exact G1]).
        cbn. rewrite Ee, B1. cbn [bind].
        rewrite (evals_rho l C2 W2 rho rho2 u1) by exact A2.
        destruct (K2 rho1 u1) as [(x & st & X & _)|(rho3 & u3 & X & _ & T)]; [discriminate|]. cbn in X. injection X as <- <-. specialize (T rho2 P2).
        rewrite (evals_rho l C2 W2 rho rho1 u1) in T by (apply (past_alike n); exact A1).
        pose proof (evals_env l W2 (rho, u1)) as Env2.
        destruct (evals l (rho, u1)) as [[vs|x] [rho4 u4]] eqn:El; cbn in *.
        * destruct T as [_ T]. split; [reflexivity|]. intros S. apply andb_true_iff in S. destruct S as [Se Sl]. destruct (S1 Se) as [-> S1'], (T Sl) as [T1 T2].
          split; [congruence|]. intros w. rewrite S1'. cbn. rewrite T2. reflexivity.
        * destruct T as [_ T]. split; [eexists; reflexivity|]. intros S w. apply andb_true_iff in S. destruct S as [Se Sl]. destruct (S1 Se) as [-> S1'].
          rewrite S1'. cbn. destruct (T Sl w) as [z Z]. exists z. destruct (evals l (rho2, w)) as [r st]. cbn in Z. subst r. reflexivity.
      + (* the head is settled *)
        assert (Uu : u2 = u1) by (specialize (B1 rho1 (past_refl _ _)); destruct B1 as [_ S1]; apply (S1 D)). subst u2.
        destruct (K2 rho1 u1) as [(x & st & P2 & y & B2)|(rho3 & u3 & P2 & A3 & T)].
        { left. rewrite P2. exists x, st. split; [reflexivity|]. exists y. cbn. rewrite Ee. cbn. rewrite (proj1 (Q u1)) in B2.
          destruct (evals l (rho, u1)) as [r st']. cbn in B2. subst r. reflexivity. }
        right. rewrite P2. exists rho3, u3. split; [reflexivity|]. split; [eapply past_trans; [exact A1 | eapply past_le; [exact G1 | exact A3]]|].
        intros rho2 P3. specialize (T rho2 P3).
        assert (P13 : past n1 rho1 rho2) by (eapply past_trans; [exact A3 | eapply past_le; [|exact P3]; apply G2]).
        specialize (B1 rho2 P13). destruct B1 as [_ S1]. destruct (S1 D) as [_ S1']. cbn. rewrite Ee, S1'. cbn [bind].
        rewrite (evals_rho l C2 W2 rho rho1 u1) in T by (apply (past_alike n); exact A1).
        pose proof (evals_env l W2 (rho, u1)) as Env2.
        destruct (evals l (rho, u1)) as [[vs|x] [rho4 u4]] eqn:El; cbn in *.
        * destruct T as [T0 T]. rewrite T0. cbn. split; [reflexivity|]. intros S. apply andb_true_iff in S. destruct S as [Se Sl]. destruct (T Sl) as [T1 T2].
          split; [exact T1|]. intros w. rewrite S1'. cbn. rewrite T2. reflexivity.
        * destruct T as [[z T0] T]. split.
          -- exists z. destruct (evals l' (rho2, u3)) as [r st]. cbn in T0. subst r. reflexivity.
          -- intros S w. apply andb_true_iff in S. destruct S as [Se Sl]. rewrite S1'. cbn. destruct (T Sl w) as [z' Z]. exists z'. destruct (evals l' (rho2, w)) as [r st]. cbn in Z. subst r. reflexivity.
    - (* the head raises *)
      apply orb_true_iff in D. destruct D as [D|D].
      + apply negb_true_iff in D. rewrite isolates_same in E2 by exact D. injection E2 as <- <- <-.
        right. exists rho1, u2. split; [reflexivity|]. split; [exact A1|]. intros rho2 P2. specialize (B1 rho2 P2). destruct B1 as [[y B1] S1].
        cbn. rewrite Ee. cbn. split; [|intros S w; apply andb_true_iff in S; destruct S as [Se _]; destruct (S1 Se w) as [z Z]; exists z; destruct (eval e' (rho2, w)) as [r st]; cbn in Z; subst r; reflexivity].
        exists y. destruct (eval e' (rho2, u2)) as [r st]. cbn in B1. subst r. reflexivity.
      + destruct (put_past j n1 n2 G2 N2 rho1 u2) as [(y & st & P2)|(rho3 & u3 & P2 & A3)].
        { left. rewrite P2. exists y, st. split; [reflexivity|]. exists x. cbn. rewrite Ee. reflexivity. }
        right. rewrite P2. exists rho3, u3. split; [reflexivity|]. split; [eapply past_trans; [exact A1 | eapply past_le; [exact G1 | exact A3]]|].
        intros rho2 P3.
        assert (P13 : past n1 rho1 rho2) by (eapply past_trans; [exact A3 | eapply past_le; [|exact P3]; apply G2]).
        destruct (B1 rho2 P13) as [_ S1]. cbn. rewrite Ee. cbn.
        assert (F : forall w, exists z, fst (bind (eval e' (rho2, w)) (fun v st => bind (evals l' st) (fun vs st => (Ok (v :: vs), st)))) = Err z).
        { intros w. destruct (S1 D w) as [z Z]. exists z. destruct (eval e' (rho2, w)) as [r st]. cbn in Z. subst r. reflexivity. }
        split; [apply F | intros _ w; apply F].
  Qed.
  Lemma isolate_kept : forall e, clean (names e) -> no_walrus e = true -> ordered e = true ->
    forall n i e' n', isolate e n = (i, e', n') -> kept (eval e) (eval e') (settled e) i n n'.
  Proof.
    induction e using expr_ind'; intros C W O n i e' n' E; try (cbn in E; injection E as <- <- <-; apply kept_same; [exact C | exact W | reflexivity]).
    - (* Node *)
      assert (K : forall n i l' n', isolates l n = (i, l', n') -> kept (evals l) (evals l') (forallb settled l) i n n').
      { cbn in C, W, O. clear - Hstable H C W O. apply andb_true_iff in O. destruct O as [O I].
        induction H as [|e l He _ IH]; intros n i l' n' E.
        - cbn in E. injection E as <- <- <-. intros rho u. right. exists rho, u. split; [reflexivity|]. split; [apply past_refl|]. intros. cbn. split; [reflexivity|]. intros _. split; reflexivity.
        - cbn in C, W, O, I. apply clean_app in C. destruct C as [C1 C2]. apply andb_true_iff in W, O, I. destruct W as [W1 W2], O as [O1 O2], I as [I1 I2].
          cbn in E. destruct (isolate e n) as [[i1 e1] n1] eqn:E1. destruct (isolates l n1) as [[j l1] n2] eqn:E2. injection E as <- <- <-.
          eapply kept_cons; eauto. }
      rewrite isolate_node in E. destruct (isolates l n) as [[i1 l1] n1] eqn:E1. injection E as <- <- <-. specialize (K _ _ _ _ E1).
      intros rho u. destruct (K rho u) as [(x & st & P1 & y & B1)|(rho1 & u2 & P1 & A1 & B1)].
      + left. exists x, st. split; [exact P1|]. exists y. rewrite eval_node. destruct (evals l (rho, u)) as [r st']. cbn in B1. subst r. reflexivity.
      + right. exists rho1, u2. split; [exact P1|]. split; [exact A1|]. intros rho2 P2. specialize (B1 rho2 P2). rewrite !eval_node.
        cbn [no_walrus] in W. pose proof (evals_env l W (rho, u)) as Env.
        destruct (evals l (rho, u)) as [[vs|x] [rho' u1]]; cbn in Env.
        * destruct B1 as [B1 S1]. rewrite B1. cbn [bind]. unfold lift. cbn [fst snd].
          assert (Sk : settled (Node k l) = true -> exists r, forall w, apply s k vs w = (r, w)) by (intros S; cbn in S; apply andb_true_iff in S; apply Hstable; apply S).
          destruct (apply s k vs u1) as [[v|x] u3] eqn:Ap.
          -- split; [reflexivity|]. intros S. destruct (Sk S) as [r Hr]. cbn in S. apply andb_true_iff in S. destruct (S1 (proj2 S)) as [-> S2].
             rewrite Hr in Ap. injection Ap as -> ->. split; [reflexivity|]. intros w. rewrite eval_node, S2. cbn. unfold lift. cbn. rewrite Hr. reflexivity.
          -- split; [eexists; reflexivity|]. intros S w. destruct (Sk S) as [r Hr]. cbn in S. apply andb_true_iff in S. destruct (S1 (proj2 S)) as [-> S2].
             rewrite Hr in Ap. injection Ap as -> ->. exists x. rewrite eval_node, S2. cbn. unfold lift. cbn. rewrite Hr. reflexivity.
        * destruct B1 as [[y B1] S1]. cbn [bind]. split.
          -- exists y. destruct (evals l1 (rho2, u2)) as [r st]. cbn in B1. subst r. reflexivity.
          -- intros S w. cbn in S. apply andb_true_iff in S. destruct (S1 (proj2 S) w) as [z Z]. exists z. rewrite eval_node. destruct (evals l1 (rho2, w)) as [r st]. cbn in Z. subst r. reflexivity.
    - (* Boolean *)
      cbn in C, W, O. apply clean_app in C. destruct C as [C1 C2]. apply andb_true_iff in W, O. destruct W as [W1 W2], O as [O1 O2]. apply negb_true_iff in O2.
      cbn in E. destruct (isolate e1 n) as [[i1 a] n1] eqn:E1. rewrite (isolate_same e2) in E by exact O2. injection E as <- <- <-. rewrite app_nil_r.
      specialize (IHe1 C1 W1 O1 _ _ _ _ E1). destruct (isolate_good _ _ _ _ _ E1) as [[G1 _] _].
      intros rho u. pose proof (no_walrus_env s e1 W1 (rho, u)) as Env. destruct (IHe1 rho u) as [(x & st & P1 & y & B1)|(rho1 & u2 & P1 & A1 & B1)].
      + left. exists x, st. split; [exact P1|]. exists y. cbn. destruct (eval e1 (rho, u)) as [r st']. cbn in B1. subst r. reflexivity.
      + right. exists rho1, u2. split; [exact P1|]. split; [exact A1|]. intros rho2 P2. specialize (B1 rho2 P2). cbn [AqModel.eval AqSpec.settled].
        assert (A2 : alike rho rho2) by (eapply alike_trans; apply (past_alike n); [exact A1 | eapply past_le; [|exact P2]; exact G1]).
        destruct (eval e1 (rho, u)) as [[v|x] [rho' u1]]; cbn in Env.
        * subst rho'. destruct B1 as [B1 _]. rewrite B1. cbn [bind]. unfold lift. cbn [fst snd].
          destruct (truth s v u1) as [[t|x] u3]; cbn [bind]; [|split; [eexists; reflexivity | discriminate]].
          destruct (Bool.eqb t o); [|split; [reflexivity | discriminate]].
          rewrite (eval_rho e2 C2 W2 rho rho2 u3 A2). destruct (eval e2 (rho, u3)) as [[v2|x] [rho3 u4]]; cbn; (split; [try eexists; reflexivity | discriminate]).
        * destruct B1 as [[y B1] _]. cbn [bind]. split; [|discriminate]. exists y. destruct (eval a (rho2, u2)) as [r st]. cbn in B1. subst r. reflexivity.
    - (* Lambda *)
      cbn in O. apply negb_true_iff in O. rewrite isolate_same in E by exact O. injection E as <- <- <-. apply kept_same; assumption.
    - discriminate.
    - (* Cand *)
      cbn [names] in C. cbn [no_walrus] in W. cbn [AqSpec.ordered] in O. cbn [isolate] in E.
      destruct (isolate e n) as [[i1 a] n1] eqn:E1. injection E as <- <- <-. specialize (IHe C W O _ _ _ _ E1). destruct (isolate_good _ _ _ _ _ E1) as [[G1 _] _].
      destruct (isolate_no_walrus _ _ _ _ _ W O E1) as [_ Wa].
      intros rho u. rewrite put_app. destruct (IHe rho u) as [(x & st & P1 & y & B1)|(rho1 & u2 & P1 & A1 & B1)].
      + left. exists x, st. rewrite P1. split; [reflexivity|]. exists y. exact B1.
      + rewrite P1. cbn [bind put]. cbn [AqModel.eval]. specialize (B1 rho1 (past_refl _ _)).
        destruct (eval e (rho, u)) as [[v|x] [rho' u1]] eqn:Ee.
        * destruct B1 as [B1 _]. rewrite B1. right. exists (update rho1 (tmp n1) v), u1. split; [reflexivity|].
          split; [eapply past_trans; [exact A1 | eapply past_le; [exact G1 | apply past_update]]|].
          intros rho2 P2. assert (X : rho2 (tmp n1) = Some v).
          { rewrite <- P2 by (intros k K X; apply tmp_inj in X; lia). unfold update. rewrite String.eqb_refl. reflexivity. }
          cbn [AqModel.eval fst]. rewrite X. split; [reflexivity|]. intros _. split; [reflexivity|]. intros w. reflexivity.
        * destruct B1 as [[y B1] _]. left. destruct (eval a (rho1, u2)) as [r st]. cbn in B1. subst r. exists y, st. split; [reflexivity|]. exists x. reflexivity.
  Qed.

  (** ** One statement *)
  Lemma kept_weaken : forall {A} (b a : state -> result A * state) still i n n', kept b a still i n n' -> kept b a false i n n'.
  Proof.
    intros A b a still i n n' K rho u. destruct (K rho u) as [L|(rho1 & u2 & P1 & A1 & B1)]; [left; exact L|]. right. exists rho1, u2.
    split; [exact P1|]. split; [exact A1|]. intros rho2 P2. specialize (B1 rho2 P2). destruct (b (rho, u)) as [[v|x] [rho' u1]]; destruct B1 as [B1 _]; (split; [exact B1 | discriminate]).
  Qed.
  Lemma top_kept : forall e, clean (names e) -> no_walrus e = true -> ordered e = true ->
    forall n i e' n', isolate_top e n = (i, e', n') -> kept (eval e) (eval e') false i n n'.
  Proof.
    intros e C W O n i e' n' E. destruct e as [x|c|k l|o a b|t a b|f l|ps b|x e|e];
      try (eapply kept_weaken, isolate_kept; [exact C | exact W | exact O | exact E]).
    cbn [isolate_top] in E. destruct (isolate e n) as [[i1 a] n1] eqn:E1. injection E as <- <- <-.
    pose proof (isolate_kept e C W O _ _ _ _ E1) as K. apply kept_weaken in K. exact K.
  Qed.
  Lemma kept_on : forall {A} (b a : state -> result A * state) still i n n' (k k' : A -> state -> out V U),
    kept b a still i n n' -> n <= n' -> (forall st, fst (snd (b st)) = fst st) ->
    (forall v st st', alike_state st st' -> same_end (k v st) (k' v st')) ->
    forall st, same_end (on (b st) k) (andthen (ends (put i st)) (fun st => on (a st) k')).
  Proof.
    intros A b a still i n n' k k' K L Env Hk [rho u]. specialize (Env (rho, u)).
    destruct (K rho u) as [(x & st & P1 & y & B1)|(rho1 & u2 & P1 & A1 & B1)]; rewrite P1; cbn [ends andthen].
    - destruct (b (rho, u)) as [r st']. cbn in B1. subst r. exact Logic.I.
    - specialize (B1 rho1 (past_refl _ _)). destruct (b (rho, u)) as [[v|x] [rho' u1]]; cbn in Env.
      + subst rho'. destruct B1 as [B1 _]. rewrite B1. cbn [on]. apply Hk. split; [apply (past_alike n); exact A1 | reflexivity].
      + destruct B1 as [[y B1] _]. destruct (a (rho1, u2)) as [r st]. cbn in B1. subst r. exact Logic.I.
  Qed.
  Lemma same_end_trans : forall a b c : out V U, same_end a b -> same_end b c -> same_end a c.
  Proof.
    intros [] [] [] H K; cbn in *; try contradiction; auto; unfold alike_state in *; intuition (try congruence); eapply alike_trans; eassumption.
  Qed.
  Lemma isolates_kept : forall l, clean (flat_map names l) -> forallb no_walrus l = true -> forallb ordered l = true -> in_order l = true ->
    forall n i l' n', isolates l n = (i, l', n') -> kept (evals l) (evals l') (forallb settled l) i n n'.
  Proof.
    induction l as [|e l IH]; intros C W O I n i l' n' E.
    - cbn in E. injection E as <- <- <-. intros rho u. right. exists rho, u. split; [reflexivity|]. split; [apply past_refl|]. intros. cbn. split; [reflexivity|]. intros _. split; reflexivity.
    - cbn in C, W, O, I. apply clean_app in C. destruct C as [C1 C2]. apply andb_true_iff in W, O, I. destruct W as [W1 W2], O as [O1 O2], I as [I1 I2].
      cbn in E. destruct (isolate e n) as [[i1 e1] n1] eqn:E1. destruct (isolates l n1) as [[j l1] n2] eqn:E2. injection E as <- <- <-.
      eapply kept_cons; eauto. eapply isolate_kept; eassumption.
  Qed.
  (** a stable value is assigned to an item or attribute *)
  Lemma item_kept : forall k l v, (k = Subscript \/ exists a, k = Attribute a) ->
    clean (flat_map names l) -> clean (names v) -> forallb no_walrus l = true -> no_walrus v = true ->
    forallb ordered l = true -> in_order l = true -> calm v = true -> ordered v = true ->
    forall n i l' n1 j v' n2, isolates l n = (i, l', n1) -> isolate_top v n1 = (j, v', n2) ->
    forall st, same_end (exec_small (Assign [Node k l] v) st) (andthen (ends (put (i ++ j) st)) (exec_small (Assign [Node k l'] v'))).
  Proof.
    intros k l v Hk C1 C2 W1 W2 O1 I1 Ca O2 n i l' n1 j v' n2 E1 E2 [rho u].
    assert (B : forall w l st, assigns [Node k l] w st = bind (bind (evals l st) (fun vs st => lift (store s k vs w) st)) (fun _ st => (Ok tt, st))).
    { intros. destruct Hk as [->|[a ->]]; reflexivity. }
    pose proof (isolates_kept l C1 W1 O1 I1 _ _ _ _ E1) as K1. pose proof (top_kept v C2 W2 O2 _ _ _ _ E2) as K2.
    destruct (isolates_good _ _ _ _ _ E1) as [[G1 _] _]. destruct (isolate_top_good _ _ _ _ _ E2) as [[G2 _] _].
    destruct (calm_eval s stable Hstable v Ca rho) as [r Hr].
    assert (Hr' : forall rho1 w, past n rho rho1 -> eval v (rho1, w) = (r, (rho1, w))).
    { intros rho1 w P. rewrite (eval_rho v C2 W2 rho rho1 w) by (apply (past_alike n); exact P). rewrite Hr. reflexivity. }
    rewrite put_app. cbn [exec_small AqModel.exec_small]. rewrite Hr. pose proof (evals_env l W1 (rho, u)) as Env.
    destruct (K1 rho u) as [(x & st & P1 & y & B1)|(rho1 & u2 & P1 & A1 & B1)]; rewrite P1; cbn [bind].
    - destruct r; cbn [on ends andthen]; [|exact Logic.I]. rewrite B. destruct (evals l (rho, u)) as [r st']. cbn in B1. subst r. exact Logic.I.
    - destruct (K2 rho1 u2) as [(x & st & P2 & y & B2)|(rho3 & u4 & P2 & A3 & B2)]; rewrite P2; cbn [bind ends andthen].
      + rewrite Hr' in B2 by exact A1. cbn in B2. subst r. exact Logic.I.
      + cbn [exec_small AqModel.exec_small]. specialize (B2 rho3 (past_refl _ _)). rewrite Hr' in B2 by exact A1. destruct r as [w|x].
        * destruct B2 as [B2 _]. rewrite B2. cbn [on]. rewrite !B. specialize (B1 rho3 A3).
          destruct (evals l (rho, u)) as [[vs|x] [rho' u1]]; cbn in Env.
          -- subst rho'. destruct B1 as [B1 _]. rewrite B1. cbn [bind]. unfold lift. cbn [fst snd]. destruct (store s k vs w u1) as [[[]|x] u5]; cbn; [|exact Logic.I].
             split; [|reflexivity]. cbn. apply (past_alike n). eapply past_trans; [exact A1 | eapply past_le; [exact G1 | exact A3]].
          -- destruct B1 as [[y B1] _]. destruct (evals l' (rho3, u2)) as [r st]. cbn in B1. subst r. exact Logic.I.
        * destruct B2 as [[y B2] _]. destruct (eval v' (rho3, u4)) as [r st]. cbn in B2. subst r. exact Logic.I.
  Qed.
  Lemma small_kept : forall m, clean (names_small m) -> negb (loose_small m) || (ordered_small stable m && no_walrus_small m) = true ->
    forall n i m' n', isolate_small m n = (i, m', n') ->
    forall st, same_end (exec_small m st) (andthen (ends (put i st)) (exec_small m')).
  Proof.
    intros m C H n i m' n' E st.
    assert (Sm : loose_small m = false -> same_end (exec_small m st) (andthen (ends (put i st)) (exec_small m'))).
    { intros L. rewrite isolate_small_same in E by exact L. injection E as <- <- <-. cbn. apply exec_small_alike; [exact C|]. split; [apply alike_refl | reflexivity]. }
    destruct (loose_small m) eqn:L; [|apply Sm; reflexivity]. clear Sm. cbn in H. apply andb_true_iff in H. destruct H as [O W].
    destruct m as [ts v|t o v|e|[e|]|t m|e c| | |]; cbn [names_small names_opt] in C; cbn [no_walrus_small no_walrus_opt] in W; cbn [isolate_small] in E; try discriminate.
    - apply clean_app in C. apply andb_true_iff in W. destruct C as [C1 C2], W as [W1 W2]. cbn [ordered_small] in O.
      destruct (existsb loose ts) eqn:Lt.
      + destruct ts as [|[| |k l| | | | | |] [|]]; try discriminate; try (destruct k; discriminate).
        assert (Hk : (k = Subscript \/ exists a, k = Attribute a) /\ forallb ordered l && in_order l && calm v && ordered v = true).
        { destruct k; try discriminate; (split; [eauto | exact O]). }
        clear O. destruct Hk as [Hk O]. apply andb_true_iff in O. destruct O as [O O4]. apply andb_true_iff in O. destruct O as [O O3]. apply andb_true_iff in O. destruct O as [O1 O2].
        cbn [isolates] in E. rewrite isolate_node in E. destruct (isolates l n) as [[i1 l1] n1] eqn:E1.
        destruct (isolate_top v n1) as [[j v1] n2] eqn:E2. injection E as <- <- <-. rewrite app_nil_r.
        cbn in C1, W1. rewrite app_nil_r in C1. rewrite andb_true_r in W1.
        eapply item_kept; eassumption.
      + rewrite isolates_same in E by exact Lt. destruct (isolate_top v n) as [[j v1] n2] eqn:E2. injection E as <- <- <-. cbn [app].
        cbn [exec_small AqModel.exec_small]. eapply kept_on.
        * eapply top_kept; eassumption.
        * destruct (isolate_top_good _ _ _ _ _ E2) as [[G _] _]. exact G.
        * intros. apply no_walrus_env. exact W2.
        * intros. apply same_ends, assigns_alike; assumption.
    - cbn [ordered_small] in O. rewrite L in O. discriminate.
    - destruct (isolate_top e n) as [[j v1] n2] eqn:E2. injection E as <- <- <-. cbn [exec_small AqModel.exec_small]. eapply kept_on.
      * eapply top_kept; eassumption.
      * destruct (isolate_top_good _ _ _ _ _ E2) as [[G _] _]. exact G.
      * intros. apply no_walrus_env. exact W.
      * intros. assumption.
    - destruct (isolate_top e n) as [[j v1] n2] eqn:E2. injection E as <- <- <-. cbn [exec_small AqModel.exec_small]. eapply kept_on.
      * eapply top_kept; eassumption.
      * destruct (isolate_top_good _ _ _ _ _ E2) as [[G _] _]. exact G.
      * intros. apply no_walrus_env. exact W.
      * intros ? ? ? [_ X]. cbn. auto.
    - apply clean_app in C. apply andb_true_iff in W, O. destruct C as [C1 C2], W as [W1 W2], O as [O1 O2]. apply negb_true_iff in O2.
      destruct (isolate t n) as [[j t1] n2] eqn:E2.
      assert (Em : isolate_opt m n2 = ([], m, n2)) by (destruct m; cbn in *; [rewrite isolate_same by exact O2|]; reflexivity).
      rewrite Em in E. injection E as <- <- <-. rewrite app_nil_r. cbn [exec_small AqModel.exec_small]. eapply kept_on.
      * eapply isolate_kept; eassumption.
      * destruct (isolate_good _ _ _ _ _ E2) as [[G _] _]. exact G.
      * intros. apply no_walrus_env. exact W1.
      * intros. apply same_on; [apply same_lift; assumption|]. intros [] ? ? ?; [assumption|]. destruct m; [|exact Logic.I].
        apply same_on; [apply eval_alike; assumption|]. intros. exact Logic.I.
    - apply clean_app in C. apply andb_true_iff in W, O. destruct C as [C1 C2], W as [W1 W2], O as [O1 O2]. apply negb_true_iff in O2.
      destruct (isolate_top e n) as [[j t1] n2] eqn:E2.
      assert (Em : isolate_opt c n2 = ([], c, n2)) by (destruct c; cbn in *; [rewrite isolate_same by exact O2|]; reflexivity).
      rewrite Em in E. injection E as <- <- <-. rewrite app_nil_r. cbn [exec_small AqModel.exec_small]. eapply kept_on.
      * eapply top_kept; eassumption.
      * destruct (isolate_top_good _ _ _ _ _ E2) as [[G _] _]. exact G.
      * intros. apply no_walrus_env. exact W1.
      * intros. destruct c; [|exact Logic.I]. apply same_on; [apply eval_alike; assumption|]. intros. exact Logic.I.
  Qed.

  (** ** Programs *)
  Lemma loop_alike : forall fuel (r r' : state -> option (out V U) * state),
    (forall st st', alike_state st st' -> match r st, r' st' with
       | (None, a), (None, b) => alike_state a b
       | (Some o, _), (Some o', _) => same_end o o'
       | _, _ => False
       end) ->
    forall st st', alike_state st st' -> same_end (loop fuel r st) (loop fuel r' st').
  Proof.
    induction fuel as [|f IH]; intros r r' H st st' A; [exact Logic.I|]. cbn. specialize (H st st' A) as Hs.
    destruct (r st) as [[o|] a], (r' st') as [[o'|] b]; try contradiction; [|exact Hs].
    destruct o, o'; cbn in Hs; try contradiction; cbn; auto.
  Qed.
  Variable fuel : nat.
  Lemma stmt_kept : forall p, clean (names_stmt p) -> ordered_stmt stable p = true ->
    forall n st st', alike_state st st' -> same_end (exec s fuel p st) (run s fuel (fst (isolate_stmt p n)) st').
  Proof.
    assert (R : forall l, Forall (fun p => clean (names_stmt p) -> ordered_stmt stable p = true ->
        forall n st st', alike_state st st' -> same_end (exec s fuel p st) (run s fuel (fst (isolate_stmt p n)) st')) l ->
      clean (flat_map names_stmt l) -> forallb (ordered_stmt stable) l = true ->
      forall n st st', alike_state st st' -> same_end (run s fuel l st) (run s fuel (fst (block l n)) st')).
    { induction 1 as [|p l Hp _ IH]; intros C O n st st' A; [exact A|]. cbn in C, O. apply clean_app in C. apply andb_true_iff in O. destruct C as [C1 C2], O as [O1 O2].
      specialize (Hp C1 O1 n). cbn [block]. destruct (isolate_stmt p n) as [q n1]. specialize (IH C2 O2 n1). destruct (block l n1) as [r n2]. cbn [fst] in *.
      rewrite run_app. cbn [run]. apply same_andthen; [apply Hp; exact A | intros; apply IH; assumption]. }
    induction p using stmt_ind'; intros C O n st st' A.
    - cbn [names_stmt] in C. assert (X : forallb (fun m => negb (loose_small m)) l = true -> same_end (exec s fuel (Line l) st) (run s fuel (fst (isolate_stmt (Line l) n)) st')).
      { intros F. cbn [isolate_stmt]. rewrite isolate_smalls_same by exact F. cbn [fst map app]. rewrite run_one. cbn. apply exec_smalls_alike; assumption. }
      destruct l as [|m [|m' l]]; [apply X; reflexivity | | apply X; exact O]. clear X.
      cbn [isolate_stmt isolate_smalls]. destruct (isolate_small m n) as [[i m1] n1] eqn:E. cbn [fst]. rewrite app_nil_r.
      cbn in C. rewrite app_nil_r in C. cbn [ordered_stmt] in O.
      rewrite run_app, run_insertions. eapply same_end_trans; [|eapply same_end_trans; [eapply (small_kept m C O _ _ _ _ E st')|]].
      + cbn. pose proof (exec_small_alike m C st st' A) as S. destruct (exec_small m st), (exec_small m st'); try exact S; contradiction.
      + assert (S : same_end (andthen (ends (put i st')) (exec_small m1)) (andthen (ends (put i st')) (run s fuel [Line [m1]]))); [|exact S].
        destruct (ends (put i st')) as [st1|st1|st1|v u|x u|]; cbn; auto; try (split; [apply alike_refl | reflexivity]).
        assert (T : forall o : out V U, same_end o o) by (intros []; cbn; auto; split; auto using alike_refl).
        destruct (exec_small m1 st1); cbn; auto; try (split; [apply alike_refl | reflexivity]).
    - cbn [isolate_stmt fst]. rewrite run_one. cbn. apply exec_smalls_alike; assumption.
    - cbn [names_stmt] in C. apply clean_app in C. destruct C as [C1 C2]. apply clean_app in C2. destruct C2 as [C2 C3]. cbn [ordered_stmt] in O. apply andb_true_iff in O. destruct O as [O1 O2].
      rewrite isolate_if. pose proof (R b H C2 O1 (counted t n)) as R1. destruct (block b (counted t n)) as [b' n1].
      pose proof (R o H0 C3 O2 n1) as R2. destruct (block o n1) as [o' n2]. cbn [fst] in *. rewrite run_one, !exec_if.
      apply same_on; [apply same_bind; [apply eval_alike; assumption | intros; apply same_lift; assumption]|]. intros [] ? ? ?; auto.
    - cbn [names_stmt] in C. apply clean_app in C. destruct C as [C1 C2]. cbn [ordered_stmt] in O.
      rewrite isolate_while. pose proof (R b H C2 O (counted t n)) as R1. destruct (block b (counted t n)) as [b' n1]. cbn [fst] in *. rewrite run_one, !exec_while.
      apply loop_alike; [|exact A]. intros a a' Aa. unfold while_round.
      assert (S : same_result (bind (eval t a) (fun v st => lift (truth s v) st)) (bind (eval t a') (fun v st => lift (truth s v) st))).
      { apply same_bind; [apply eval_alike; assumption | intros; apply same_lift; assumption]. }
      destruct (bind (eval t a) (fun v st => lift (truth s v) st)) as [r s1], (bind (eval t a') (fun v st => lift (truth s v) st)) as [r' s1']. destruct S as [S1 S2]. cbn in S1, S2. subst r'.
      destruct r as [[]|]; [apply R1; exact S2 | exact S2 | exact Logic.I].
    - cbn [names_stmt] in C. apply clean_app in C. destruct C as [C1 C2]. apply clean_app in C2. destruct C2 as [C2 C3]. cbn [ordered_stmt] in O.
      rewrite isolate_for. pose proof (R b H C3 O (counted it (counted t n))) as R1. destruct (block b (counted it (counted t n))) as [b' n1]. cbn [fst] in *. rewrite run_one, !exec_for.
      apply same_on; [apply same_bind; [apply eval_alike; assumption | intros; apply same_lift; assumption]|]. intros w s0 s0' A0.
      apply loop_alike; [|exact A0]. intros a a' Aa. unfold for_round.
      pose proof (same_lift (next s w) a a' Aa) as S. destruct (lift (next s w) a) as [r s1], (lift (next s w) a') as [r' s1']. destruct S as [S1 S2]. cbn in S1, S2. subst r'.
      destruct r as [[v|]|]; [|exact S2|exact Logic.I].
      pose proof (assign_alike t C1 v s1 s1' S2) as S. destruct (assign t v s1) as [r s2], (assign t v s1') as [r' s2']. destruct S as [S3 S4]. cbn in S3, S4. subst r'.
      destruct r; [apply R1; exact S4 | exact Logic.I].
  Qed.
  Lemma isolate_all_kept : forall l, no_temporaries l -> forallb (ordered_stmt stable) l = true ->
    forall st, same_end (run s fuel l st) (run s fuel (isolate_all l) st).
  Proof.
    intros l C O st. unfold isolate_all. generalize 1.
    assert (A : alike_state st st) by (split; [apply alike_refl | reflexivity]). revert A. generalize st at 2 4. revert st.
    assert (C' : clean (flat_map names_stmt l)) by exact C. clear C. revert C' O.
    induction l as [|p l IH]; intros C O st st' A n; [exact A|]. cbn in C, O. apply clean_app in C. apply andb_true_iff in O. destruct C as [C1 C2], O as [O1 O2].
    cbn [isolate_block]. pose proof (stmt_kept p C1 O1 n st st' A) as Hp. destruct (isolate_stmt p n) as [q n1].
    specialize (IH C2 O2). assert (IH' : forall st st', alike_state st st' -> same_end (run s fuel l st) (run s fuel (fst (isolate_block l n1)) st')) by (intros; apply IH; assumption).
    destruct (isolate_block l n1) as [r n2]. cbn [fst] in *. rewrite run_app. cbn [run]. apply same_andthen; [exact Hp | exact IH'].
  Qed.
End Sim.
