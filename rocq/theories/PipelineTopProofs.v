(** The statements about pipeline edits, and witnesses. *)
From Coq Require Import String Relations Permutation.
From Verif Require Import Prelude PipelineModel PipelineSpec PipelineProofs PipelineEditProofs PipelineRunProofs.
Local Open Scope nat_scope.
Local Open Scope list_scope.

Lemma registered_snoc P P' n : p_stages P' = p_stages P ++ [n] -> forall x, registered P' x <-> registered P x \/ x = n.
Proof. intros E x. unfold registered. rewrite E, in_app_iff. cbn. intuition. Qed.
Lemma captured_snoc (c : bool) l (n : nat) : ~ In n l -> forall x, In x (if c then l ++ [n] else l) <-> In x l \/ (x = n /\ c = true).
Proof. intros H x. destruct c; [rewrite in_app_iff; cbn; intuition|intuition congruence]. Qed.

Definition unchanged (P P' : pipe) (n : nat) : Prop := ~ registered P n /\ forall y, y <> n -> name_of P' y = name_of P y /\ fn_of P' y = fn_of P y.
Lemma same_unchanged P P' n : wf P -> same_else P P' n -> unchanged P P' n.
Proof. intros W [[E _] A B]. split; [intros H; apply (wf_alloc P W) in H; lia|]. intros y Hy. split; auto. Qed.

Theorem before_wiring w P target fn name c n P' : made w P -> insert_stage_before target fn name None c P = Ok (n, P') ->
  exists t, named P target t /\ ~ registered P n /\ named P' name n /\ fn_of P' n = fn /\
    (forall x, registered P' x <-> registered P x \/ x = n) /\ (forall x, In x (p_results P') <-> In x (p_results P) \/ (x = n /\ c = true)) /\ p_evals P' = p_evals P /\
    deps P' n = deps P t /\ deps P' t = [n] /\ (forall y, y <> n -> y <> t -> deps P' y = deps P y) /\
    (forall y, y <> n -> name_of P' y = name_of P y /\ fn_of P' y = fn_of P y) /\
    (executable P -> executable P') /\
    forall fuel order, build_pipeline fuel P' None = Ok order -> exists l1 l2, order = l1 ++ n :: t :: l2.
Proof.
  intros M E. pose proof (made_wf _ _ M) as W. destruct (before_spec _ _ _ _ _ _ _ W E) as (t & Nt & Sm & Nn & Fn & _ & Es & Er & Ev & Dn & Dt & Dy & _).
  destruct (same_unchanged _ _ _ W Sm) as [U1 U2]. pose proof (registered_snoc _ _ _ Es) as R.
  exists t. split; [exact Nt|]. split; [exact U1|]. split; [split; [apply R; now right|exact Nn]|]. split; [exact Fn|]. split; [exact R|].
  split; [rewrite Er; apply captured_snoc; intros H; now apply U1, (wf_results P W)|]. split; [exact Ev|]. split; [exact Dn|]. split; [exact Dt|]. split; [exact Dy|]. split; [exact U2|].
  split; [exact (before_exec _ _ _ _ _ _ _ _ W E)|]. intros fuel order B. destruct (before_adjacent _ _ _ _ _ _ _ W E fuel order B) as (t' & l1 & l2 & Nt' & H).
  assert (t' = t) as -> by (apply (wf_names P W); [apply Nt'|apply Nt|destruct Nt, Nt'; congruence]). now exists l1, l2.
Qed.
Theorem explicit_wiring w P target fn name names c n P' : made w P -> insert_stage_before target fn name (Some names) c P = Ok (n, P') ->
  exists ds, Forall2 (named P) names ds /\ ~ registered P n /\ named P' name n /\ fn_of P' n = fn /\
    (forall x, registered P' x <-> registered P x \/ x = n) /\ (forall d, depends P' n d <-> In d ds) /\ (forall y, y <> n -> deps P' y = deps P y) /\
    (forall y, y <> n -> name_of P' y = name_of P y /\ fn_of P' y = fn_of P y) /\ (executable P -> executable P').
Proof.
  intros M E. pose proof (made_wf _ _ M) as W. destruct (explicit_spec _ _ _ _ _ _ _ _ W E) as (ds & F & Sm & Nn & Fn & Es & Er & Ev & Dn & Dy & _).
  destruct (same_unchanged _ _ _ W Sm) as [U1 U2]. pose proof (registered_snoc _ _ _ Es) as R.
  exists ds. split; [exact F|]. split; [exact U1|]. split; [split; [apply R; now right|exact Nn]|]. split; [exact Fn|]. split; [exact R|].
  split; [intros d; unfold depends; rewrite Dn, add_dep_in; cbn; intuition|]. split; [exact Dy|]. split; [exact U2|exact (before_exec _ _ _ _ _ _ _ _ W E)].
Qed.
Lemma rewired_cases P P' t n y : wf P -> n = length (p_refs P) -> (deps P' y = if nin y (p_stages P) && nin t (deps P y) then rewired t n (deps P y) else deps P y) -> registered P y ->
  (forall l1 l2, deps P y = l1 ++ t :: l2 -> deps P' y = l1 ++ l2 ++ [n]) /\ (~ depends P y t -> deps P' y = deps P y).
Proof.
  intros W En D R. apply nin_in in R. rewrite R in D. cbn [andb] in D. split.
  - intros l1 l2 E. rewrite D. replace (nin t (deps P y)) with true by (symmetry; apply nin_in; rewrite E; apply in_app_iff; right; now left).
    rewrite E. apply rewired_at; rewrite <- E; [apply W|]. intros H. apply (wf_known P W y) in H. lia.
  - intros H. rewrite D. apply nin_notin in H. now rewrite H.
Qed.
Theorem after_wiring w P target fn name c n P' : made w P -> insert_stage_after target fn name c P = Ok (n, P') ->
  exists t, named P target t /\ ~ registered P n /\ named P' name n /\ fn_of P' n = fn /\
    (forall x, registered P' x <-> registered P x \/ x = n) /\ (forall x, In x (p_results P') <-> In x (p_results P) \/ (x = n /\ c = true)) /\ p_evals P' = p_evals P /\
    deps P' n = [t] /\
    (forall y, registered P y -> (forall l1 l2, deps P y = l1 ++ t :: l2 -> deps P' y = l1 ++ l2 ++ [n]) /\ (~ depends P y t -> deps P' y = deps P y)) /\
    (forall y, y <> n -> name_of P' y = name_of P y /\ fn_of P' y = fn_of P y) /\ (executable P -> executable P').
Proof.
  intros M E. pose proof (made_wf _ _ M) as W. destruct (after_spec _ _ _ _ _ _ _ W E) as (t & Nt & Sm & Nn & Fn & Es & Er & Ev & Dn & Dy & _).
  destruct (same_unchanged _ _ _ W Sm) as [U1 U2]. pose proof (registered_snoc _ _ _ Es) as R.
  exists t. split; [exact Nt|]. split; [exact U1|]. split; [split; [apply R; now right|exact Nn]|]. split; [exact Fn|]. split; [exact R|].
  split; [rewrite Er; apply captured_snoc; intros H; now apply U1, (wf_results P W)|]. split; [exact Ev|]. split; [exact Dn|]. split.
  - intros y Hy. apply (rewired_cases P P' t n y W); [apply Sm|apply Dy; intros ->; contradiction|exact Hy].
  - split; [exact U2|exact (after_exec _ _ _ _ _ _ _ W E)].
Qed.
Theorem replace_wiring w P target fn name c n P' : made w P -> replace_stage target fn name c P = Ok (n, P') ->
  exists t, named P target t /\ ~ registered P n /\ named P' (match name with Some a => a | None => target end) n /\ fn_of P' n = fn /\
    (forall x, registered P' x <-> (registered P x /\ x <> t) \/ x = n) /\
    (forall x, In x (p_results P') <-> (In x (p_results P) /\ x <> t) \/ (x = n /\ (c = Some true \/ (c = None /\ In t (p_results P))))) /\
    (forall x, In x (p_evals P') <-> (In x (p_evals P) /\ x <> t) \/ (x = n /\ In t (p_evals P))) /\
    deps P' n = deps P t /\
    (forall y, registered P y -> (forall l1 l2, deps P y = l1 ++ t :: l2 -> deps P' y = l1 ++ l2 ++ [n]) /\ (~ depends P y t -> deps P' y = deps P y)) /\
    (forall y, y <> n -> name_of P' y = name_of P y /\ fn_of P' y = fn_of P y) /\ (executable P -> executable P').
Proof.
  intros M E. pose proof (made_wf _ _ M) as W. destruct (replace_spec _ _ _ _ _ _ _ W E) as (t & Nt & Sm & Nn & Fn & Es & Er & Ev & Dn & Dy & _).
  destruct (same_unchanged _ _ _ W Sm) as [U1 U2].
  assert (R : forall x, registered P' x <-> (registered P x /\ x <> t) \/ x = n) by (intros x; unfold registered; rewrite Es, in_app_iff, drop_in; cbn; intuition).
  exists t. split; [exact Nt|]. split; [exact U1|]. split; [split; [apply R; now right|exact Nn]|]. split; [exact Fn|]. split; [exact R|]. split; [|split].
  - intros x. rewrite Er, in_app_iff, drop_in. destruct c as [[]|].
    + cbn. intuition congruence.
    + cbn. intuition congruence.
    + destruct (nin t (p_results P)) eqn:I; [apply nin_in in I|apply nin_notin in I]; cbn; intuition congruence.
  - intros x. rewrite Ev, in_app_iff, drop_in. destruct (nin t (p_evals P)) eqn:I; [apply nin_in in I|apply nin_notin in I]; cbn; intuition congruence.
  - split; [exact Dn|]. split; [|split; [exact U2|exact (replace_exec _ _ _ _ _ _ _ W E)]].
    intros y Hy. apply (rewired_cases P P' t n y W); [apply Sm|apply Dy; intros ->; contradiction|exact Hy].
Qed.

(** when edits raise *)
Lemma register_exactly fn n c P : match register_stage fn n c P with Ok _ => forall x, ~ named P n x | Err e => e = ValueError /\ exists x, named P n x end.
Proof.
  unfold register_stage. destruct (existsb _ _) eqn:E.
  - split; [reflexivity|]. apply existsb_exists in E. destruct E as (x & Hx & E). exists x. split; [exact Hx|now apply String.eqb_eq].
  - intros x [Hx En]. apply not_true_iff_false in E. apply E. apply existsb_exists. exists x. split; [exact Hx|now apply String.eqb_eq].
Qed.
Definition unknown (P : pipe) (n : string) : Prop := forall x, ~ named P n x.
Theorem edits_raise w P target fn name c : made w P ->
  (match insert_stage_before target fn name None c P with Ok _ => ~ unknown P target /\ unknown P name | Err e => (e = KeyError /\ unknown P target) \/ (e = ValueError /\ ~ unknown P target /\ ~ unknown P name) end) /\
  (match insert_stage_after target fn name c P with Ok _ => ~ unknown P target /\ unknown P name | Err e => (e = KeyError /\ unknown P target) \/ (e = ValueError /\ ~ unknown P target /\ ~ unknown P name) end) /\
  forall name' c', match replace_stage target fn name' c' P with
    | Ok _ => ~ unknown P target /\ (forall a, name' = Some a -> a = target \/ unknown P a)
    | Err e => (e = KeyError /\ unknown P target) \/ (e = ValueError /\ ~ unknown P target /\ exists a, name' = Some a /\ a <> target /\ ~ unknown P a) end.
Proof.
  intros M. pose proof (made_wf _ _ M) as W. destruct (get_stage target P) as [t|e] eqn:G.
  2:{ destruct (get_err _ _ _ G) as [-> H]. unfold insert_stage_before, insert_stage_after, replace_stage. rewrite G. cbn [rbind]. split; [|split]; [left; now split|left; now split|intros ? ?; left; now split]. }
  apply (get_spec _ _ _ W) in G. assert (K : ~ unknown P target) by (intros H; now apply (H t)). pose proof (proj2 (get_spec _ _ _ W) G) as G'.
  split; [|split].
  - unfold insert_stage_before. rewrite G'. cbn [rbind]. pose proof (register_exactly fn name c P) as R. destruct (register_stage fn name c P) as [[n1 P1]|e]; cbn [rbind]; [now split|].
    right. destruct R as [-> (x & Hx)]. split; [reflexivity|]. split; [exact K|]. intros H. now apply (H x).
  - pose proof (register_exactly fn name c P) as R. destruct (insert_stage_after target fn name c P) as [[n P']|e] eqn:A.
    + split; [exact K|]. unfold insert_stage_after in A. rewrite G' in A. cbn [rbind] in A. destruct (register_stage fn name c P) as [[n1 P1]|]; [exact R|discriminate].
    + unfold insert_stage_after in A. rewrite G' in A. cbn [rbind] in A. destruct (register_stage fn name c P) as [[n1 P1]|e1] eqn:Rg; cbn [rbind] in A.
      * exfalso. destruct (register_spec _ _ _ _ _ _ Rg) as (_ & En & Lr & _ & _ & _ & D & _).
        destruct (rewire_spec t n1 (dependents_of t P) (depends_on n1 [t] P1)) as (P3 & E & _); [now apply dependents_nodup| |rewrite E in A; discriminate].
        intros x Hx. apply dependents_in in Hx. destruct Hx as [Hx Ht]. pose proof (wf_alloc P W x Hx). unfold depends_on. rewrite refs_with. split; [lia|]. rewrite deps_with by lia. rewrite D. destruct (Nat.eqb_spec x n1); [lia|exact Ht].
      * injection A as <-. right. destruct R as [-> (x & Hx)]. split; [reflexivity|]. split; [exact K|]. intros H. now apply (H x).
  - intros name' c'. unfold replace_stage. rewrite G'. cbn [rbind]. set (nm := match name' with Some a => a | None => name_of P t end).
    destruct (negb (String.eqb nm (name_of P t)) && existsb (fun x => String.eqb (name_of P x) nm) (p_stages P)) eqn:B.
    + right. split; [reflexivity|]. split; [exact K|]. apply andb_true_iff in B. destruct B as [B1 B2]. apply negb_true_iff, String.eqb_neq in B1. apply existsb_exists in B2. destruct B2 as (x & Hx & B2). apply String.eqb_eq in B2.
      destruct name' as [a|]; cbn in nm; [|now destruct B1]. exists a. split; [reflexivity|]. split; [intros E0; apply B1; unfold nm; rewrite E0; symmetry; apply G|]. intros H. apply (H x). now split.
    + assert (Free : forall x, registered P x -> x <> t -> name_of P x <> nm).
      { intros x Hx Nx E. apply andb_false_iff in B. destruct B as [B|B].
        - apply negb_false_iff, String.eqb_eq in B. apply Nx. apply (wf_names P W); [exact Hx|apply G|congruence].
        - apply not_true_iff_false in B. apply B. apply existsb_exists. exists x. split; [exact Hx|now apply String.eqb_eq]. }
      set (P0 := mkPipe (p_refs P) (drop t (p_stages P)) (drop t (p_results P)) (drop t (p_evals P))). set (cap := match c' with Some b => b | None => nin t (p_results P) end).
      assert (X : exists n1 P1, (if nin t (p_evals P) then register_eval_stage else register_stage) fn nm cap P0 = Ok (n1, P1) /\ n1 = length (p_refs P) /\ length (p_refs P1) = S n1 /\ forall y, deps P1 y = deps P y).
      { pose proof (register_exactly fn nm cap P0) as R. destruct (register_stage fn nm cap P0) as [[n1 P1]|e] eqn:Rg.
        - destruct (register_spec _ _ _ _ _ _ Rg) as (_ & En & Lr & _ & _ & _ & D & _). destruct (nin t (p_evals P)).
          + unfold register_eval_stage. rewrite Rg. cbn [rbind]. eexists _, _. split; [reflexivity|]. now split.
          + exists n1, P1. now split.
        - destruct R as [_ (x & Hx & Ex)]. exfalso. unfold registered, P0 in Hx. cbn in Hx. apply drop_in in Hx. now apply (Free x). }
      destruct X as (n1 & P1 & Rg & En & Lr & D). rewrite Rg. cbn [rbind].
      destruct (rewire_spec t n1 (dependents_of t P) (depends_on n1 (deps P t) P1)) as (P3 & E & _); [now apply dependents_nodup| |].
      { intros x Hx. apply dependents_in in Hx. destruct Hx as [Hx Ht]. pose proof (wf_alloc P W x Hx). unfold depends_on. rewrite refs_with. split; [lia|]. rewrite deps_with by lia. rewrite D. destruct (Nat.eqb_spec x n1); [lia|exact Ht]. }
      rewrite E. cbn [rbind]. split; [exact K|]. intros a Ea. assert (Enm : nm = a) by (unfold nm; now rewrite Ea). rewrite Enm in Free. destruct (String.eqb_spec a target) as [->|Na]; [now left|]. right. intros x [Hx Ex].
      apply (Free x Hx); [intros ->; apply Na; destruct G; congruence|exact Ex].
Qed.

Theorem remove_exactly w P a b : made w P ->
  match remove_dependency a b P with
  | Ok P' => exists t d, named P a t /\ named P b d /\ depends P t d /\ (forall l1 l2, deps P t = l1 ++ d :: l2 -> deps P' t = l1 ++ l2) /\
      (forall x, x <> t -> deps P' x = deps P x) /\ p_stages P' = p_stages P /\ p_results P' = p_results P /\ p_evals P' = p_evals P /\ (executable P -> executable P')
  | Err e => e = KeyError /\ forall t d, named P a t -> named P b d -> ~ depends P t d
  end.
Proof.
  intros M. pose proof (made_wf _ _ M) as W. unfold remove_dependency. destruct (get_stage a P) as [t|e] eqn:Ga.
  2:{ destruct (get_err _ _ _ Ga) as [-> H]. cbn [rbind]. split; [reflexivity|]. intros t d Ht. now apply H in Ht. }
  destruct (get_stage b P) as [d|e] eqn:Gb.
  2:{ destruct (get_err _ _ _ Gb) as [-> H]. cbn [rbind]. split; [reflexivity|]. intros t' d _ Hd. now apply H in Hd. }
  cbn [rbind]. pose proof (proj1 (get_spec _ _ _ W) Ga) as Na. pose proof (proj1 (get_spec _ _ _ W) Gb) as Nb. unfold remove_dep. destruct (nin d (deps P t)) eqn:I.
  - apply nin_in in I. assert (Lt : t < length (p_refs P)) by apply (wf_alloc P W), Na.
    exists t, d. split; [exact Na|]. split; [exact Nb|]. split; [exact I|]. split; [|split; [|split; [reflexivity|split; [reflexivity|split; [reflexivity|]]]]].
    + intros l1 l2 E. rewrite deps_with by exact Lt. rewrite Nat.eqb_refl, E. pose proof (wf_deps P W t) as N. rewrite E in N. apply NoDup_remove_2 in N.
      unfold drop. rewrite filter_app. cbn [filter]. rewrite Nat.eqb_refl. cbn [negb]. fold (drop d l1). fold (drop d l2). rewrite !drop_notin; [reflexivity|..]; intros H; apply N; apply in_app_iff; auto.
    + intros x Hx. rewrite deps_with by exact Lt. apply Nat.eqb_neq in Hx. now rewrite Hx.
    + intros X. destruct (executable_order P X) as (o & N & C & O). apply (order_executable _ o). apply order_intro; [exact N|exact C|].
      intros l1 x l2 E1 y Hy. unfold depends in Hy. rewrite deps_with in Hy by exact Lt. apply (O l1 x l2 E1). destruct (x =? t); [apply drop_in in Hy; apply Hy|exact Hy].
  - apply nin_notin in I. split; [reflexivity|]. intros t' d' Ht Hd D.
    assert (t' = t) as -> by (apply (wf_names P W); [apply Ht|apply Na|destruct Ht, Na; congruence]).
    assert (d' = d) as -> by (apply (wf_names P W); [apply Hd|apply Nb|destruct Hd, Nb; congruence]). now apply I.
Qed.

(** ** Witnesses: three stages [a], [b] and [c]; [c] takes the results of [a] and [b]. *)
Definition get {A} (r : result A) (d : A) : A := match r with Ok a => a | Err _ => d end.
Lemma get_ok {A} (r : result A) d : (exists a, r = Ok a) -> r = Ok (get r d).
Proof. now intros (a & ->). Qed.
Local Open Scope string_scope.
Local Open Scope list_scope.
Definition ex_a : pipe := snd (get (register_stage 0 "a" false empty_pipe) (0, empty_pipe)).
Definition ex_ab : pipe := snd (get (register_eval_stage 1 "b" false ex_a) (0, empty_pipe)).
Definition ex_abc : pipe := snd (get (register_eval_stage 2 "c" true ex_ab) (0, empty_pipe)).
Definition ex_ca : pipe := get (add_dependency 9 "c" "a" ex_abc) empty_pipe.
Definition ex_pipe : pipe := get (add_dependency 9 "c" "b" ex_ca) empty_pipe.
Lemma ex_ab_made w : made w ex_ab.
Proof. apply made_eval with (P := ex_a) (fn := 1) (n := "b") (c := false) (x := 1); [|reflexivity]. apply made_stage with (P := empty_pipe) (fn := 0) (n := "a") (c := false) (x := 0); [constructor|reflexivity]. Qed.
Lemma ex_made w : made w ex_pipe.
Proof.
  apply made_add with (P := ex_ca) (fuel := 9) (a := "c") (b := "b"); [|reflexivity]. apply made_add with (P := ex_abc) (fuel := 9) (a := "c") (b := "a"); [|reflexivity].
  apply made_eval with (P := ex_ab) (fn := 2) (n := "c") (c := true) (x := 2); [apply ex_ab_made|reflexivity].
Qed.
(** stage functions: 0 and 1 return constants, 2 divides its first input by the second, others return their first input *)
Definition ex_call (f : nat) (u : unit) (args : list nat) : result nat * unit :=
  (match f, args with
   | 0, _ => Ok 60 | 1, _ => Ok 5
   | 2, a :: b :: _ => Ok (Nat.div a b)
   | _, a :: _ => Ok a
   | _, [] => Err TypeError end, tt).
Definition ex_metric (a b : nat) : result nat := Ok (a - b + (b - a)).
