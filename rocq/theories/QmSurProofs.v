(** Proofs about surrogates. *)
From Coq Require Import String Ascii.
From Verif Require Import Prelude ModulesModel ModulesSpec ModulesProofs ModulesConvProofs QmModel QmSpec.
Local Open Scope nat_scope.
Local Open Scope list_scope.

Lemma combine_keys {A B} (a : list A) (b : list B) : length a = length b -> map fst (combine a b) = a /\ map snd (combine a b) = b.
Proof. revert b. induction a as [|x a IH]; intros [|y b] H; cbn in *; try discriminate; [auto|]. destruct (IH b) as [-> ->]; [lia|auto]. Qed.

Section Sur.
  Variables (isq isqm : nat -> bool) (bm : nat) (global : list (nat * nat)) (extra : list (nat * entry)) (ign : bool) (fresh : nat) (h : heap) (root : nat).
  Hypothesis Hok : heap_ok h.
  Hypothesis Hr : root < length h.

  Lemma surrogate_keys : exists s, surrogate_quantized_modules isq isqm bm global extra ign fresh h root = Ok s /\
    (forall c, In c (map fst s) <-> in_model h root c /\ merged global extra ign c = None /\ c <> bm /\ isq c = false /\ isqm c = false) /\
    NoDup (map fst s) /\ NoDup (map snd s) /\ (forall c', In c' (map snd s) -> fresh <= c').
  Proof.
    unfold surrogate_quantized_modules, missing_modules, classes.
    destruct (modules_listing h root Hok Hr) as (memo & l & -> & N & L1 & L2). cbn [rbind].
    match goal with |- context [filter ?f ?cs] => set (ms := filter f cs) end.
    exists (combine ms (seq fresh (length ms))). split; [reflexivity|].
    destruct (combine_keys ms (seq fresh (length ms))) as [-> ->]; [now rewrite seq_length|].
    split; [|split; [|split; [apply seq_NoDup|intros c' H; apply in_seq in H; lia]]].
    - intros c. unfold ms. rewrite filter_In, nodup_In.
      assert (I : In c (map (fun pm => cls_of h (snd pm)) l) <-> in_model h root c).
      { rewrite in_map_iff. split.
        - intros ([p x] & <- & H). apply L1 in H. cbn [snd]. destruct (leads_end _ _ _ _ H) as (m & E). exists p, x, m. unfold cls_of. rewrite E. auto.
        - intros (p & x & m & H & E & <-). apply L2 in H. apply in_map_iff in H. destruct H as (pm & <- & H). exists pm. unfold cls_of. rewrite E. auto. }
      rewrite I. destruct (merged global extra ign c); [intuition discriminate|].
      destruct (Nat.eqb_spec c bm); [intuition congruence|]. destruct (isq c); [intuition discriminate|]. cbn [andb]. destruct (isqm c); intuition discriminate.
    - unfold ms. apply NoDup_filter, NoDup_nodup.
  Qed.
End Sur.

Lemma lookup_in {B} c (v : B) l : lookup c l = Some v -> In (c, v) l.
Proof. induction l as [|[k w] l IH]; cbn; [discriminate|]. destruct (Nat.eqb_spec c k); [intros H; injection H as <-; left; congruence|right; auto]. Qed.
Lemma lookup_some {B} c (l : list (nat * B)) : In c (map fst l) -> exists v, lookup c l = Some v.
Proof. induction l as [|[k w] l IH]; cbn; [intros []|]. intros [->|H]; [rewrite Nat.eqb_refl; eauto|]. destruct (c =? k); eauto. Qed.
Lemma lookup_entries c s : lookup c (as_entries s) = option_map To (lookup c s).
Proof. induction s as [|[k w] s IH]; cbn; [reflexivity|]. destruct (c =? k); auto. Qed.

Lemma visits_leads isq isqm mm sk sn h a b : visits isq isqm mm sk sn h a b -> a < length h -> exists p, leads h a p b.
Proof.
  intros H. induction H as [x|x m n y my z E _ Hin' _ Ey _ Hv IH]; intros Hr.
  - apply nth_error_Some in Hr. destruct (nth_error h x) as [mx|] eqn:E; [|congruence]. exists []. econstructor. exact E.
  - destruct IH as [p Hp]; [apply nth_error_Some; congruence|]. exists (n :: p). econstructor; eauto.
Qed.
(** Conversion with the surrogates of the same maps. *)
Lemma surrogate_success isq isqm bm global ign fresh sn sc h rank root skipq fuel :
  heap_ok h -> ranked h rank -> root < length h -> isq (cls_of h root) = false -> isq sc = true ->
  (forall c c', lookup c global = Some c' -> isqm c' = true /\ isq c' = false) ->
  (forall c, fresh <= c -> isq c = false) ->
  (forall c, in_model h root c -> c < fresh) ->
  (in_model h root bm -> ign = false /\ lookup bm global <> None) ->
  (skipq = true \/ (one_parent h root /\ forall c, in_model h root c -> isqm c = true -> merged global [] ign c <> None)) ->
  rank root < fuel ->
  exists s h', surrogate_quantized_modules isq isqm bm global [] ign fresh h root = Ok s /\
    quantize_with isq isqm bm sn sc global s ign skipq fuel h root = (h', Ok tt) /\
    (forall x m c', nth_error h x = Some m -> lookup (mcls m) s = Some c' ->
       visits isq (is_qmodule' isqm s) (merged global (as_entries s) ign) skipq (stub_names' sn s) h root x ->
       exists m', nth_error h' x = Some m' /\ mcls m' = c' /\ mparams m' = mparams m /\ forall n, slookup n (mkids m') = slookup n (mkids m)).
Proof.
  intros Hok Hrk Hr Hq Hsc Hg Hf Hold Hbm Hskip Hfuel.
  destruct (surrogate_keys isq isqm bm global [] ign fresh h root Hok Hr) as (s & Es & K & N1 & N2 & Hfr).
  assert (Hsur : forall c, is_surrogate s c = true <-> In c (map snd s)).
  { intros c. unfold is_surrogate. rewrite existsb_exists. split; [intros (y & H1 & H2); apply Nat.eqb_eq in H2; congruence|]. intros H. exists c. split; [assumption|apply Nat.eqb_refl]. }
  assert (Hin : forall c, in_model h root c -> is_surrogate s c = false).
  { intros c H. destruct (is_surrogate s c) eqn:E; [|reflexivity]. apply Hsur, Hfr in E. apply Hold in H. lia. }
  assert (Hqm : forall c, in_model h root c -> is_qmodule' isqm s c = isqm c).
  { intros c H. unfold is_qmodule'. now rewrite (Hin c H). }
  assert (Hmm : forall c, merged global (as_entries s) ign c = match lookup c s with Some c' => Some (To c') | None => merged global [] ign c end).
  { intros c. unfold merged. cbn [lookup]. rewrite lookup_entries. destruct (lookup c s); reflexivity. }
  unfold quantize_with.
  set (mm := merged global (as_entries s) ign) in *. set (iq := is_qmodule' isqm s) in *. set (st := stub_names' sn s).
  assert (Hcls : forall p x m, leads h root p x -> nth_error h x = Some m -> isq (mcls m) = false ->
     mm (mcls m) <> None \/ (skipq = true /\ iq (mcls m) = true)).
  { intros p x m Hl E Hqx. assert (Him : in_model h root (mcls m)) by (exists p, x, m; auto).
    unfold mm at 1. rewrite Hmm. destruct (lookup (mcls m) s) eqn:El; [left; discriminate|].
    destruct (merged global [] ign (mcls m)) eqn:Em; [left; discriminate|]. right.
    assert (Hnk : ~ In (mcls m) (map fst s)). { intros C. apply lookup_some in C. destruct C as [v C]. congruence. }
    destruct (isqm (mcls m)) eqn:Eqm.
    - destruct Hskip as [->|[_ H]]; [split; [reflexivity|]|exfalso; eapply H; eauto]. unfold iq. now rewrite Hqm.
    - exfalso. apply Hnk. apply K. split; [assumption|]. split; [assumption|]. split; [|auto].
      intros Eb. rewrite Eb in *. destruct (Hbm Him) as [-> Hb]. unfold merged in Em. cbn [lookup] in Em. destruct (lookup bm global); [discriminate|congruence]. }
  assert (Hconv : forall c c', mm c = Some (To c') -> iq c' = true /\ isq c' = false).
  { intros c c' H. unfold mm in H. rewrite Hmm in H. destruct (lookup c s) as [c1|] eqn:El.
    - injection H as ->. apply lookup_in in El. apply (in_map snd) in El. cbn in El. split; [|apply Hf, Hfr, El].
      unfold iq, is_qmodule'. apply Hsur in El. now rewrite El.
    - unfold merged in H. cbn [lookup] in H. destruct ign; [discriminate|]. destruct (lookup c global) as [c1|] eqn:Eg; [|discriminate].
      injection H as ->. destruct (Hg _ _ Eg) as [H1 H2]. split; [|assumption]. unfold iq, is_qmodule'. now rewrite H1, orb_true_r. }
  assert (Hvq : forall a b, visits isq iq mm skipq st h a b -> isq (cls_of h a) = false -> isq (cls_of h b) = false).
  { intros a b Hv. induction Hv as [|a m n y my z E _ Hin' _ Ey Hy Hv IH]; [auto|]. intros _. apply IH. unfold cls_of. now rewrite Ey. }
  destruct (conversion_supported isq iq bm mm skipq st sc h rank root fuel Hconv Hsc Hok Hrk Hr Hq) as (h' & Eh & C1 & _).
  - intros p x m Hl E. unfold supported. destruct (isq (mcls m)) eqn:Eq; [auto|]. destruct (Hcls p x m Hl E Eq) as [H|H]; [left; exact H|auto].
  - intros x m Hv E. destruct (visits_leads _ _ _ _ _ _ _ _ Hv Hr) as [p Hl]. apply (Hcls p x m Hl E).
    specialize (Hvq root x Hv Hq). unfold cls_of in Hvq. now rewrite E in Hvq.
  - destruct Hskip as [->|[H _]]; auto.
  - assumption.
  - exists s, h'. split; [assumption|]. split; [assumption|]. intros x m c' E El Hv.
    destruct (C1 x m E Hv) as (m' & E' & (F1 & F2 & F3 & F4)). exists m'. split; [assumption|].
    destruct (visits_leads _ _ _ _ _ _ _ _ Hv Hr) as [p Hl]. assert (Him : in_model h root (mcls m)) by (exists p, x, m; auto).
    assert (Hk : In (mcls m) (map fst s)) by (apply lookup_in in El; apply (in_map fst) in El; exact El).
    apply K in Hk. destruct Hk as (_ & _ & _ & _ & Hnq).
    assert (Ht : target iq mm skipq (mcls m) = Some c').
    { unfold target. unfold iq at 1. rewrite Hqm, Hnq, andb_false_r by assumption. unfold mm. rewrite Hmm, El. reflexivity. }
    assert (Hn : new_attrs iq mm skipq st (mcls m) = []).
    { unfold new_attrs. rewrite Ht. unfold st, stub_names'. assert (Hc' : is_surrogate s c' = true); [|now rewrite Hc'].
      apply Hsur. apply lookup_in in El. apply (in_map snd) in El. exact El. }
    split; [rewrite F1; unfold final_class; now rewrite Ht|]. split; [assumption|]. intros n. apply F3. rewrite Hn. intros [].
Qed.
