(** Proofs about [optimization_only_pass]: a simulation per required reference and context. *)
From Coq Require Import String Ascii Permutation Relations.
From Verif Require Import Prelude GraphModel GraphSpec GraphProofs EngineModel EngineSpec EngineBaseProofs EngineLifeProofs.
Local Open Scope nat_scope.
Local Open Scope list_scope.

(** association lists keyed by contexts *)
Section Assoc.
  Context {A : Type}.
  Implicit Types l : list (nat * A).
  Lemma nget_aset k k' (a : A) l : aget Nat.eqb k (aset Nat.eqb k' a l) = if k' =? k then Some a else aget Nat.eqb k l.
  Proof. exact (aget_aset Nat.eqb (fun x => x) nat_eqb_spec k k' a l). Qed.
  Lemma aset_keys k (a : A) l x : In x (map fst (aset Nat.eqb k a l)) <-> x = k \/ In x (map fst l).
  Proof.
    induction l as [|[k' b] l IH]; cbn [aset map fst In]; [firstorder congruence|]. destruct (Nat.eqb_spec k' k) as [->|N]; cbn [map fst In]; [firstorder congruence|].
    rewrite IH. firstorder congruence.
  Qed.
  Lemma aset_nodup k (a : A) l : NoDup (map fst l) -> NoDup (map fst (aset Nat.eqb k a l)).
  Proof.
    induction l as [|[k' b] l IH]; cbn [aset map fst]; intros N; [constructor; [intros []|constructor]|]. inversion N as [|? ? N1 N2]; subst.
    destruct (Nat.eqb_spec k' k) as [->|D]; cbn [map fst]; [now constructor|]. constructor; [|now apply IH]. rewrite aset_keys. intros [->|H]; contradiction.
  Qed.
  Lemma nget_in k l a : aget Nat.eqb k l = Some a -> In (k, a) l.
  Proof. intros H. apply (aget_in Nat.eqb (fun x => x) nat_eqb_spec) in H. destruct H as (k' & H & ->). exact H. Qed.
  Lemma nget_nodup k l a : NoDup (map fst l) -> In (k, a) l -> aget Nat.eqb k l = Some a.
  Proof.
    induction l as [|[k' b] l IH]; intros N H; [destruct H|]. cbn in N. inversion N as [|? ? N1 N2]; subst. cbn [aget].
    destruct H as [[= -> ->]|H]; [now rewrite Nat.eqb_refl|]. destruct (Nat.eqb_spec k' k) as [->|]; [|now apply IH]. exfalso. apply N1. now apply (in_map fst l (k, a)).
  Qed.
  Lemma nget_none k l : aget Nat.eqb k l = None <-> ~ In k (map fst l).
  Proof.
    induction l as [|[k' b] l IH]; cbn [aget map fst In]; [tauto|]. destruct (Nat.eqb_spec k' k) as [->|D]; [split; [discriminate|intros H; exfalso; apply H; now left]|].
    rewrite IH. tauto.
  Qed.
  Lemma nget_fold l2 : forall l k, NoDup (map fst l2) -> aget Nat.eqb k (fold_left (fun l e => aset Nat.eqb (fst e) (snd e) l) l2 l) =
    match aget Nat.eqb k l2 with Some a => Some a | None => aget Nat.eqb k l end.
  Proof.
    induction l2 as [|[k' a] l2 IH]; intros l k N; [reflexivity|]. cbn in N. inversion N as [|? ? N1 N2]; subst. cbn [fold_left fst snd aget]. rewrite IH by exact N2.
    rewrite nget_aset. destruct (Nat.eqb_spec k' k) as [->|D]; [|reflexivity]. apply nget_none in N1. now rewrite N1.
  Qed.
  Lemma fold_nodup l2 : forall l, NoDup (map fst l) -> NoDup (map fst (fold_left (fun l e => aset Nat.eqb (fst e) (snd e) l) l2 l)).
  Proof. induction l2 as [|e l2 IH]; intros l N; [exact N|]. cbn [fold_left]. apply IH. now apply aset_nodup. Qed.
  Lemma aset_nonempty k (a : A) l : aset Nat.eqb k a l <> [].
  Proof. destruct l as [|[k' b] l]; cbn; [discriminate|]. destruct (k' =? k); discriminate. Qed.
  Lemma fold_nil l2 : forall l, fold_left (fun l e => aset Nat.eqb (fst e) (snd e) l) l2 l = [] -> l2 = [] /\ l = [].
  Proof.
    induction l2 as [|e l2 IH]; intros l H; [now split|]. cbn [fold_left] in H. apply IH in H. destruct H as [_ H]. now apply aset_nonempty in H.
  Qed.
End Assoc.

Lemma nmem_in n l : nmem n l = true <-> In n l.
Proof. unfold nmem. rewrite existsb_exists. split; [intros (x & H & E); apply Nat.eqb_eq in E; now subst|intros H; exists n; split; [exact H|apply Nat.eqb_refl]]. Qed.
Lemma union_in l : forall s x, In x (union l s) <-> In x l \/ In x s.
Proof.
  induction l as [|y l IH]; intros s x; cbn [union In]; [tauto|]. rewrite IH. destruct (nmem y s) eqn:E.
  - apply nmem_in in E. split; [tauto|]. intros [[<-|H]|H]; tauto.
  - rewrite in_app_iff. cbn. tauto.
Qed.
Lemma union_nodup l : forall s, NoDup s -> NoDup (union l s).
Proof.
  induction l as [|y l IH]; intros s N; [exact N|]. cbn [union]. apply IH. destruct (nmem y s) eqn:E; [exact N|].
  apply NoDup_rev in N. rewrite <- (rev_involutive (s ++ [y])). apply NoDup_rev. rewrite rev_app_distr. cbn [rev app]. constructor; [|exact N].
  rewrite <- in_rev. intros H. apply nmem_in in H. congruence.
Qed.

Section Opt.
  Context {X U : Type} (s : semantics X U).
  Implicit Types (g : register X) (is : list (instr X)).
  Variable C : list nat.

  Definition narrow (l l' : list (nat * entry X)) : Prop :=
    NoDup (map fst l) /\ NoDup (map fst l') /\ (forall c, aget Nat.eqb c l' = if nmem c C then aget Nat.eqb c l else None) /\ (l' = [] -> l = []).
  Definition narrows (req : list ref) g g' : Prop := forall r, rmem r req = true -> is_const r = false ->
    match rget r g, rget r g' with Some l, Some l' => narrow l l' | None, None => True | _, _ => False end.

  Lemma narrow_nil : narrow [] [].
  Proof. repeat split; try constructor. intros c. now destruct (nmem c C). Qed.
  Lemma narrows_streams req g g' r : narrows req g g' -> rmem r req = true -> is_const r = false -> narrow (streams r g) (streams r g').
  Proof. intros N R K. specialize (N r R K). unfold streams. destruct (rget r g), (rget r g'); try contradiction; [exact N|apply narrow_nil]. Qed.
  Lemma narrows_sub req req' g g' : (forall r, rmem r req' = true -> rmem r req = true) -> narrows req g g' -> narrows req' g g'.
  Proof. intros H N r R K. apply N; [now apply H|exact K]. Qed.
  Lemma rmem_app r l l' : rmem r (l ++ l') = rmem r l || rmem r l'.
  Proof. apply existsb_app. Qed.

  (** reading *)
  Lemma narrow_load g g' req c r : narrows req g g' -> rmem r req = true -> In c C -> dataset_of s g c r = dataset_of s g' c r.
  Proof.
    intros N R Hc. apply nmem_in in Hc. destruct (is_const r) eqn:K; [destruct r; try discriminate; reflexivity|].
    specialize (N r R K). assert (E : load r c g = load r c g').
    { unfold load. destruct (rget r g) as [l|], (rget r g') as [l'|]; try contradiction; [|reflexivity]. destruct N as (_ & _ & N & _). now rewrite N, Hc. }
    unfold dataset_of. rewrite E. now destruct r.
  Qed.
  Lemma narrow_gather g g' req c args kwargs : narrows req g g' -> (forall r, In r (args ++ map snd kwargs) -> rmem r req = true) -> In c C ->
    gather s g c args kwargs = gather s g' c args kwargs.
  Proof.
    intros N H Hc. unfold gather. rewrite (rmapM_ext_in (dataset_of s g c) (dataset_of s g' c) args).
    - rewrite (rmapM_ext_in (fun e => dataset_of s g c (snd e)) (fun e => dataset_of s g' c (snd e)) kwargs); [reflexivity|].
      intros e He. apply (narrow_load g g' req); [exact N| |exact Hc]. apply H. rewrite in_app_iff. right. now apply in_map.
    - intros r Hr. apply (narrow_load g g' req); [exact N| |exact Hc]. apply H. rewrite in_app_iff. now left.
  Qed.
  Lemma narrow_calls g g' req args kwargs m pl : narrows req g g' -> (forall r, In r (args ++ map snd kwargs) -> rmem r req = true) ->
    forall cs u, (forall c, In c cs -> In c C) -> call_contexts s pl u cs m args kwargs g = call_contexts s pl u cs m args kwargs g'.
  Proof.
    intros N H. induction cs as [|c cs IH]; intros u Hc; [reflexivity|]. cbn [call_contexts].
    assert (E : call_context s pl u c m args kwargs g = call_context s pl u c m args kwargs g').
    { unfold call_context. rewrite (narrow_gather g g' req c args kwargs N H (Hc c (or_introl eq_refl))). reflexivity. }
    rewrite E. destruct (call_context s pl u c m args kwargs g') as [[l|e] u']; [|reflexivity]. rewrite IH; [reflexivity|]. intros c' H'. apply Hc. now right.
  Qed.
  (** writing *)
  Lemma narrow_fold l2 l2' l l' : NoDup (map fst l2) -> NoDup (map fst l2') ->
    (forall c, aget Nat.eqb c l2' = if nmem c C then aget Nat.eqb c l2 else None) -> (l2' = [] -> l2 = []) -> narrow l l' ->
    narrow (fold_left (fun l e => aset Nat.eqb (fst e) (snd e) l) l2 l) (fold_left (fun l e => aset Nat.eqb (fst e) (snd e) l) l2' l').
  Proof.
    intros N2 N2' E2 Z2 (N & N' & E & Z). split; [now apply fold_nodup|]. split; [now apply fold_nodup|]. split.
    - intros c. rewrite !nget_fold by assumption. rewrite E2, E. destruct (nmem c C); [reflexivity|reflexivity].
    - intros H. apply fold_nil in H. destruct H as [H1 H2]. rewrite (Z2 H1), (Z H2). reflexivity.
  Qed.
  Lemma call_contexts_keys pl m args kwargs g : forall cs u l u', call_contexts s pl u cs m args kwargs g = (Ok l, u') -> map fst l = cs.
  Proof.
    induction cs as [|c cs IH]; intros u l u' H; cbn [call_contexts] in H; [injection H as <- _; reflexivity|].
    destruct (call_context s pl u c m args kwargs g) as [[v|e] u1]; [|discriminate]. destruct (call_contexts s pl u1 cs m args kwargs g) as [[l1|e] u2] eqn:E; cbn in H; [|discriminate].
    injection H as <- _. cbn. f_equal. exact (IH _ _ _ E).
  Qed.
  (** one write of streams *)
  Lemma fold_store_aset (t : ref) l : forall g, l <> [] ->
    forall r, rget r (fold_left (fun g (e : nat * entry X) => store t (fst e) (snd e) g) l g) =
      if ref_eqb t r then Some (fold_left (fun l e => aset Nat.eqb (fst e) (snd e) l) l (streams r g)) else rget r g.
  Proof.
    induction l as [|e l IH]; intros g Hl r; [contradiction|]. cbn [fold_left]. destruct l as [|e2 l].
    - cbn [fold_left]. apply rget_store.
    - rewrite IH by discriminate. unfold streams at 1. rewrite !rget_store. destruct (ref_eqb t r); reflexivity.
  Qed.

  Lemma fst_map_rmapM {A B} (f : A -> result B) (l : list (nat * A)) l' : rmapM (fun e => let? x := f (snd e) in Ok (fst e, x)) l = Ok l' ->
    map fst l' = map fst l /\ forall c, match aget Nat.eqb c l with Some a => exists b, f a = Ok b /\ aget Nat.eqb c l' = Some b | None => aget Nat.eqb c l' = None end.
  Proof.
    revert l'. induction l as [|[k a] l IH]; intros l' H.
    - injection H as <-. split; [reflexivity|]. intros c. reflexivity.
    - change (rmapM (fun e => let? x := f (snd e) in Ok (fst e, x)) ((k, a) :: l)) with
        (let? y := (let? x := f a in Ok (k, x)) in let? ys := rmapM (fun e => let? x := f (snd e) in Ok (fst e, x)) l in Ok (y :: ys)) in H.
      destruct (f a) as [b|] eqn:F; [|discriminate]. cbn [rbind] in H. destruct (rmapM _ l) as [l1|] eqn:E; [|discriminate]. cbn [rbind] in H. injection H as <-.
      destruct (IH _ eq_refl) as [I1 I2]. split; [cbn; now f_equal|]. intros c. cbn [aget]. destruct (k =? c); [eauto|apply I2].
  Qed.
  Lemma rmapM_ok_all {A B} (f : A -> result B) l : (forall a, In a l -> exists b, f a = Ok b) -> exists l', rmapM f l = Ok l'.
  Proof.
    induction l as [|a l IH]; intros H; [exists []; reflexivity|]. destruct (H a (or_introl eq_refl)) as [b E]. destruct IH as [l' E']; [intros x Hx; apply H; now right|].
    exists (b :: l'). change (rmapM f (a :: l)) with (let? y := f a in let? ys := rmapM f l in Ok (y :: ys)). now rewrite E, E'.
  Qed.

  Definition pure : Prop := calls_pure s.
  Lemma pure_batches pl c m b : pure -> forall n u i, snd (call_batches s pl u c m b i n) = u.
  Proof.
    intros P. induction n as [|n IH]; intros u i; [reflexivity|]. cbn [call_batches]. destruct (batch b i) as [[a k]|e]; [|reflexivity].
    pose proof (P pl u c m a k) as Q. destruct (call s pl u c m a k) as [[v|e] u']; cbn in Q; subst u'; [|reflexivity].
    specialize (IH u (S i)). destruct (call_batches s pl u c m b (S i) n) as [r u2]. exact IH.
  Qed.
  Lemma pure_context pl u c m args kwargs g : pure -> snd (call_context s pl u c m args kwargs g) = u.
  Proof.
    intros P. unfold call_context. destruct (gather s g c args kwargs) as [b|e]; [|reflexivity]. destruct args, kwargs; try now apply pure_batches.
    pose proof (P pl u c m [] []) as Q. now destruct (call s pl u c m [] []) as [r u'].
  Qed.
  Lemma pure_contexts pl m args kwargs g : pure -> forall cs u, snd (call_contexts s pl u cs m args kwargs g) = u.
  Proof.
    intros P. induction cs as [|c cs IH]; intros u; [reflexivity|]. cbn [call_contexts]. pose proof (pure_context pl u c m args kwargs g P) as Q.
    destruct (call_context s pl u c m args kwargs g) as [[l|e] u']; cbn in Q; subst u'; [|reflexivity]. specialize (IH u).
    destruct (call_contexts s pl u cs m args kwargs g) as [r u2]. exact IH.
  Qed.

  Lemma world_eta (w : world U) : mkWorld (w_place w) (w_user w) = w.
  Proof. now destruct w. Qed.

  (** a retained instruction *)
  Lemma retained_step req i w g g' w' g1 :
    plain_instr i -> is_optimize i = true \/ produces i <> [] -> (forall c, In c (contexts_of i) -> In c C) ->
    (forall r, In r (mentions i) -> rmem r req = true) -> (forall m args kwargs t cs, i = CallModule m args kwargs t cs -> NoDup cs) ->
    narrows req g g' -> exec s i w g = (w', Ok (g1, None)) -> exists g1', exec s i w g' = (w', Ok (g1', None)) /\ narrows req g1 g1'.
  Proof.
    intros Pl Kind Hc Hm Nc N E. destruct i as [t e cs|src t a|m args kwargs t cs|m args kwargs d|os|ts|sp m|d r]; cbn [contexts_of] in Hc; try (destruct Kind as [H|H]; [discriminate|exfalso; now apply H]).
    - cbn [exec] in E |- *. unfold mentions in Hm. cbn [uses produces app] in Hm.
      assert (Ks : is_const src = false) by (destruct src; [reflexivity|reflexivity|destruct Pl|reflexivity]).
      assert (Kt : is_const t = false) by (destruct src, t; try reflexivity; destruct Pl).
      pose proof (N src (Hm src (or_introl eq_refl)) Ks) as Ns. unfold items_for in E |- *.
      destruct (rget src g) as [l|]; cbn [rbind rmap] in E; [|discriminate]. destruct (rget src g') as [l'|]; [|contradiction]. cbn [rbind].
      destruct (rmapM (fun e => let? x := extract s a (snd e) in Ok (fst e, x)) l) as [l2|] eqn:M; cbn [rbind rmap] in E; [|discriminate]. injection E as <- <-.
      destruct Ns as (D & D' & Ag & Z).
      destruct (rmapM_ok_all (fun e => let? x := extract s a (snd e) in Ok (fst e, x)) l') as [l2' M'].
      { intros [c e] He. apply (nget_nodup _ _ _ D') in He. rewrite Ag in He. destruct (nmem c C); [|discriminate].
        destruct (fst_map_rmapM _ _ _ M) as [_ M2]. specialize (M2 c). rewrite He in M2. destruct M2 as (b & Hb & _). exists (c, b). cbn [fst snd]. now rewrite Hb. }
      rewrite M'. cbn [rbind rmap]. exists (fold_left (fun g (e : nat * entry X) => store t (fst e) (snd e) g) l2' g'). split; [reflexivity|].
      destruct (fst_map_rmapM _ _ _ M) as [K2 A2]. destruct (fst_map_rmapM _ _ _ M') as [K2' A2'].
      destruct l' as [|e' l'].
      + rewrite (Z eq_refl) in M. cbn in M, M'. injection M as <-. injection M' as <-. exact N.
      + assert (l2' <> []) by (intros ->; discriminate).
        assert (l2 <> []). { intros ->. destruct l; [|discriminate]. specialize (Ag (fst e')). destruct e' as [k' x']. cbn [aget fst] in Ag. rewrite Nat.eqb_refl in Ag. destruct (nmem k' C); discriminate. }
        intros r Hr Kr. rewrite !fold_store_aset by assumption. destruct (ref_eqb t r) eqn:Q; [|now apply N].
        apply narrow_fold; [now rewrite K2|now rewrite K2'| | |now apply (narrows_streams req)].
        * intros c. specialize (A2 c). specialize (A2' c). rewrite Ag in A2'. destruct (nmem c C).
          -- destruct (aget Nat.eqb c l); [|congruence]. destruct A2 as (b & F & ->), A2' as (b' & F' & ->). congruence.
          -- exact A2'.
        * contradiction.
    - cbn [exec] in E |- *. unfold mentions in Hm. cbn [uses produces] in Hm.
      rewrite <- (narrow_calls g g' req args kwargs m (w_place w) N); [|intros r Hr; apply Hm; rewrite in_app_iff; now left|exact Hc].
      destruct (call_contexts s (w_place w) (w_user w) cs m args kwargs g) as [[l|e] u'] eqn:Ec; cbn [rmap] in E |- *; [|discriminate]. injection E as <- <-.
      eexists. split; [reflexivity|]. intros r Hr Kr. rewrite !rget_store_all. destruct (ref_eqb t r) eqn:Q; [|now apply N].
      assert (Dl : NoDup (map fst l)) by (rewrite (call_contexts_keys _ _ _ _ _ _ _ _ _ Ec); eauto).
      apply narrow_fold; try assumption; [|trivial|now apply (narrows_streams req)].
      intros c. destruct (nmem c C) eqn:Qc; [reflexivity|]. apply nget_none. rewrite (call_contexts_keys _ _ _ _ _ _ _ _ _ Ec). intros H. apply Hc, nmem_in in H. congruence.
    - cbn [exec] in E |- *. unfold mentions in Hm. cbn [uses produces] in Hm.
      assert (Eg : rmapM (fun c => gather s g' c args kwargs) (d_contexts d) = rmapM (fun c => gather s g c args kwargs) (d_contexts d)).
      { apply rmapM_ext_in. intros c H. symmetry. apply (narrow_gather g g' req); [exact N| |now apply Hc]. intros r Hr. apply Hm. rewrite in_app_iff. now left. }
      rewrite Eg. clear Eg. destruct (rmapM _ (d_contexts d)) as [bs|e]; [|discriminate]. destruct (optimize s (w_place w) (w_user w) (d_fn d) m bs) as [[[]|e] u']; cbn [rmap] in E |- *; [|discriminate].
      injection E as <- <-. eexists. split; [reflexivity|exact N].
  Qed.

  (** a dropped instruction *)
  Lemma dropped_step req i w g g' w' g1 o : pure -> plain_instr i -> is_optimize i = false -> existsb (fun r => rmem r req) (produces i) = false ->
    narrows req g g' -> exec s i w g = (w', Ok (g1, o)) -> w' = w /\ narrows req g1 g'.
  Proof.
    intros Pu Pl O Pr N E.
    assert (Keep : forall t g1, rmem t req = false -> (forall r, ref_eqb t r = false -> rget r g1 = rget r g) -> narrows req g1 g').
    { intros t g2 Ht H r Hr Kr. rewrite H; [now apply N|]. destruct (ref_eqb t r) eqn:Q; [|reflexivity]. exfalso. rewrite <- Ht in *. apply not_false_iff_true in Hr. apply Hr.
      apply ref_eqb_norm in Q. rewrite <- (rmem_norm r), <- Q, rmem_norm. exact Ht. }
    assert (Fs : forall t l g r, ref_eqb t r = false -> rget r (fold_left (fun g (e : nat * entry X) => store t (fst e) (snd e) g) l g) = rget r g).
    { clear. intros t l. induction l as [|e l IH]; intros g r Q; [reflexivity|]. cbn [fold_left]. rewrite IH by exact Q. now rewrite rget_store, Q. }
    destruct i as [t e cs|src t a|m args kwargs t cs|m args kwargs d|os|ts|sp m|d r]; cbn [exec] in E; try discriminate; try contradiction.
    - cbn [rmap] in E. injection E as <- <- _. split; [reflexivity|]. intros r Hr Kr.
      assert (F : forall cs g, rget r (fold_left (fun g c => store t c e g) cs g) = rget r g).
      { destruct t; try contradiction. destruct r; try discriminate; clear; induction cs as [|c cs IH]; intros g; try reflexivity; cbn [fold_left]; rewrite IH, rget_store; reflexivity. }
      rewrite F. now apply N.
    - cbn [produces existsb] in Pr. apply orb_false_iff in Pr. destruct Pr as [Pr _].
      destruct (items_for src g) as [l|]; cbn [rbind rmap] in E; [|discriminate]. destruct (rmapM _ l) as [l2|]; cbn [rbind rmap] in E; [|discriminate]. injection E as <- <- _.
      split; [reflexivity|]. apply (Keep t); [exact Pr|]. intros r Q. now apply Fs.
    - cbn [produces existsb] in Pr. apply orb_false_iff in Pr. destruct Pr as [Pr _].
      pose proof (pure_contexts (w_place w) m args kwargs g Pu cs (w_user w)) as Q.
      destruct (call_contexts s (w_place w) (w_user w) cs m args kwargs g) as [[l|e] u']; cbn [rmap snd] in E, Q; [|discriminate]. subst u'. rewrite world_eta in E. injection E as <- <- _.
      split; [reflexivity|]. apply (Keep t); [exact Pr|]. intros r Q. now rewrite rget_store_all, Q.
    - destruct (rmapM _ os) as [ls|]; cbn [rbind] in E; [|discriminate]. destruct (rmapM _ (by_context _ _)); cbn [rbind] in E; [|discriminate]. injection E as <- <- _. now split.
  Qed.

  Definition kept is := snd (fold_right retain ([], []) is).
  Definition required is := fst (fold_right retain ([], []) is).
  Lemma retain_cons i is : fold_right retain ([], []) (i :: is) = retain i (required is, kept is).
  Proof. cbn [fold_right]. unfold required, kept. now destruct (fold_right retain ([], []) is). Qed.
  Lemma kept_sub is i : In i (kept is) -> In i is.
  Proof.
    unfold kept. induction is as [|j is IH]; [intros []|]. rewrite retain_cons. unfold retain. destruct (is_optimize j || _); cbn [snd]; [intros [->|H]; [now left|right; now apply IH]|]. intros H. right. now apply IH.
  Qed.
  Lemma opt_only_sim is : forall w g g' w' g1 o, pure -> plain_program is -> (forall c i, In i (kept is) -> In c (contexts_of i) -> In c C) ->
    (forall m args kwargs t cs, In (CallModule m args kwargs t cs) is -> NoDup cs) ->
    narrows (required is) g g' -> run_instructions s is w g = (w', Ok (g1, o)) ->
    exists g1', run_instructions s (kept is) w g' = (w', Ok (g1', None)).
  Proof.
    induction is as [|i is IH]; intros w g g' w' g1 o Pu Pl Hc Nc N E.
    - injection E as <- _ _. exists g'. reflexivity.
    - assert (Pl' : plain_program is). { destruct Pl as [P1 P2]. split; [now apply returns_last_tail in P1|]. intros j Hj. apply P2. now right. }
      assert (Nc' : forall m args kwargs t cs, In (CallModule m args kwargs t cs) is -> NoDup cs) by (intros; eapply Nc; right; eassumption).
      unfold kept in Hc |- *. unfold required in N. rewrite retain_cons in *. unfold retain in *. cbn [run_instructions] in E.
      destruct (exec s i w g) as [w1 [[g2 o1]|e]] eqn:Ex; [|discriminate].
      destruct (is_optimize i || existsb (fun r => rmem r (required is)) (produces i)) eqn:Q; cbn [fst snd] in *.
      + assert (Kind : is_optimize i = true \/ produces i <> []).
        { apply orb_true_iff in Q. destruct Q as [Q|Q]; [now left|right]. intros H. rewrite H in Q. discriminate. }
        assert (o1 = None). { destruct o1 as [o1|]; [|reflexivity]. apply exec_output in Ex. destruct i; try destruct Ex. destruct Kind as [H|H]; [discriminate|exfalso; now apply H]. } subst o1.
        destruct (retained_step (uses i ++ required is) i w g g' w1 g2) as (g2' & Ex' & N'); [| | | | | |exact Ex|].
        * apply (proj2 Pl). now left.
        * exact Kind.
        * intros c H. apply (Hc c i); [now left|exact H].
        * intros r Hr. rewrite rmem_app. unfold mentions in Hr. rewrite in_app_iff in Hr. destruct Hr as [Hr|Hr]; [now rewrite (rmem_self r (uses i) Hr)|].
          apply orb_true_iff in Q. destruct Q as [Q|Q]; [destruct i; try discriminate; destruct Hr|]. apply existsb_exists in Q. destruct Q as (r' & H & R).
          assert (r' = r) as -> by (destruct i; cbn in Hr, H; intuition congruence). now rewrite R, orb_true_r.
        * intros m args kwargs t cs ->. eapply Nc. left. reflexivity.
        * exact N.
        * cbn [run_instructions]. rewrite Ex'. apply (IH w1 g2 g2' w' g1 o Pu Pl'); [|exact Nc'| |exact E].
          -- intros c j Hj H. apply (Hc c j); [now right|exact H].
          -- eapply narrows_sub; [|exact N']. intros r Hr. rewrite rmem_app, Hr. apply orb_true_r.
      + apply orb_false_iff in Q. destruct Q as [Qo Qp]. destruct (dropped_step (required is) i w g g' w1 g2 o1 Pu (proj2 Pl i (or_introl eq_refl)) Qo Qp N Ex) as [-> N'].
        destruct o1 as [o1|].
        * pose proof (exec_output _ _ _ _ _ _ _ Ex) as R. pose proof (proj1 Pl [] i is eq_refl R) as ->. injection E as <- _ _. exists g'. reflexivity.
        * apply (IH w g2 g' w' g1 o Pu Pl' Hc Nc' N' E).
  Qed.
End Opt.
