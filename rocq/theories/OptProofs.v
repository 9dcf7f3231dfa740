(** Proofs for C106. *)
From Coq Require Import String Permutation.
From Verif Require Import Prelude OpsModel OptModel OptSpec.
Local Open Scope nat_scope.
Local Open Scope list_scope.

Lemma lookup_app : forall k l f i, lookup_obj k (l ++ [(f, i)]) = match lookup_obj k l with Some j => Some j | None => if f =? k then Some i else None end.
Proof. induction l as [|[x j] l IH]; intros f i; cbn; [reflexivity|]. destruct (x =? k); [reflexivity | apply IH]. Qed.
Lemma lookup_set : forall {A} s k (a : A) l, lookup_name s (set_item k a l) = if String.eqb k s then Some a else lookup_name s l.
Proof.
  intros A s k a. induction l as [|[x b] l IH]; cbn; [reflexivity|]. destruct (String.eqb_spec x k) as [->|N]; cbn.
  - destruct (String.eqb k s); reflexivity.
  - rewrite IH. destruct (String.eqb_spec x s) as [->|]; [|reflexivity]. destruct (String.eqb_spec k s) as [->|]; [contradiction | reflexivity].
Qed.
Lemma append_at_nth : forall i e l j, nth_error (append_at i e l) j = if j =? i then match nth_error l j with Some es => Some (es ++ [e]) | None => None end else nth_error l j.
Proof.
  induction i as [|i IH]; intros e [|es l] [|j]; cbn; try reflexivity; [destruct (j =? i); reflexivity|]. apply IH.
Qed.
Lemma append_at_perm : forall i e l, i < length l -> Permutation (concat (append_at i e l)) (e :: concat l).
Proof.
  induction i as [|i IH]; intros e [|es l] L; cbn in *; try lia.
  - rewrite <- app_assoc. symmetry. apply Permutation_middle.
  - rewrite (IH e l) by lia. symmetry. apply Permutation_middle.
Qed.

Section Table.
  Variable import : string -> option nat.
  Variable resolve_dispatch fallback_names : bool.
  Notation append_operator := (append_operator import resolve_dispatch fallback_names).
  Notation register_aliases := (register_aliases import).
  Notation register_alias := (register_alias import).
  Notation among := (among import).
  Record wf (t : table) : Prop := {
    wf_range : forall k i, lookup_obj k (index t) = Some i -> exists es, nth_error (specs t) i = Some es /\ es <> [];
    wf_home : forall i es e, nth_error (specs t) i = Some es -> In e es -> exists f, import (e_fallback e) = Some f /\ lookup_obj f (index t) = Some i }.
  Lemma wf_empty : wf empty.
  Proof. split; cbn; [discriminate|]. intros [|i]; discriminate. Qed.

  (** *** Aliases *)
  Lemma register_any : forall l t i t' r, register_aliases t l i = (t', r) ->
    specs t' = specs t /\ (forall k j, lookup_obj k (index t) = Some j -> lookup_obj k (index t') = Some j) /\
    (forall k j, lookup_obj k (index t') = Some j -> lookup_obj k (index t) = Some j \/ (j = i /\ among l k)).
  Proof.
    induction l as [|a l IH]; intros t i t' r E; cbn [OptModel.register_aliases] in E.
    - injection E as <- <-. auto.
    - unfold OptModel.register_alias in E. destruct (import a) as [f|] eqn:A.
      + destruct (lookup_obj f (index t)) as [j|] eqn:L.
        * destruct (j =? i) eqn:J; [|injection E as <- <-; auto]. apply IH in E. cbn in E. destruct E as (E1 & E2 & E3). split; [exact E1|]. split; [exact E2|]. intros k j' H. destruct (E3 k j' H) as [H'|[H1 (b & Ib & Hb)]]; [auto|]. right. split; [exact H1|]. exists b. split; [right; exact Ib | exact Hb].
        * apply IH in E. cbn in E. destruct E as (E1 & E2 & E3). split; [exact E1|]. split.
          -- intros k j H. apply E2. rewrite lookup_app, H. reflexivity.
          -- intros k j H. destruct (E3 k j H) as [H'|[H1 (b & Ib & Hb)]]; [|right; split; [exact H1|]; exists b; split; [right; exact Ib | exact Hb]].
             rewrite lookup_app in H'. destruct (lookup_obj k (index t)); [auto|]. destruct (f =? k) eqn:F; [|discriminate]. injection H' as <-. apply Nat.eqb_eq in F. subst. right. split; [reflexivity|]. exists a. split; [left; reflexivity | exact A].
      + apply IH in E. destruct E as (E1 & E2 & E3). split; [exact E1|]. split; [exact E2|]. intros k j H. destruct (E3 k j H) as [H'|[H1 (b & Ib & Hb)]]; [auto|]. right. split; [exact H1|]. exists b. split; [right; exact Ib | exact Hb].
  Qed.
  Lemma register_ok : forall l t i t', register_aliases t l i = (t', Ok tt) ->
    (forall k, among l k -> lookup_obj k (index t') = Some i) /\
    (forall s, In s l -> forall k, import s = Some k -> lookup_name s (names t') = Some k) /\
    (forall s, ~ (In s l /\ import s <> None) -> lookup_name s (names t') = lookup_name s (names t)).
  Proof.
    induction l as [|a l IH]; intros t i t' E.
    - cbn in E. injection E as <-. split; [intros k (a & [] & _)|]. split; [intros s []|]. auto.
    - assert (X : forall t1, register_aliases t1 l i = (t', Ok tt) -> (forall k, import a = Some k -> lookup_obj k (index t1) = Some i /\ lookup_name a (names t1) = Some k) ->
        (forall s, s <> a \/ import a = None -> lookup_name s (names t1) = lookup_name s (names t)) ->
        (forall k, among (a :: l) k -> lookup_obj k (index t') = Some i) /\
        (forall s, In s (a :: l) -> forall k, import s = Some k -> lookup_name s (names t') = Some k) /\
        (forall s, ~ (In s (a :: l) /\ import s <> None) -> lookup_name s (names t') = lookup_name s (names t))).
      { intros t1 E1 H1 H2. destruct (IH t1 i t' E1) as (A1 & A2 & A3). destruct (register_any l t1 i t' (Ok tt) E1) as (_ & B2 & _). split; [|split].
        - intros k (b & [<-|Ib] & Hb); [|apply A1; exists b; auto]. apply B2. apply (H1 k Hb).
        - intros s Is k Hk. destruct (in_dec string_dec s l) as [I|N]; [apply A2; assumption|]. destruct Is as [<-|I]; [|contradiction]. rewrite A3 by tauto. apply (H1 k Hk).
        - intros s N. assert (N1 : ~ (In s l /\ import s <> None)) by (intros [I M]; apply N; split; [right; exact I | exact M]). rewrite (A3 s N1). apply H2.
          destruct (import a) eqn:A; [|right; reflexivity]. left. intros ->. apply N. split; [left; reflexivity | congruence]. }
      cbn [OptModel.register_aliases] in E. unfold OptModel.register_alias in E. destruct (import a) as [f|] eqn:A.
      + destruct (lookup_obj f (index t)) as [j|] eqn:L.
        * destruct (j =? i) eqn:J; [|discriminate]. apply Nat.eqb_eq in J. subst j. apply (X _ E).
          -- intros k Hk. injection Hk as <-. split; [exact L | cbn; rewrite lookup_set, String.eqb_refl; reflexivity].
          -- intros s [N|N]; [|discriminate]. cbn. rewrite lookup_set. destruct (String.eqb_spec a s); [congruence | reflexivity].
        * apply (X _ E).
          -- intros k Hk. injection Hk as <-. cbn. split; [rewrite lookup_app, L, Nat.eqb_refl; reflexivity | rewrite lookup_set, String.eqb_refl; reflexivity].
          -- intros s [N|N]; [|discriminate]. cbn. rewrite lookup_set. destruct (String.eqb_spec a s); [congruence | reflexivity].
      + apply (X _ E); [discriminate | auto].
  Qed.
  Lemma register_iff : forall l t i, snd (register_aliases t l i) = Ok tt <-> forall k, among l k -> lookup_obj k (index t) = None \/ lookup_obj k (index t) = Some i.
  Proof.
    induction l as [|a l IH]; intros t i; cbn [OptModel.register_aliases].
    - split; [intros _ k (b & [] & _) | reflexivity].
    - unfold OptModel.register_alias. destruct (import a) as [f|] eqn:A.
      + destruct (lookup_obj f (index t)) as [j|] eqn:L.
        * destruct (j =? i) eqn:J.
          -- apply Nat.eqb_eq in J. subst j. rewrite IH. cbn. split; intros H k (b & Ib & Hb); [destruct Ib as [<-|Ib]; [right; congruence | apply H; exists b; auto] | apply H; exists b; split; [right; exact Ib | exact Hb]].
          -- split; [discriminate|]. intros H. exfalso. apply Nat.eqb_neq in J. destruct (H f) as [H'|H']; [exists a; split; [left; reflexivity | exact A] | congruence | congruence].
        * rewrite IH. cbn. split; intros H k (b & Ib & Hb).
          -- destruct Ib as [<-|Ib]; [left; congruence|]. destruct (H k) as [H'|H']; [exists b; auto | |]; rewrite lookup_app in H'; destruct (lookup_obj k (index t)); auto.
          -- rewrite lookup_app. destruct (H k) as [H'|H']; [exists b; split; [right; exact Ib | exact Hb] | |]; rewrite H'; [destruct (f =? k); auto | auto].
      + rewrite IH. split; intros H k (b & Ib & Hb); [destruct Ib as [<-|Ib]; [congruence | apply H; exists b; auto] | apply H; exists b; split; [right; exact Ib | exact Hb]].
  Qed.

  (** *** Appending *)
  Definition complete (e : entry) : result entry :=
    match e_dispatch e with
    | None => if resolve_dispatch then match dispatch_op import (o_identifier (e_op e)) with Ok d => Ok (mkEntry (e_op e) (e_fallback e) (Some d)) | Err x => Err x end else Ok e
    | Some _ => Ok e end.
  Lemma complete_spec : forall e e', complete e = Ok e' -> completes import resolve_dispatch e e'.
  Proof.
    intros e e' E. unfold complete, dispatch_op in E. unfold completes, function_name. destruct (e_dispatch e) as [d|] eqn:D; [injection E as <-; auto|].
    destruct resolve_dispatch; [|injection E as <-; auto]. destruct (import _) as [d|] eqn:I; [|discriminate]. injection E as <-. cbn. eauto.
  Qed.
  (** The table with the operator, before the aliases. *)
  Definition placed (t : table) (f : nat) (e' : entry) : table :=
    match lookup_obj f (index t) with
    | Some i => mkTable (append_at i e' (specs t)) (index t) (names t)
    | None => mkTable (specs t ++ [[e']]) (index t ++ [(f, length (specs t))]) (if fallback_names then set_item (e_fallback e') f (names t) else names t)
    end.
  Definition place (t : table) (f : nat) : nat := match lookup_obj f (index t) with Some i => i | None => length (specs t) end.
  Lemma append_is : forall t e aliases, append_operator t e aliases =
    match import (e_fallback e) with None => (t, Err OSError) | Some f => match complete e with Err x => (t, Err x) | Ok e' => register_aliases (placed t f e') aliases (place t f) end end.
  Proof.
    intros t e aliases. unfold OptModel.append_operator, placed, place. fold (complete e). destruct (import (e_fallback e)) as [f|]; [|reflexivity]. destruct (complete e); [|reflexivity]. destruct (lookup_obj f (index t)); reflexivity.
  Qed.
  Lemma placed_index : forall t f e', lookup_obj f (index (placed t f e')) = Some (place t f).
  Proof. intros t f e'. unfold placed, place. destruct (lookup_obj f (index t)) eqn:L; cbn; [exact L|]. rewrite lookup_app, L, Nat.eqb_refl. reflexivity. Qed.
  Lemma placed_other : forall t f e' k, k <> f -> lookup_obj k (index (placed t f e')) = lookup_obj k (index t).
  Proof. intros t f e' k N. unfold placed. destruct (lookup_obj f (index t)) eqn:L; cbn; [reflexivity|]. rewrite lookup_app. destruct (lookup_obj k (index t)); [reflexivity|]. destruct (f =? k) eqn:F; [apply Nat.eqb_eq in F; congruence | reflexivity]. Qed.
  Lemma placed_specs : forall t f e' j, wf t -> nth_error (specs (placed t f e')) j = if j =? place t f then Some (match nth_error (specs t) j with Some es => es ++ [e'] | None => [e'] end) else nth_error (specs t) j.
  Proof.
    intros t f e' j W. unfold placed, place. destruct (lookup_obj f (index t)) as [i|] eqn:L; cbn [specs].
    - rewrite append_at_nth. destruct (j =? i) eqn:J; [|reflexivity]. apply Nat.eqb_eq in J. subst j. destruct (wf_range t W f i L) as (es & E & _). rewrite E. reflexivity.
    - destruct (j =? length (specs t)) eqn:J.
      + apply Nat.eqb_eq in J. subst j. rewrite nth_error_app2, Nat.sub_diag by lia. rewrite (proj2 (nth_error_None (specs t) (length (specs t)))) by lia. reflexivity.
      + apply Nat.eqb_neq in J. destruct (Nat.lt_ge_cases j (length (specs t))) as [Lt|Ge]; [apply nth_error_app1, Lt|]. rewrite (proj2 (nth_error_None (specs t) j)) by lia. apply nth_error_None. rewrite app_length. cbn. lia.
  Qed.
  Lemma place_empty : forall t f, wf t -> lookup_obj f (index t) = None -> nth_error (specs t) (place t f) = None.
  Proof. intros t f W L. unfold place. rewrite L. apply nth_error_None. lia. Qed.
  Lemma placed_keeps : forall t f e' k j, lookup_obj k (index t) = Some j -> lookup_obj k (index (placed t f e')) = Some j.
  Proof.
    intros t f e' k j H. destruct (Nat.eq_dec k f) as [->|N]; [rewrite placed_index; unfold place; rewrite H; reflexivity | rewrite placed_other by exact N; exact H].
  Qed.
  Lemma wf_placed : forall t f e', wf t -> import (e_fallback e') = Some f -> wf (placed t f e').
  Proof.
    intros t f e' W F. split.
    - intros k i H. rewrite placed_specs by exact W. destruct (i =? place t f) eqn:I.
      + eexists. split; [reflexivity|]. destruct (nth_error (specs t) i) as [es|]; [destruct es; discriminate | discriminate].
      + destruct (Nat.eq_dec k f) as [->|N]; [rewrite placed_index in H; injection H as <-; rewrite Nat.eqb_refl in I; discriminate|]. rewrite placed_other in H by exact N. apply (wf_range t W k i H).
    - intros i es e E Ie. rewrite placed_specs in E by exact W. destruct (i =? place t f) eqn:I.
      + apply Nat.eqb_eq in I. subst i. destruct (nth_error (specs t) (place t f)) as [es'|] eqn:N; injection E as <-.
        * apply in_app_or in Ie. destruct Ie as [Ie|[<-|[]]]; [|exists f; split; [exact F | apply placed_index]]. destruct (wf_home t W _ _ _ N Ie) as (f' & F' & L). exists f'. split; [exact F'|]. apply placed_keeps, L.
        * destruct Ie as [<-|[]]. exists f. split; [exact F | apply placed_index].
      + destruct (wf_home t W _ _ _ E Ie) as (f' & F' & L). exists f'. split; [exact F'|]. apply placed_keeps, L.
  Qed.
  Lemma wf_register : forall t l i t' r, wf t -> (exists es, nth_error (specs t) i = Some es /\ es <> []) -> register_aliases t l i = (t', r) -> wf t'.
  Proof.
    intros t l i t' r W Hi E. destruct (register_any l t i t' r E) as (E1 & E2 & E3). split.
    - intros k j H. rewrite E1. destruct (E3 k j H) as [H'|[-> _]]; [apply (wf_range t W k j H') | exact Hi].
    - intros j es e N Ie. rewrite E1 in N. destruct (wf_home t W _ _ _ N Ie) as (f & F & L). exists f. split; [exact F | apply E2, L].
  Qed.
  Lemma complete_fallback : forall e e', complete e = Ok e' -> e_fallback e' = e_fallback e.
  Proof. intros e e' H. apply complete_spec in H. apply H. Qed.
  Lemma wf_append : forall t e aliases, wf t -> wf (fst (append_operator t e aliases)).
  Proof.
    intros t e aliases W. rewrite append_is. destruct (import (e_fallback e)) as [f|] eqn:F; [|exact W]. destruct (complete e) as [e'|] eqn:C; [|exact W].
    destruct (register_aliases (placed t f e') aliases (place t f)) as [t' r] eqn:R. cbn.
    assert (W' : wf (placed t f e')) by (apply wf_placed; [exact W | rewrite (complete_fallback _ _ C); exact F]).
    apply (wf_register _ _ _ _ _ W' (wf_range _ W' f _ (placed_index t f e')) R).
  Qed.
  Lemma wf_history : forall l, wf (history import resolve_dispatch fallback_names l).
  Proof.
    intros l. unfold history. assert (X : forall t, wf t -> wf (fold_left (fun t a => fst (do import resolve_dispatch fallback_names t a)) l t)).
    { induction l as [|a l IH]; intros t W; cbn; [exact W|]. apply IH. destruct a as [e al|alias k]; cbn; [apply wf_append, W|]. unfold add_alias. destruct (match k with KObj f => Ok f | KName s => resolve_alias t s end); cbn; [|exact W]. destruct W as [W1 W2]. split; [exact W1 | exact W2]. }
    apply X, wf_empty.
  Qed.

  (** *** Lookup *)
  Lemma get_obj : forall t k, wf t -> get t (KObj k) = match lookup_obj k (index t) with None => Err KeyError | Some i => match nth_error (specs t) i with Some es => Ok (rev es) | None => Err IndexError end end.
  Proof. reflexivity. Qed.
  Lemma get_name : forall t s, get t (KName s) = match resolve_alias t s with Ok f => get t (KObj f) | Err e => Err e end.
  Proof. intros t s. unfold get. destruct (resolve_alias t s); reflexivity. Qed.
  Lemma get_some : forall t k i, wf t -> lookup_obj k (index t) = Some i -> exists es, nth_error (specs t) i = Some es /\ es <> [] /\ get t (KObj k) = Ok (rev es).
  Proof. intros t k i W L. destruct (wf_range t W k i L) as (es & E & N). exists es. split; [exact E|]. split; [exact N|]. unfold get. rewrite L, E. reflexivity. Qed.
  Lemma get_none : forall t k, lookup_obj k (index t) = None -> get t (KObj k) = Err KeyError.
  Proof. intros t k L. unfold get. rewrite L. reflexivity. Qed.
  Lemma same_group : forall t k f l, wf t -> get t (KObj k) = Ok l -> get t (KObj f) = Ok l -> exists i, lookup_obj k (index t) = Some i /\ lookup_obj f (index t) = Some i.
  Proof.
    intros t k f l W Hk Hf. destruct (lookup_obj k (index t)) as [i|] eqn:Lk; [|rewrite (get_none _ _ Lk) in Hk; discriminate]. destruct (lookup_obj f (index t)) as [j|] eqn:Lf; [|rewrite (get_none _ _ Lf) in Hf; discriminate].
    destruct (get_some t k i W Lk) as (es & E & N & G). destruct (get_some t f j W Lf) as (es' & E' & N' & G'). rewrite G in Hk. rewrite G' in Hf. injection Hk as <-. injection Hf as R. apply (f_equal (@rev entry)) in R. rewrite !rev_involutive in R. subst es'.
    destruct es as [|e es]; [contradiction|]. destruct (wf_home t W i _ e E (or_introl eq_refl)) as (x & Fx & Lx). destruct (wf_home t W j _ e E' (or_introl eq_refl)) as (y & Fy & Ly). rewrite Fx in Fy. injection Fy as <-. rewrite Lx in Ly. injection Ly as <-. eauto.
  Qed.
  Lemma shares_iff : forall t k f, wf t -> (shares t k f <-> exists i, lookup_obj k (index t) = Some i /\ lookup_obj f (index t) = Some i).
  Proof.
    intros t k f W. split; [intros (l & Hk & Hf); apply (same_group t k f l W Hk Hf)|]. intros (i & Lk & Lf). destruct (get_some t k i W Lk) as (es & E & _ & G). exists (rev es). split; [exact G|]. unfold get. rewrite Lf, E. reflexivity.
  Qed.
  Lemma get_placed : forall t f e', wf t -> import (e_fallback e') = Some f ->
    nth_error (specs (placed t f e')) (place t f) = Some (rev (e' :: found (get t (KObj f)))).
  Proof.
    intros t f e' W F. rewrite placed_specs, Nat.eqb_refl by exact W. destruct (lookup_obj f (index t)) as [i|] eqn:L.
    - destruct (get_some t f i W L) as (es & E & _ & G). rewrite G. unfold place. rewrite L, E. cbn. rewrite rev_involutive. reflexivity.
    - rewrite (place_empty t f W L), (get_none _ _ L). reflexivity.
  Qed.
  Lemma append_get : forall t e aliases t', wf t -> append_operator t e aliases = (t', Ok tt) ->
    exists f e', import (e_fallback e) = Some f /\ completes import resolve_dispatch e e' /\
      (forall k, k = f \/ among aliases k \/ shares t k f -> get t' (KObj k) = Ok (e' :: found (get t (KObj f)))) /\
      (forall k, ~ (k = f \/ among aliases k \/ shares t k f) -> get t' (KObj k) = get t (KObj k)).
  Proof.
    intros t e aliases t' W E. rewrite append_is in E. destruct (import (e_fallback e)) as [f|] eqn:F; [|discriminate]. destruct (complete e) as [e'|] eqn:C; [|discriminate].
    exists f, e'. split; [reflexivity|]. split; [apply complete_spec, C|].
    assert (F' : import (e_fallback e') = Some f) by (rewrite (complete_fallback _ _ C); exact F).
    destruct (register_any _ _ _ _ _ E) as (S1 & S2 & S3). destruct (register_ok _ _ _ _ E) as (R1 & _).
    assert (G : forall k, lookup_obj k (index t') = Some (place t f) -> get t' (KObj k) = Ok (e' :: found (get t (KObj f)))).
    { intros k L. unfold get. rewrite L, S1, (get_placed t f e' W F'), rev_involutive. reflexivity. }
    split.
    - intros k H. apply G. destruct H as [->|[H|H]]; [apply S2, placed_index | apply R1, H|]. apply (shares_iff t k f W) in H. destruct H as (i & Lk & Lf). apply S2, placed_keeps. unfold place. rewrite Lf. exact Lk.
    - intros k N. destruct (lookup_obj k (index t)) as [j|] eqn:L.
      + assert (J : j <> place t f). { intros ->. apply N. unfold place in L. destruct (lookup_obj f (index t)) as [i|] eqn:Lf; [right; right; apply shares_iff; [exact W|]; exists i; auto|]. destruct (wf_range t W _ _ L) as (es & X & _). apply (proj2 (nth_error_None (specs t) (length (specs t)))) in X || (rewrite (proj2 (nth_error_None _ _)) in X; [discriminate | lia]). }
        unfold get. rewrite (S2 k j (placed_keeps t f e' k j L)), L, S1, placed_specs by exact W. apply Nat.eqb_neq in J. rewrite J. reflexivity.
      + rewrite (get_none _ _ L). apply get_none. destruct (lookup_obj k (index t')) as [j|] eqn:L'; [|reflexivity]. exfalso. destruct (S3 k j L') as [X|[_ X]]; [|apply N; auto]. rewrite placed_other in X; [congruence|]. intros ->. apply N. auto.
  Qed.
  Lemma append_names : forall t e aliases t' f, wf t -> append_operator t e aliases = (t', Ok tt) -> import (e_fallback e) = Some f ->
    (forall a k, In a aliases -> import a = Some k -> resolve_alias t' a = Ok k) /\
    (fallback_names = true -> get t (KObj f) = Err KeyError -> ~ In (e_fallback e) aliases -> resolve_alias t' (e_fallback e) = Ok f) /\
    (forall s, ~ (In s aliases /\ import s <> None) -> ~ (s = e_fallback e /\ fallback_names = true /\ get t (KObj f) = Err KeyError) -> resolve_alias t' s = resolve_alias t s).
  Proof.
    intros t e aliases t' f W E F. rewrite append_is, F in E. destruct (complete e) as [e'|] eqn:C; [|discriminate]. destruct (register_ok _ _ _ _ E) as (_ & R2 & R3). unfold resolve_alias.
    assert (K : lookup_obj f (index t) = None <-> get t (KObj f) = Err KeyError). { split; [apply get_none|]. intros H. destruct (lookup_obj f (index t)) as [i|] eqn:L; [|reflexivity]. destruct (get_some t f i W L) as (es & _ & _ & G). congruence. }
    split; [intros a k Ia Ha; rewrite (R2 a Ia k Ha); reflexivity|]. split.
    - intros B G N. rewrite R3 by tauto. unfold placed. rewrite (proj2 K G). cbn. rewrite B, lookup_set, (complete_fallback _ _ C), String.eqb_refl. reflexivity.
    - intros s N1 N2. rewrite (R3 s N1). unfold placed. destruct (lookup_obj f (index t)) eqn:L; [reflexivity|]. cbn. destruct fallback_names; [|reflexivity]. rewrite lookup_set, (complete_fallback _ _ C). destruct (String.eqb_spec (e_fallback e) s) as [<-|]; [|reflexivity]. exfalso. apply N2. split; [reflexivity|]. split; [reflexivity | apply K; reflexivity].
  Qed.
  Lemma append_succeeds : forall t e aliases, wf t -> (snd (append_operator t e aliases) = Ok tt <-> exists f e', import (e_fallback e) = Some f /\ completes import resolve_dispatch e e' /\ forall k, among aliases k -> k = f \/ get t (KObj k) = Err KeyError \/ shares t k f).
  Proof.
    intros t e aliases W. rewrite append_is. destruct (import (e_fallback e)) as [f|] eqn:F; [|split; [discriminate | intros (f & e' & X & _); discriminate]].
    destruct (complete e) as [e'|] eqn:C.
    - rewrite register_iff. split.
      + intros H. exists f, e'. split; [reflexivity|]. split; [apply complete_spec, C|]. intros k A. destruct (Nat.eq_dec k f) as [->|N]; [auto|]. right. destruct (H k A) as [L|L]; rewrite placed_other in L by exact N; [left; apply get_none, L|].
        unfold place in L. destruct (lookup_obj f (index t)) as [i|] eqn:Lf; [right; apply shares_iff; [exact W|]; exists i; auto|]. destruct (wf_range t W _ _ L) as (es & X & _). rewrite (proj2 (nth_error_None _ _)) in X; [discriminate | lia].
      + intros (f' & e'' & X & _ & H) k A. injection X as <-. destruct (H k A) as [->|[G|S]]; [right; apply placed_index | |].
        * destruct (Nat.eq_dec k f) as [->|N]; [right; apply placed_index|]. left. rewrite placed_other by exact N. destruct (lookup_obj k (index t)) as [i|] eqn:L; [|reflexivity]. destruct (get_some t k i W L) as (es & _ & _ & G'). congruence.
        * apply (shares_iff t k f W) in S. destruct S as (i & Lk & Lf). right. unfold place. rewrite Lf. apply placed_keeps, Lk.
    - cbn. split; [discriminate|]. intros (f' & e' & _ & (_ & _ & X) & _). exfalso. unfold complete, dispatch_op in C. unfold function_name in X. destruct (e_dispatch e); [discriminate|]. destruct resolve_dispatch; [|discriminate]. destruct X as (d & X & _). rewrite X in C. discriminate.
  Qed.
  Lemma append_operators : forall t e aliases t' r, wf t -> append_operator t e aliases = (t', r) ->
    (t' = t /\ exists x, r = Err x) \/ exists e', completes import resolve_dispatch e e' /\ Permutation (operators t') (e' :: operators t).
  Proof.
    intros t e aliases t' r W E. rewrite append_is in E. destruct (import (e_fallback e)) as [f|] eqn:F; [|injection E as <- <-; eauto]. destruct (complete e) as [e'|] eqn:C; [|injection E as <- <-; eauto].
    right. exists e'. split; [apply complete_spec, C|]. destruct (register_any _ _ _ _ _ E) as (S1 & _). unfold operators. rewrite S1. unfold placed. destruct (lookup_obj f (index t)) as [i|] eqn:L; cbn [specs].
    - apply append_at_perm. destruct (wf_range t W f i L) as (es & X & _). apply nth_error_Some. congruence.
    - rewrite concat_app. cbn. symmetry. apply Permutation_cons_append.
  Qed.
  Lemma operators_found : forall t e, wf t -> (In e (operators t) <-> exists f l, import (e_fallback e) = Some f /\ get t (KObj f) = Ok l /\ In e l).
  Proof.
    intros t e W. unfold operators. rewrite in_concat. split.
    - intros (es & I & Ie). apply In_nth_error in I. destruct I as [i N]. destruct (wf_home t W i es e N Ie) as (f & F & L). exists f, (rev es). split; [exact F|]. split; [unfold get; rewrite L, N; reflexivity | apply -> in_rev; exact Ie].
    - intros (f & l & _ & G & I). destruct (lookup_obj f (index t)) as [i|] eqn:L; [|rewrite (get_none _ _ L) in G; discriminate]. destruct (get_some t f i W L) as (es & N & _ & G'). rewrite G' in G. injection G as <-. exists es. split; [apply (nth_error_In _ _ N) | apply in_rev, I].
  Qed.
  Lemma get_errors : forall t k, wf t -> (exists e l, get t k = Ok (e :: l)) \/ get t k = Err KeyError.
  Proof.
    intros t k W. assert (X : forall f, (exists e l, get t (KObj f) = Ok (e :: l)) \/ get t (KObj f) = Err KeyError).
    { intros f. destruct (lookup_obj f (index t)) as [i|] eqn:L; [|right; apply get_none, L]. left. destruct (get_some t f i W L) as (es & _ & N & G). destruct (rev es) as [|e l] eqn:R; [exfalso; apply N; rewrite <- (rev_involutive es), R; reflexivity|]. exists e, l. rewrite G. reflexivity. }
    destruct k as [f|s]; [apply X|]. rewrite get_name. unfold resolve_alias. destruct (lookup_name s (names t)); [apply X | right; reflexivity].
  Qed.

  (** *** Files *)
  Notation add := (add import resolve_dispatch fallback_names).
  Notation load := (load import resolve_dispatch fallback_names).
  Lemma add_is : forall t s fb al, add t s fb DNone al = match from_spec s with Err e => (t, Err e) | Ok o => append_operator t (mkEntry o fb None) al end.
  Proof. reflexivity. Qed.
  Lemma load_ok : forall rows t n t', wf t -> load t rows n = Ok t' -> n = 0 /\ wf t' /\ incl (operators t) (operators t') /\
    Forall (fun row => exists o e', from_spec (fst (fst row)) = Ok o /\ completes import resolve_dispatch (mkEntry o (snd (fst row)) None) e' /\ In e' (operators t')) rows.
  Proof.
    induction rows as [|[[s fb] al] rows IH]; intros t n t' W E; cbn [OptModel.load] in E.
    - destruct (Nat.eqb_spec n 0) as [->|]; [|discriminate]. injection E as <-. split; [reflexivity|]. split; [exact W|]. split; [apply incl_refl | constructor].
    - rewrite add_is in E. destruct (from_spec s) as [o|x] eqn:S.
      + destruct (append_operator t (mkEntry o fb None) al) as [t1 r] eqn:A. pose proof (wf_append t (mkEntry o fb None) al W) as W1. rewrite A in W1. cbn in W1.
        destruct r as [[]|x].
        * destruct (IH t1 n t' W1 E) as (-> & W' & I' & R). destruct (append_operators t _ al t1 (Ok tt) W A) as [(_ & x & X)|(e' & C & P)]; [discriminate|]. split; [reflexivity|]. split; [exact W'|]. split.
          -- intros y Iy. apply I'. apply (Permutation_in _ (Permutation_sym P)). right. exact Iy.
          -- constructor; [|exact R]. exists o, e'. split; [exact S|]. split; [exact C|]. apply I'. apply (Permutation_in _ (Permutation_sym P)). left. reflexivity.
        * destruct x; try discriminate E. destruct (IH t1 (Datatypes.S n) t' W1 E) as (X & _). discriminate X.
      + destruct x; try discriminate E. destruct (IH t (Datatypes.S n) t' W E) as (X & _). discriminate X.
  Qed.
  Definition row_found (t : table) (row : spec * string * list string) : Prop := exists o f d,
    from_spec (fst (fst row)) = Ok o /\ import (snd (fst row)) = Some f /\ import (function_name o) = Some d /\
    (forall k, among (row_names row) k -> get t (KObj k) = Ok [mkEntry o (snd (fst row)) (Some d)]) /\
    (forall a k, In a (snd row) -> import a = Some k -> resolve_alias t a = Ok k) /\
    (fallback_names = true -> resolve_alias t (snd (fst row)) = Ok f).
  Lemma load_all : resolve_dispatch = true -> forall rows t prev, wf t ->
    (forall k j, lookup_obj k (index t) = Some j -> exists row, In row prev /\ among (row_names row) k) -> Forall (row_found t) prev ->
    Forall (fun row => exists o f d, from_spec (fst (fst row)) = Ok o /\ import (snd (fst row)) = Some f /\ import (function_name o) = Some d) rows ->
    (forall i j a b k, i <> j -> nth_error (prev ++ rows) i = Some a -> nth_error (prev ++ rows) j = Some b -> among (row_names a) k -> among (row_names b) k -> False) ->
    exists t', load t rows 0 = Ok t' /\ Forall (row_found t') (prev ++ rows).
  Proof.
    intros RD. induction rows as [|row rows IH]; intros t prev W K P R D.
    - rewrite app_nil_r. exists t. split; [reflexivity | exact P].
    - destruct (Forall_inv R) as (o & f & d & S & F & X). pose proof (Forall_inv_tail R) as R'. destruct row as [[s fb] al]. cbn [fst snd] in S, F.
      assert (Ap : forall a k, In a prev -> among (row_names a) k -> among (row_names (s, fb, al)) k -> False).
      { intros a k Ia Ha Hb. apply In_nth_error in Ia. destruct Ia as [i N]. assert (L : i < length prev) by (apply nth_error_Some; congruence). apply (D i (length prev) a (s, fb, al) k); [lia | rewrite nth_error_app1 by exact L; exact N | rewrite nth_error_app2, Nat.sub_diag by lia; reflexivity | exact Ha | exact Hb]. }
      assert (Nw : forall k, among (row_names (s, fb, al)) k -> get t (KObj k) = Err KeyError).
      { intros k Hk. apply get_none. destruct (lookup_obj k (index t)) as [j|] eqn:L; [|reflexivity]. exfalso. destruct (K k j L) as (a & Ia & Ha). apply (Ap a k Ia Ha Hk). }
      assert (Af : among (row_names (s, fb, al)) f) by (exists fb; split; [left; reflexivity | exact F]).
      assert (Aal : forall k, among al k -> among (row_names (s, fb, al)) k) by (intros k (b & Ib & Hb); exists b; split; [right; exact Ib | exact Hb]).
      assert (Su : snd (append_operator t (mkEntry o fb None) al) = Ok tt).
      { apply append_succeeds; [exact W|]. exists f, (mkEntry o fb (Some d)). split; [exact F|]. split; [split; [reflexivity|]; split; [reflexivity|]; cbn; rewrite RD; eauto|]. intros k Hk. right. left. apply Nw, Aal, Hk. }
      destruct (append_operator t (mkEntry o fb None) al) as [t1 r] eqn:A. cbn in Su. subst r.
      pose proof (wf_append t (mkEntry o fb None) al W) as W1. rewrite A in W1. cbn in W1.
      destruct (append_get t _ al t1 W A) as (f' & e' & F' & C & G1 & G2). cbn in F'. rewrite F in F'. injection F' as <-.
      destruct (append_names t _ al t1 f W A F) as (N1 & N2 & N3). cbn [e_fallback] in N2, N3.
      assert (E' : e' = mkEntry o fb (Some d)). { destruct C as (C1 & C2 & C3). cbn [e_op e_fallback e_dispatch] in C1, C2, C3. rewrite RD in C3. destruct C3 as (d' & X' & C3). rewrite X in X'. injection X' as <-. destruct e' as [x1 x2 x3]; cbn [e_op e_fallback e_dispatch] in *; rewrite C1, C2, C3; reflexivity. }
      rewrite (Nw f Af) in G1. cbn [found] in G1.
      assert (Ns : forall k, ~ shares t k f) by (intros k (l & _ & H); rewrite (Nw f Af) in H; discriminate H).
      assert (Rw : row_found t1 (s, fb, al)).
      { exists o, f, d. cbn [fst snd]. split; [exact S|]. split; [exact F|]. split; [exact X|]. split; [|split].
        - intros k (b & [<-|Ib] & Hb); [cbn [fst snd] in Hb; rewrite F in Hb; injection Hb as <-; apply (eq_trans (G1 f (or_introl eq_refl))); subst e'; reflexivity|]. apply (eq_trans (G1 k (or_intror (or_introl (ex_intro _ b (conj Ib Hb)))))). subst e'. reflexivity.
        - exact N1.
        - intros B. destruct (in_dec string_dec fb al) as [I|I]; [apply N1; assumption | apply N2; [exact B | apply Nw, Af | exact I]]. }
      assert (Pr : Forall (row_found t1) (prev ++ [(s, fb, al)])).
      { apply Forall_app. split; [|constructor; [exact Rw | constructor]]. rewrite Forall_forall in *. intros a Ia. destruct (P a Ia) as (oa & fa & da & Sa & Fa & Xa & Ga & Na & Ba). exists oa, fa, da. split; [exact Sa|]. split; [exact Fa|]. split; [exact Xa|].
        assert (Fr : forall k, among (row_names a) k -> ~ (k = f \/ among al k \/ shares t k f)). { intros k Hk [->|[H|H]]; [apply (Ap a f Ia Hk Af) | apply (Ap a k Ia Hk (Aal k H)) | apply (Ns k H)]. }
        split; [|split].
        - intros k Hk. rewrite (G2 k (Fr k Hk)). apply Ga, Hk.
        - intros b k Ib Hb. assert (Hk : among (row_names a) k) by (exists b; split; [right; exact Ib | exact Hb]). rewrite N3; [apply Na; assumption | |].
          + intros [I _]. apply (Fr k Hk). right. left. exists b. auto.
          + intros (-> & _). apply (Fr k Hk). left. congruence.
        - intros B. assert (Hk : among (row_names a) fa) by (exists (snd (fst a)); split; [left; reflexivity | exact Fa]). rewrite N3; [apply Ba, B | |].
          + intros [I _]. apply (Fr fa Hk). right. left. exists (snd (fst a)). auto.
          + intros (E & _). apply (Fr fa Hk). left. congruence. }
      destruct (IH t1 (prev ++ [(s, fb, al)]) W1) as (t' & L' & P').
      + intros k j L. assert (Q : lookup_obj k (index t) = Some j \/ among (row_names (s, fb, al)) k).
        { rewrite append_is in A. cbn [e_fallback] in A. rewrite F in A. destruct (complete (mkEntry o fb None)) as [e2|]; [|discriminate]. destruct (register_any _ _ _ _ _ A) as (_ & _ & T3). destruct (T3 k j L) as [H|[_ H]]; [|right; apply Aal, H].
          destruct (Nat.eq_dec k f) as [->|N]; [right; exact Af|]. rewrite placed_other in H by exact N. auto. }
        destruct Q as [Q|Q]; [destruct (K k j Q) as (a & Ia & Ha); exists a; split; [apply in_or_app; auto | exact Ha]|]. exists (s, fb, al). split; [apply in_or_app; right; left; reflexivity | exact Q].
      + exact Pr.
      + exact R'.
      + rewrite <- app_assoc. exact D.
      + exists t'. split; [|rewrite <- app_assoc in P'; exact P']. cbn [OptModel.load]. rewrite add_is, S, A. exact L'.
  Qed.
End Table.
