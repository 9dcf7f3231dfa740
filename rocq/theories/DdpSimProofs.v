(** Sharing of repeated quantizer calls keeps the meaning of a block. *)
From Coq Require Import List Arith Bool Lia Permutation Sorted.
From Verif Require Import Prelude DdpModel DdpSpec DdpProofs.
Import ListNotations.

Lemma occurrences_like l : forall l' i, map own_calls l' = map own_calls l -> occurrences i l' = occurrences i l.
Proof.
  induction l as [|s l IH]; intros [|s' l'] i E; try discriminate; [reflexivity|].
  cbn [map] in E. injection E as E1 E2. cbn [occurrences]. rewrite !stmt_calls_eq, E1, (IH l' (S i) E2). reflexivity.
Qed.

Lemma repeated_like l l' : map own_calls l' = map own_calls l -> repeated l' = repeated l.
Proof. intros E. unfold repeated. rewrite (occurrences_like l l' 0 E). reflexivity. Qed.

Lemma new_at i es :
  map snd (filter (fun p => fst p =? i) (map new_stmt es))
  = map snd (map new_stmt (filter (fun e => snd (fst e) =? i) es)).
Proof.
  induction es as [|[[[q a] j] n] es IH]; cbn; [reflexivity|].
  destruct (j =? i); cbn; rewrite IH; reflexivity.
Qed.

Lemma filter_snd_nodup (f : entry -> bool) l : NoDup (map snd l) -> NoDup (map snd (filter f l)).
Proof.
  induction l as [|p l IH]; cbn; [constructor|].
  intros H. inversion H as [|? ? N Hr]; subst. destruct (f p); cbn; [|auto]. constructor; [|auto].
  intros I. apply N. apply in_map_iff in I. destruct I as (q & E & I). apply filter_In in I.
  rewrite <- E. apply in_map. tauto.
Qed.

Lemma nodup_snd_inj (A : list entry) a b : NoDup (map snd A) -> In a A -> In b A -> snd a = snd b -> a = b.
Proof.
  induction A as [|c A IH]; cbn; [tauto|]. intros N Ia Ib E. inversion N as [|? ? Nc NA]; subst.
  destruct Ia as [<-|Ia], Ib as [<-|Ib]; auto.
  - exfalso. apply Nc. rewrite E. apply in_map. exact Ib.
  - exfalso. apply Nc. rewrite <- E. apply in_map. exact Ia.
Qed.

Section Sim.
Variable w : world.
Variables (l l2 : list stmt) (es : list entry).
Hypothesis Hlike : Forall2 (like_stmt w) l l2.
Hypothesis Hes : good_entries l2 es.
Hypothesis Hua : forall s x, In s l -> In x (assigned s) -> user_name x.
Hypothesis Hue : forall s e x, In s l -> In e (own_exprs s) -> In x (vars e) -> user_name x.
Hypothesis Hstrict : forall s, In s l ->
  unconditional (main_expr s) /\ (forall e, In e (own_tests s) -> calls_in e = []).
Hypothesis Hstable : forall pre s1 mid s2 post c x,
  l = pre ++ s1 :: mid ++ s2 :: post ->
  In c (own_calls s1) -> In c (own_calls s2) -> In x (vars (snd c)) ->
  ~ In x (flat_map assigned (s1 :: mid)).

Notation env := (env w).
Notation eval := (eval w).

Lemma entries_repeated k i n : In (k, i, n) es -> In (k, i) (repeated l).
Proof.
  intros I. rewrite <- (repeated_like l l2 (like_own_calls w l l2 Hlike)). destruct Hes as (M & _ & _).
  rewrite <- M. apply (in_map fst _ _ I).
Qed.

Lemma entry_at_first k i n s : In (k, i, n) es -> nth_error l i = Some s -> In k (own_calls s).
Proof.
  intros I E. destruct (proj1 (repeated_first _ _ _ (entries_repeated _ _ _ I))) as (s' & E' & J).
  rewrite E in E'. injection E' as <-. exact J.
Qed.

Lemma call_vars e : forall k x, In k (calls_in e) -> In x (vars (snd k)) -> In x (vars e).
Proof.
  induction e as [y|f a IHa b IHb|q a IHa|a IHa c IHc b IHb]; cbn; intros k x I J;
    rewrite ?in_app_iff in *; [tauto| | |]; intuition eauto.
  subst. exact J.
Qed.

Lemma own_call_user s k x : In s l -> In k (own_calls s) -> In x (vars (snd k)) -> user_name x.
Proof.
  intros Is Ik Ix. unfold own_calls in Ik. apply in_flat_map in Ik. destruct Ik as (e & Ie & Ik).
  eapply Hue; [exact Is|exact Ie|]. eapply call_vars; eassumption.
Qed.

Lemma simulate r : forall r2 pre pre2 (g g' : env),
  l = pre ++ r -> l2 = pre2 ++ r2 -> Forall2 (like_stmt w) r r2 ->
  same_variables w g g' ->
  (forall k i n s, In (k, i, n) es -> i < length pre -> In s r -> In k (own_calls s) -> holds w g g' k n) ->
  same_outcome w (run_list w r g)
    (run_list w (woven (length pre) (map new_stmt es) (map (rp_stmt es) r2)) g').
Proof.
  induction r as [|s r IH]; intros r2 pre pre2 g g' El El2 HF A Inv.
  - inversion HF; subst. cbn. exact A.
  - inversion HF as [|? s2 ? r2' Hs Hr]; subst r2 x l0. 
    cbn [map woven]. rewrite new_at, run_list_app.
    assert (nth_error l (length pre) = Some s) as Es.
    { rewrite El, nth_error_app2, Nat.sub_diag by lia. reflexivity. }
    assert (In s l) as Is by (rewrite El; apply in_or_app; right; left; reflexivity).
    set (B := filter (fun e => snd (fst e) =? length pre) es).
    assert (forall k i n, In (k, i, n) B -> In (k, i, n) es /\ i = length pre) as HB.
    { intros k i n I. apply filter_In in I. destruct I as [I E]. cbn in E. apply Nat.eqb_eq in E. auto. }
    pose proof (run_new w B g g' A (filter_snd_nodup _ _ (proj1 (proj2 Hes)))) as HN.
    assert (forall k i n x, In (k, i, n) B -> In x (vars (snd k)) -> user_name x) as HU.
    { intros k i n x I J. destruct (HB _ _ _ I) as [I' ->]. eapply own_call_user; [exact Is| |exact J].
      eapply entry_at_first; eauto. }
    specialize (HN HU). destruct (run_list w (map snd (map new_stmt B)) g') as [g2|].
    + destruct HN as (A2 & H2 & O2).
      assert (forall k i n t, In (k, i, n) es -> i <= length pre -> In t (s :: r) -> In k (own_calls t) ->
              holds w g g2 k n) as Inv2.
      { intros k i n t I Li It Ik. destruct (Nat.eq_dec i (length pre)) as [->|N].
        - eapply H2. apply filter_In. split; [exact I|]. cbn. apply Nat.eqb_refl.
        - destruct (Inv k i n t I) as (v & E1 & E2); [lia|exact It|exact Ik|]. exists v. split; [exact E1|].
          rewrite O2; [exact E2|]. intros J. apply in_map_iff in J. destruct J as ([[k' i'] n'] & E3 & J).
          cbn in E3. subst n'. destruct (HB _ _ _ J) as [J' ->].
          destruct Hes as (_ & ND & _).
          assert ((k, i, n) = (k', length pre, n)) as E4.
          { apply (nodup_snd_inj es _ _ ND I J'). reflexivity. }
          injection E4 as _ ->. lia. }
      cbn [run_list].
      assert (same_outcome w (run_stmt w s g) (run_stmt w (rp_stmt es s2) g2)) as HR.
      { apply run_like; [exact Hs|exact A2|intros x Ix; eapply Hua; eauto|intros e x Ie Ix; eapply Hue; eauto|].
        intros k n Ik L. destruct (lookup_some _ _ _ _ Hes L) as (i & Ie & _).
        eapply Inv2; [exact Ie| |left; reflexivity|exact Ik].
        eapply (proj2 (repeated_first _ _ _ (entries_repeated _ _ _ Ie))); [exact Es|exact Ik]. }
      destruct (run_stmt w s g) as [h|] eqn:Eh, (run_stmt w (rp_stmt es s2) g2) as [h2|] eqn:Eh2;
        cbn in HR; try contradiction; [|exact I].
      replace (S (length pre)) with (length (pre ++ [s])) by (rewrite app_length; cbn; lia).
      apply (IH r2' (pre ++ [s]) (pre2 ++ [s2])); [rewrite <- app_assoc; exact El|rewrite <- app_assoc; exact El2|exact Hr|exact HR|].
      intros k i n t I Li It Ik. rewrite app_length in Li. cbn in Li.
      destruct (Inv2 k i n t I) as (v & E1 & E2); [lia|right; exact It|exact Ik|].
      exists v. split.
      * rewrite <- E1. apply eval_agree. cbn [vars]. intros x Ix.
        apply (proj1 (frame w) _ _ _ Eh). intros Ia.
        destruct (proj1 (repeated_first _ _ _ (entries_repeated _ _ _ I))) as (s1 & Es1 & Ik1).
        apply in_split in It. destruct It as (ra & rb & Er). subst r.
        destruct (Nat.eq_dec i (length pre)) as [->|N].
        -- rewrite Es in Es1. injection Es1 as <-.
           apply (Hstable pre s ra t rb k x El Ik1 Ik Ix). cbn. apply in_or_app. left. exact Ia.
        -- rewrite El, nth_error_app1 in Es1 by lia. apply nth_error_split in Es1.
           destruct Es1 as (pa & pb & Ep & _).
           apply (Hstable pa s1 (pb ++ s :: ra) t rb k x); [|exact Ik1|exact Ik|exact Ix|].
           ++ rewrite El, Ep. repeat (rewrite <- app_assoc; cbn). reflexivity.
           ++ cbn. apply in_or_app. right. apply in_flat_map. exists s. split; [|exact Ia].
              apply in_or_app. right. left. reflexivity.
      * rewrite <- E2. apply (proj1 (frame w) _ _ _ Eh2). rewrite assigned_rp. intros Ia.
        destruct Hes as (_ & _ & F). apply (F n); [apply (in_map snd _ _ I)|].
        apply in_flat_map. exists s2. split; [rewrite El2; apply in_or_app; right; left; reflexivity|].
        apply (proj1 (assigned_names w)). exact Ia.
    + destruct HN as (k & i & n & Ik & Ek). destruct (HB _ _ _ Ik) as [Ie ->].
      pose proof (entry_at_first _ _ _ _ Ie Es) as Jk.
      destruct (Hstrict s Is) as [Us Ut]. unfold own_calls, own_exprs in Jk. cbn [flat_map] in Jk.
      apply in_app_iff in Jk. destruct Jk as [Jk|Jk].
      * pose proof (strict_fails w g _ k Us Jk Ek) as Ef. cbn [run_list].
        replace (run_stmt w s g) with (@None env); [exact I|]. destruct s; cbn in *; rewrite Ef; reflexivity.
      * exfalso. apply in_flat_map in Jk. destruct Jk as (e & Ie' & Jk). rewrite (Ut e Ie') in Jk. destruct Jk.
Qed.

Lemma simulate_block (g g' : env) :
  same_variables w g g' -> same_outcome w (run_list w l g) (run_list w (shared l2 es) g').
Proof.
  intros A. apply (simulate l l2 [] []); [reflexivity|reflexivity|exact Hlike|exact A|].
  cbn. intros; lia.
Qed.
End Sim.
