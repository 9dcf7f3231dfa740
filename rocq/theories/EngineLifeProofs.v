(** Proofs about [lifetime_management_pass] and [optimization_only_pass]. *)
From Coq Require Import String Ascii Permutation Relations.
From Verif Require Import Prelude GraphModel GraphSpec GraphProofs EngineModel EngineSpec EngineBaseProofs.
Local Open Scope nat_scope.
Local Open Scope list_scope.

Lemma nth_error_Some_lt {A} (l : list A) i a : nth_error l i = Some a -> i < length l.
Proof. intros H. apply nth_error_Some. congruence. Qed.

Section Life.
  Context {X U : Type} (s : semantics X U).
  Implicit Types (g : register X) (P : ref -> Prop) (is p : list (instr X)).

  (** [note_use] *)
  Lemma note_aget idx refs : forall lu r, aget ref_eqb r (fold_left (note_use idx) refs lu) =
    match aget ref_eqb r lu with Some j => Some j | None => if rmem r refs then Some idx else None end.
  Proof.
    induction refs as [|x refs IH]; intros lu r; cbn [fold_left rmem existsb]; [now destruct (aget ref_eqb r lu)|].
    rewrite IH. fold (rmem r refs). unfold note_use. destruct (aget ref_eqb x lu) as [j|] eqn:E.
    - destruct (aget ref_eqb r lu) eqn:F; [reflexivity|]. destruct (ref_eqb r x) eqn:Q; [|reflexivity]. apply ref_eqb_norm in Q.
      rewrite (aget_cong ref_eqb norm ref_eqb_norm r x lu Q) in F. congruence.
    - assert (G : forall l, aget ref_eqb r (l ++ [(x, idx)]) = match aget ref_eqb r l with Some j => Some j | None => if ref_eqb x r then Some idx else None end).
      { induction l as [|[k j] l IHl]; cbn; [reflexivity|]. destruct (ref_eqb k r); [reflexivity|exact IHl]. }
      rewrite G, (ref_eqb_sym x r). destruct (aget ref_eqb r lu); [reflexivity|]. destruct (ref_eqb r x); reflexivity.
  Qed.
  Lemma note_in idx refs : forall lu k j, In (k, j) (fold_left (note_use idx) refs lu) ->
    In (k, j) lu \/ (j = idx /\ rmem k refs = true).
  Proof.
    induction refs as [|x refs IH]; intros lu k j; cbn [fold_left rmem existsb]; [now left|]. fold (rmem k refs). intros H.
    apply IH in H. destruct H as [H|[-> H]]; [|right; split; [reflexivity|now rewrite H, orb_true_r]].
    unfold note_use in H. destruct (aget ref_eqb x lu) as [i|] eqn:E; [now left|]. rewrite in_app_iff in H. destruct H as [H|[[= <- <-]|[]]]; [now left|].
    right. split; [reflexivity|]. now rewrite ref_eqb_refl.
  Qed.
  Lemma note_nodup idx refs : forall lu, NoDup (map (fun e => norm (fst e)) lu) -> NoDup (map (fun e => norm (fst e)) (fold_left (note_use idx) refs lu)).
  Proof.
    induction refs as [|x refs IH]; intros lu N; [exact N|]. cbn [fold_left]. apply IH. unfold note_use.
    destruct (aget ref_eqb x lu) as [i|] eqn:E; [exact N|]. rewrite map_app. cbn [map fst].
    apply NoDup_rev in N. rewrite <- (rev_involutive (map _ lu ++ [_])). apply NoDup_rev. rewrite rev_app_distr. cbn [rev app]. constructor; [|exact N].
    rewrite <- in_rev. rewrite (aget_none ref_eqb norm ref_eqb_norm) in E. intros H. apply in_map_iff in H. destruct H as ([k j] & F & H). now apply (E k j).
  Qed.
  Lemma last_use_nodup p : forall n lu, NoDup (map (fun e => norm (fst e)) lu) -> NoDup (map (fun e => norm (fst e)) (last_use_rev p n lu)).
  Proof. induction p as [|i p IH]; intros n lu N; [exact N|]. cbn [last_use_rev]. apply IH. now apply note_nodup. Qed.
  Lemma aget_nodup (lu : list (ref * nat)) k j : NoDup (map (fun e => norm (fst e)) lu) -> In (k, j) lu -> aget ref_eqb k lu = Some j.
  Proof.
    induction lu as [|[x i] lu IH]; intros N H; [destruct H|]. cbn in N. inversion N as [|? ? N1 N2]; subst. cbn [aget].
    destruct H as [[= -> ->]|H]; [now rewrite ref_eqb_refl|]. destruct (ref_eqb x k) eqn:E; [|now apply IH]. exfalso. apply N1.
    apply ref_eqb_norm in E. rewrite E. now apply (in_map (fun e => norm (fst e)) lu (k, j)).
  Qed.

  (** the last index mentioning a reference *)
  Definition last_at p r j : Prop :=
    (exists i, nth_error p j = Some i /\ rmem r (mentions i) = true) /\
    forall l i, j < l -> nth_error p l = Some i -> rmem r (mentions i) = false.
  Lemma last_use_aget : forall p lu r, aget ref_eqb r lu = None ->
    match aget ref_eqb r (last_use_rev (rev p) (length p) lu) with
    | Some j => last_at p r j
    | None => forall i, In i p -> rmem r (mentions i) = false
    end.
  Proof.
    induction p as [|i p IH] using rev_ind; intros lu r N.
    - cbn [rev length last_use_rev]. rewrite N. intros i [].
    - rewrite rev_app_distr, app_length. cbn [rev app length]. rewrite Nat.add_1_r. cbn [last_use_rev pred].
      pose proof (note_aget (length p) (mentions i) lu r) as Q. rewrite N in Q.
      destruct (rmem r (mentions i)) eqn:M.
      + assert (K : forall p n lu j, aget ref_eqb r lu = Some j -> aget ref_eqb r (last_use_rev p n lu) = Some j).
        { clear. induction p as [|i p IH]; intros n lu j H; [exact H|]. cbn [last_use_rev]. apply IH. rewrite note_aget, H. reflexivity. }
        rewrite (K _ _ _ _ Q). split.
        * exists i. split; [|exact M]. rewrite nth_error_app2 by lia. now rewrite Nat.sub_diag.
        * intros l i' Hl Hi. apply nth_error_Some_lt in Hi. rewrite app_length in Hi. cbn [length] in Hi. lia.
      + specialize (IH _ _ Q). destruct (aget ref_eqb r _) as [j|] eqn:E.
        * destruct IH as [(i' & Hi & Mi) L]. pose proof (nth_error_Some_lt _ _ _ Hi) as Lt. split.
          -- exists i'. split; [|exact Mi]. now rewrite nth_error_app1.
          -- intros l i2 Hl Hn. destruct (Nat.lt_ge_cases l (length p)) as [H1|H1].
             ++ rewrite nth_error_app1 in Hn by exact H1. now apply (L l).
             ++ rewrite nth_error_app2 in Hn by exact H1. destruct (l - length p) as [|[|?]]; cbn in Hn; try discriminate. injection Hn as <-. exact M.
        * intros i' Hi. rewrite in_app_iff in Hi. destruct Hi as [Hi|[<-|[]]]; [now apply IH|exact M].
  Qed.

  Lemma to_delete_in is idx r : rmem r (to_delete is idx) = true <-> last_at is r idx /\ rmem r (keep_alive is) = false.
  Proof.
    unfold to_delete, last_use. pose proof (last_use_aget is [] r eq_refl) as A.
    assert (N : NoDup (map (fun e => norm (fst e)) (last_use_rev (rev is) (length is) []))) by (apply last_use_nodup; constructor).
    assert (Kr : forall k, norm r = norm k -> rmem r (keep_alive is) = rmem k (keep_alive is)).
    { intros k E. unfold rmem. induction (keep_alive is) as [|x l IH]; [reflexivity|]. cbn [existsb]. rewrite IH. f_equal.
      rewrite (ref_eqb_sym r x), (ref_eqb_sym k x). now apply (eqb_cong ref_eqb norm ref_eqb_norm). }
    set (lu := last_use_rev (rev is) (length is) []) in *. rewrite rmem_in. split.
    - intros (k & H & E). apply in_map_iff in H. destruct H as ([k' j] & F & H). cbn in F. subst k'. apply filter_In in H. destruct H as [H B].
      cbn [fst snd] in B. apply andb_true_iff in B. destruct B as [Bj Bk]. apply Nat.eqb_eq in Bj. subst j. apply negb_true_iff in Bk.
      apply (aget_nodup lu) in H; [|exact N]. rewrite <- (aget_cong ref_eqb norm ref_eqb_norm r k lu E) in H. rewrite H in A. split; [exact A|].
      now rewrite (Kr k E).
    - intros [L K]. destruct (aget ref_eqb r lu) as [j|] eqn:E.
      + assert (j = idx). { destruct A as [(i & Hi & Mi) La], L as [(i' & Hi' & Mi') Lb]. destruct (Nat.lt_trichotomy j idx) as [H|[H|H]]; [|exact H|].
          - rewrite (La _ _ H Hi') in Mi'. discriminate.
          - rewrite (Lb _ _ H Hi) in Mi. discriminate. }
        subst j. apply (aget_in ref_eqb norm ref_eqb_norm) in E. destruct E as (k & H & F). exists k. split; [|congruence].
        apply in_map_iff. exists (k, idx). split; [reflexivity|]. apply filter_In. split; [exact H|]. cbn [fst snd]. rewrite Nat.eqb_refl. cbn [andb].
        apply negb_true_iff. rewrite <- (Kr k); [exact K|congruence].
      + destruct L as [(i & Hi & Mi) _]. apply nth_error_In in Hi. rewrite (A i Hi) in Mi. discriminate.
  Qed.

  (** inserting deletions of what is not mentioned any more *)
  Definition with_deletes (ds : nat -> list ref) k is : list (instr X) :=
    flat_map (fun e => let d := ds (fst e) in snd e :: match d with [] => [] | _ => [DeleteRegisterEntries d] end) (combine (seq k (length is)) is).
  Lemma with_deletes_cons ds k i is : with_deletes ds k (i :: is) =
    i :: match ds k with [] => [] | d => [DeleteRegisterEntries d] end ++ with_deletes ds (S k) is.
  Proof. unfold with_deletes. cbn [length seq combine flat_map fst snd]. cbn [app]. destruct (ds k); reflexivity. Qed.
  Lemma run_delete d is w g : run_instructions s (match d with [] => [] | x :: l => [DeleteRegisterEntries (x :: l)] end ++ is) w g =
    run_instructions s is w (fold_left (fun g t => delete t g) d g).
  Proof. destruct d; reflexivity. Qed.

  Definition live is keep (r : ref) : Prop := (exists i, In i is /\ rmem r (mentions i) = true) \/ rmem r keep = true.
  Lemma rmem_norm r l : rmem (norm r) l = rmem r l.
  Proof.
    unfold rmem. induction l as [|x l IH]; [reflexivity|]. cbn [existsb]. rewrite IH. f_equal. rewrite (ref_eqb_sym _ x), (ref_eqb_sym r x).
    apply (eqb_cong ref_eqb norm ref_eqb_norm). clear. induction r; cbn; congruence.
  Qed.
  Lemma rmem_self r l : In r l -> rmem r l = true.
  Proof. intros H. apply rmem_in. eauto. Qed.
  Lemma exec_agree_live P i w g g' : agree P g g' -> (forall r, In r (mentions i) -> P (norm r)) -> alike P (exec s i w g) (exec s i w g').
  Proof.
    intros A H. assert (Hu : forall r, In r (uses i) -> P (norm r)) by (intros r Hr; apply H; unfold mentions; rewrite in_app_iff; now left).
    apply exec_agree; [exact A| | | | |].
    - intros r Hr. left. now apply H.
    - intros a r t ->. apply Hu. now left.
    - intros r Hr. apply H. unfold mentions. rewrite in_app_iff. now right.
    - intros d r ->. apply Hu. now left.
    - intros os -> r Hr. now apply Hu.
  Qed.
  Lemma with_deletes_sim keep ds : forall is k w g g',
    agree (live is keep) g g' ->
    (forall j i r, nth_error is j = Some i -> rmem r (ds (k + j)) = true -> rmem r keep = false /\ forall l i', j < l -> nth_error is l = Some i' -> rmem r (mentions i') = false) ->
    alike (fun r => rmem r keep = true) (run_instructions s is w g) (run_instructions s (with_deletes ds k is) w g').
  Proof.
    induction is as [|i is IH]; intros k w g g' A D.
    - split; [reflexivity|]. cbn. split; [reflexivity|]. eapply agree_sub; [|exact A]. intros r Hr. now right.
    - rewrite with_deletes_cons. cbn [run_instructions].
      pose proof (exec_agree_live (live (i :: is) keep) i w g g' A) as E.
      destruct E as [Ew Er]. { intros r Hr. left. exists i. split; [now left|]. rewrite rmem_norm. now apply rmem_self. }
      destruct (exec s i w g) as [w1 [[g1 o]|e]], (exec s i w g') as [w2 [[g2 o']|e']]; cbn [fst snd] in Ew, Er; try contradiction; subst w2.
      + destruct Er as [<- A']. destruct o as [o|].
        * split; [reflexivity|]. cbn. split; [reflexivity|]. eapply agree_sub; [|exact A']. intros r Hr. now right.
        * rewrite run_delete. apply IH.
          -- intros r Hr. rewrite rget_deletes. destruct (rmem r (ds k)) eqn:Q.
             ++ exfalso. rewrite <- (Nat.add_0_r k) in Q. destruct (D 0 i r eq_refl Q) as [K L]. destruct Hr as [(i' & Hi & Mi)|Hr]; rewrite rmem_norm in *; [|congruence].
                apply In_nth_error in Hi. destruct Hi as [l Hl]. rewrite (L (S l) i') in Mi; [discriminate|lia|exact Hl].
             ++ apply A'. destruct Hr as [(i' & Hi & Mi)|Hr]; [left; exists i'; split; [now right|exact Mi]|now right].
          -- intros j i' r Hj Q. replace (S k + j) with (k + S j) in Q by lia. destruct (D (S j) i' r Hj Q) as [K L]. split; [exact K|].
             intros l i2 Hl Hn. apply (L (S l)); [lia|exact Hn].
      + subst e'. split; reflexivity.
  Qed.
  Lemma agree_refl P g : agree P g g.
  Proof. now intros r _. Qed.
  Lemma lifetime_with is : lifetime_management_pass is = with_deletes (to_delete is) 0 is.
  Proof. reflexivity. Qed.
  Lemma lifetime_sim is w g : alike (fun r => rmem r (keep_alive is) = true) (run_instructions s is w g) (run_instructions s (lifetime_management_pass is) w g).
  Proof.
    rewrite lifetime_with. apply with_deletes_sim; [apply agree_refl|]. intros j i r Hj Q. cbn [Nat.add] in Q. apply to_delete_in in Q.
    destruct Q as [L K]. split; [exact K|]. exact (proj2 L).
  Qed.

  (** what is left *)
  Lemma exec_output i w g w' g' o : exec s i w g = (w', Ok (g', Some o)) -> is_return i.
  Proof.
    destruct i; cbn [exec]; try exact (fun _ => I).
    - discriminate.
    - destruct (items_for _ _) as [l|]; cbn [rbind]; [|discriminate]. destruct (rmapM _ l); cbn; discriminate.
    - destruct (call_contexts _ _ _ _ _ _ _ _) as [[l|] u]; cbn; discriminate.
    - destruct (rmapM _ _); [|discriminate]. destruct (optimize _ _ _ _ _ _) as [[[]|] u]; cbn; discriminate.
    - discriminate.
    - discriminate.
    - destruct (items_for _ _) as [l|]; cbn [rbind]; [|discriminate]. destruct (rmapM _ l); cbn; discriminate.
  Qed.
  Lemma return_no_register os w g w' g' o : exec s (ReturnOutputs os) w g = (w', Ok (g', o)) -> g' = g.
  Proof.
    cbn [exec]. destruct (rmapM _ os) as [ls|]; cbn [rbind]; [|discriminate]. destruct (rmapM _ (by_context _ _)); cbn [rbind]; [|discriminate]. now intros [= _ <- _].
  Qed.
  (** references not mentioned are not created *)
  Lemma exec_fresh i w g w' g' o r : exec s i w g = (w', Ok (g', o)) -> rmem r (mentions i) = false -> rget r g = None -> rget r g' = None.
  Proof.
    intros E M N.
    assert (St : forall t l g, ref_eqb t r = false -> rget r g = None -> rget r (fold_left (fun g (e : nat * entry X) => store t (fst e) (snd e) g) l g) = None).
    { clear. intros t l. induction l as [|e l IH]; intros g Q N; [exact N|]. cbn [fold_left]. apply IH; [exact Q|]. now rewrite rget_store, Q. }
    assert (Mt : forall t, In t (mentions i) -> ref_eqb t r = false).
    { intros t Ht. destruct (ref_eqb t r) eqn:Q; [|reflexivity]. rewrite <- M. symmetry. apply rmem_in. exists t. split; [exact Ht|]. symmetry. now apply ref_eqb_norm. }
    unfold mentions in Mt. destruct i; cbn [exec] in E; cbn [uses produces] in Mt.
    - injection E as _ <- _. specialize (Mt t (or_introl eq_refl)). clear -Mt N. revert g N. induction cs as [|c cs IH]; intros g N; [exact N|]. cbn [fold_left]. apply IH. now rewrite rget_store, Mt.
    - destruct (items_for _ _) as [l|]; cbn [rbind rmap] in E; [|discriminate]. destruct (rmapM _ l) as [l'|]; cbn [rbind rmap] in E; [|discriminate]. injection E as _ <- _.
      apply St; [|exact N]. apply Mt. right. now left.
    - destruct (call_contexts _ _ _ _ _ _ _ _) as [[l|] u]; cbn [rmap] in E; [|discriminate]. injection E as _ <- _. rewrite rget_store_all.
      rewrite (Mt t); [exact N|]. rewrite in_app_iff. right. now left.
    - destruct (rmapM _ _); [|discriminate]. destruct (optimize _ _ _ _ _ _) as [[[]|] u]; cbn [rmap] in E; [|discriminate]. now injection E as _ <- _.
    - destruct (rmapM _ _) as [ls|]; cbn [rbind] in E; [|discriminate]. destruct (rmapM _ _); cbn [rbind] in E; [|discriminate]. now injection E as _ <- _.
    - injection E as _ <- _. rewrite rget_deletes. now destruct (rmem r ts).
    - now injection E as _ <- _.
    - destruct (items_for _ _) as [l|]; cbn [rbind rmap] in E; [|discriminate]. destruct (rmapM _ l) as [l'|]; cbn [rbind rmap] in E; [|discriminate]. injection E as _ <- _.
      apply St; [|exact N]. apply Mt. now left.
  Qed.

  Lemma returns_last_tail i is : returns_last (i :: is) -> returns_last is.
  Proof. intros R is1 j is2 E J. apply (R (i :: is1) j is2); [now rewrite E|exact J]. Qed.
  Lemma with_deletes_clean keep ds r : forall is k w g w' g' o,
    returns_last is ->
    (forall j i, nth_error is j = Some i -> rmem r (mentions i) = true -> (forall l i', j < l -> nth_error is l = Some i' -> rmem r (mentions i') = false) -> rmem r (ds (k + j)) = true) ->
    (forall i, In i is -> is_return i -> rmem r (uses i) = false) -> keep = true ->
    run_instructions s (with_deletes ds k is) w g = (w', Ok (g', o)) ->
    ((exists i, In i is /\ rmem r (mentions i) = true) \/ rget r g = None) -> rget r g' = None.
  Proof.
    intros is k w g w' g' o Rl D Kp _. revert k w g Rl D Kp. induction is as [|i is IH]; intros k w g Rl D Kp E H.
    - cbn in E. injection E as _ <- _. destruct H as [(i & [] & _)|H]; exact H.
    - rewrite with_deletes_cons in E. cbn [run_instructions] in E.
      destruct (exec s i w g) as [w1 [[g1 o1]|e]] eqn:Ex; [|discriminate].
      assert (D' : forall j i', nth_error is j = Some i' -> rmem r (mentions i') = true -> (forall l i2, j < l -> nth_error is l = Some i2 -> rmem r (mentions i2) = false) -> rmem r (ds (S k + j)) = true).
      { intros j i' Hj M L. replace (S k + j) with (k + S j) by lia. apply (D (S j) i' Hj M). intros l i2 Hl Hn. destruct l as [|l]; [lia|]. apply (L l); [lia|exact Hn]. }
      destruct o1 as [o1|].
      + injection E as _ <- _. pose proof (exec_output _ _ _ _ _ _ Ex) as Ri. pose proof (Rl [] i is eq_refl Ri) as ->.
        destruct i; try destruct Ri. apply return_no_register in Ex as ->.
        destruct H as [(i & [<-|[]] & M)|H]; [|exact H]. unfold mentions in M. cbn [produces] in M. rewrite app_nil_r in M. rewrite Kp in M; [discriminate|now left|exact I].
      + rewrite run_delete in E. apply (IH (S k) w1 _ (returns_last_tail _ _ Rl) D' (fun j Hj => Kp j (or_intror Hj)) E).
        destruct (existsb (fun i' => rmem r (mentions i')) is) eqn:Q.
        * left. apply existsb_exists in Q. destruct Q as (i' & ? & ?). eauto.
        * right. rewrite rget_deletes.
          assert (L : forall l i', 0 < l -> nth_error (i :: is) l = Some i' -> rmem r (mentions i') = false).
          { intros [|l] i' Hl Hn; [lia|]. cbn in Hn. apply nth_error_In in Hn. destruct (rmem r (mentions i')) eqn:F; [|reflexivity].
            rewrite <- Q. symmetry. apply existsb_exists. eauto. }
          destruct (rmem r (ds k)) eqn:W; [reflexivity|]. destruct (rmem r (mentions i)) eqn:M.
          -- rewrite <- (Nat.add_0_r k) in W. rewrite (D 0 i eq_refl M L) in W. discriminate.
          -- destruct H as [(i' & [<-|Hi] & Mi)|H]; [congruence| |exact (exec_fresh _ _ _ _ _ _ _ Ex M H)].
             assert (existsb (fun i' => rmem r (mentions i')) is = true) by (apply existsb_exists; eauto). congruence.
  Qed.
  Lemma keep_alive_uses is i r : In i is -> is_return i -> rmem r (keep_alive is) = false -> rmem r (uses i) = false.
  Proof.
    intros Hi R K. destruct (rmem r (uses i)) eqn:E; [|reflexivity]. rewrite <- K. symmetry. apply rmem_in in E. destruct E as (r' & H & F).
    apply rmem_in. exists r'. split; [|exact F]. unfold keep_alive. apply in_flat_map. exists i. split; [exact Hi|]. destruct i; try destruct R. exact H.
  Qed.
  Lemma mentioned_rmem is r : mentioned is r <-> exists i, In i is /\ rmem r (mentions i) = true.
  Proof.
    unfold mentioned. split.
    - intros (i & r' & Hi & Hr & E). exists i. split; [exact Hi|]. apply rmem_in. exists r'. split; [|now apply same_ref_norm]. unfold mentions. now rewrite in_app_iff.
    - intros (i & Hi & M). apply rmem_in in M. destruct M as (r' & Hr & E). unfold mentions in Hr. rewrite in_app_iff in Hr. exists i, r'. split; [exact Hi|]. split; [exact Hr|]. now apply same_ref_norm.
  Qed.
  Lemma returned_keep is r : returned is r <-> rmem r (keep_alive is) = true.
  Proof.
    unfold returned, keep_alive. rewrite rmem_in. split.
    - intros (os & r' & Hi & Hr & E). exists r'. split; [|now apply same_ref_norm]. apply in_flat_map. exists (ReturnOutputs os). auto.
    - intros (r' & H & E). apply in_flat_map in H. destruct H as (i & Hi & Hr). destruct i; try destruct Hr. exists outputs, r'. repeat split; try assumption. now apply same_ref_norm.
  Qed.

  (** main results *)
  Theorem lifetime_same is w g :
    fst (run_instructions s (lifetime_management_pass is) w g) = fst (run_instructions s is w g) /\
    (forall e, snd (run_instructions s is w g) = Err e -> snd (run_instructions s (lifetime_management_pass is) w g) = Err e) /\
    (forall g1 o, snd (run_instructions s is w g) = Ok (g1, o) ->
       exists g2, snd (run_instructions s (lifetime_management_pass is) w g) = Ok (g2, o) /\
         (forall r, returned is r -> rget r g2 = rget r g1)).
  Proof.
    pose proof (lifetime_sim is w g) as [Ew Er]. split; [now symmetry|].
    destruct (snd (run_instructions s is w g)) as [[g1 o]|e], (snd (run_instructions s (lifetime_management_pass is) w g)) as [[g2 o']|e']; try contradiction.
    - destruct Er as [<- A]. split; [discriminate|]. intros g1' o' [= <- <-]. exists g2. split; [reflexivity|]. intros r Hr. symmetry. apply A.
      rewrite rmem_norm. now apply returned_keep.
    - subst e'. split; [now intros e' [= <-]|discriminate].
  Qed.
  Theorem lifetime_clean is w g w' g' o : returns_last is -> run_instructions s (lifetime_management_pass is) w g = (w', Ok (g', o)) ->
    forall r, mentioned is r -> ~ returned is r -> rget r g' = None.
  Proof.
    intros Rl E r M K. rewrite lifetime_with in E. assert (K' : rmem r (keep_alive is) = false).
    { destruct (rmem r (keep_alive is)) eqn:Q; [|reflexivity]. exfalso. apply K. now apply returned_keep. }
    apply (with_deletes_clean true (to_delete is) r is 0 w g w' g' o Rl); [| |reflexivity|exact E|left; now apply mentioned_rmem].
    - intros j i Hj Mj L. cbn [Nat.add]. apply to_delete_in. split; [|exact K']. split; [eauto|exact L].
    - intros i Hi R. now apply (keep_alive_uses is).
  Qed.
End Life.
