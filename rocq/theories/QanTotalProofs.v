(** The analysis accepts every function without loops, try and with; annotations are distinct. *)
From Coq Require Import Permutation.
From Verif Require Import Prelude QanModel QanSpec QanInvProofs QanProofs.
Local Open Scope nat_scope.

(** ** Annotations are distinct. *)
Definition dist (run : state -> result state) : Prop := forall st st', NoDup (anns st) -> run st = Ok st' -> NoDup (anns st').

Lemma ensure_nodup x st : NoDup (anns st) -> NoDup (anns (ensure x st)).
Proof.
  unfold ensure. generalize (lookup st x). intros l. revert st. induction l as [|po l IH]; cbn; intros st H; [exact H|].
  apply IH. unfold ensure_one. destruct (obj_q _ _); [exact H|]. cbn. apply anns_nodup_add, H.
Qed.
Lemma call_nodup c st : NoDup (anns st) -> NoDup (anns (eval_call c st)).
Proof.
  unfold eval_call. destruct (returns c); [|auto]. revert st. induction (bound c) as [|[[x|] [|]] l IH]; cbn [fold_left]; intros st H; auto.
  apply IH, ensure_nodup, H.
Qed.
Lemma expr_nodup e st : NoDup (anns st) -> NoDup (anns (eval_expr e st)).
Proof.
  destruct e as [cs|c]; cbn; [|apply call_nodup]. revert st. induction cs as [|c cs IH]; cbn; intros st H; [exact H|]. apply IH, call_nodup, H.
Qed.
Lemma exprs_nodup es st : NoDup (anns st) -> NoDup (anns (eval_exprs es st)).
Proof. unfold eval_exprs. revert st. induction es as [|e es IH]; cbn; intros st H; [exact H|]. apply IH, expr_nodup, H. Qed.
Lemma record_anns x p q st st' : record x p q st = Ok st' -> anns st' = anns st.
Proof. unfold record. destruct (s_term _); [discriminate|]. destruct (find_prod _ _); intros [= <-]; reflexivity. Qed.
Lemma record_all_anns xs p q : forall st st', record_all xs p q st = Ok st' -> anns st' = anns st.
Proof.
  induction xs as [|x xs IH]; cbn; intros st st' H; [injection H as <-; reflexivity|]. inv_ok. rewrite (IH _ _ H). eapply record_anns; eauto.
Qed.
Lemma process_all_anns p parts : forall st st', process_all p parts st = Ok st' -> anns st' = anns st.
Proof.
  induction parts as [|[ts e] parts IH]; cbn; intros st st' H; [injection H as <-; reflexivity|]. inv_ok. rewrite (IH _ _ H).
  unfold process in E. cbn in E. destruct e; [eapply record_all_anns; eauto|]. destruct ts as [|t [|]]; try discriminate. eapply record_all_anns; eauto.
Qed.
Lemma items_anns items : forall st st', eval_items items st = Ok st' -> anns st' = anns st.
Proof.
  induction items as [|[[p xs] e] items IH]; cbn; intros st st' H; [injection H as <-; reflexivity|]. inv_ok. rewrite (IH _ _ H). eapply record_all_anns; eauto.
Qed.
Lemma merge_inplace_anns t st st' : merge_inplace t st = Ok st' -> anns st' = anns st.
Proof. unfold merge_inplace. destruct (_ || _); [intros [= <-]; reflexivity|]. intros H. inv_ok. subst. reflexivity. Qed.
Lemma terminate_anns t st st' : terminate t st = Ok st' -> anns st' = anns st.
Proof.
  unfold terminate. destruct t; try (intros [= <-]; reflexivity). intros H. apply rbind_ok in H. destruct H as [ss [_ H]]. injection H as <-. reflexivity.
Qed.
Lemma again_dist run : dist run -> dist (again run).
Proof. intros Hr st st' H. unfold again. destruct (s_term _); [intros [= <-]; exact H|]. intros E. inv_ok. subst. cbn. apply (Hr (set_rep true st) st0); auto. Qed.
Lemma if_dist e run o exh : dist run -> (forall r, o = Some r -> dist r) -> dist (eval_if e run o exh).
Proof.
  intros Hr Ho st st' H E. unfold eval_if in E. apply rbind_ok in E. destruct E as [st1 [E1 E]].
  assert (H1 : NoDup (anns st1)) by (eapply Hr; [|exact E1]; cbn; apply expr_nodup, H).
  destruct o as [r2|].
  - inv_ok. assert (H2 : NoDup (anns st0)) by (eapply (Ho r2 eq_refl); [|exact E0]; exact H1).
    destruct exh; [injection E as <-; exact H2|]. apply merge_inplace_anns in E. rewrite E. exact H2.
  - apply merge_inplace_anns in E. rewrite E. exact H1.
Qed.
Lemma all_dist :
  (forall s, dist (eval_stmt s)) /\ (forall b, dist (eval_block b)) /\ (forall o, dist (eval_orelse o)) /\
  (forall hs t st t' st', NoDup (anns st) -> eval_handlers t hs st = Ok (t', st') -> NoDup (anns st')).
Proof.
  apply syntax_ind.
  - intros e st st' H [= <-]. apply expr_nodup, H.
  - intros p parts st st' H E. cbn in E. rewrite (process_all_anns _ _ _ _ E). apply exprs_nodup, H.
  - intros e b IHb o IHo. cbn [eval_stmt]. apply if_dist; [exact IHb|]. intros r Hr. destruct o; [discriminate| |]; injection Hr as <-; exact IHo.
  - intros p xs e b IHb els st st' H E. cbn [eval_stmt] in E. destruct els; [discriminate|].
    assert (Hv : dist (fun st0 => let? st1 := record_all xs p false st0 in eval_block b st1)).
    { intros s s' Hs Hr. inv_ok. eapply IHb; [|exact Hr]. rewrite (record_all_anns _ _ _ _ _ E0). exact Hs. }
    apply rbind_ok in E. destruct E as [st1 [E1 E]]. apply rbind_ok in E. destruct E as [st2 [E2 E]].
    rewrite (merge_inplace_anns _ _ _ E). change (NoDup (anns st2)). eapply (again_dist _ Hv); [|exact E2]. eapply Hv; [|exact E1]. apply expr_nodup, H.
  - intros e b IHb els st st' H E. cbn [eval_stmt] in E. destruct els; [discriminate|].
    apply rbind_ok in E. destruct E as [st1 [E1 E]]. apply rbind_ok in E. destruct E as [st2 [E2 E]].
    rewrite (merge_inplace_anns _ _ _ E). change (NoDup (anns st2)). eapply (again_dist (fun st0 => eval_block b (eval_expr e st0))); [|eapply IHb; [|exact E1]; apply expr_nodup, H|exact E2].
    intros s s' Hs Hr. eapply IHb; [|exact Hr]. apply expr_nodup, Hs.
  - intros items b IHb st st' H E. cbn [eval_stmt] in E. inv_ok. eapply IHb; [|exact E]. rewrite (items_anns _ _ _ E0). exact H.
  - intros b IHb hs IHh els IHe fin IHf st st' H E. cbn [eval_stmt] in E.
    apply rbind_ok in E. destruct E as [st1 [E1 E]]. apply rbind_ok in E. destruct E as [[t st2] [E2 E]]. inv_ok. subst st'. cbn.
    eapply IHf; [|eassumption]. cbn. eapply IHe; [|eassumption]. cbn. eapply IHh; [|exact E2]. cbn. eapply IHb; [|exact E1]. exact H.
  - intros es st st' H [= <-]. apply exprs_nodup, H.
  - intros es st st' H [= <-]. apply exprs_nodup, H.
  - intros st st' H [= <-]. exact H.
  - intros st st' H [= <-]. exact H.
  - intros st st' H [= <-]. exact H.
  - intros s IHs b IHb st st' H E.
    assert (Hseq : (let? st1 := eval_stmt s st in eval_block b st1) = Ok st' -> NoDup (anns st')).
    { intros E0. inv_ok. eapply IHb; [|exact E0]. eapply IHs; eauto. }
    destruct s; try (exact (Hseq E)); cbn [eval_block] in E.
    + rewrite (terminate_anns _ _ _ E). apply exprs_nodup, H.
    + rewrite (terminate_anns _ _ _ E). apply exprs_nodup, H.
    + injection E as <-. exact H.
    + rewrite (terminate_anns _ _ _ E). exact H.
  - intros st st' H [= <-]. exact H.
  - intros b IHb st st' H E. eapply IHb; eauto.
  - intros e b IHb o IHo. cbn [eval_orelse]. apply if_dist; [exact IHb|]. intros r Hr. destruct o; [discriminate| |]; injection Hr as <-; exact IHo.
  - intros t st t' st' H [= <- <-]. exact H.
  - intros b IHb hs IHh t st t' st' H E. cbn [eval_handlers] in E. inv_ok. eapply IHh; [|exact E]. cbn. eapply IHb; [|eassumption]. exact H.
Qed.
Lemma record_params_anns ps : forall st st', record_params ps st = Ok st' -> anns st' = anns st.
Proof. induction ps as [|p ps IH]; cbn; intros st st' H; [injection H as <-; reflexivity|]. inv_ok. rewrite (IH _ _ H). eapply record_anns; eauto. Qed.
Lemma analyze_nodup f A : analyze f = Ok A -> NoDup A.
Proof.
  unfold analyze. intros H. inv_ok. subst A. eapply (proj1 (proj2 all_dist)); [|exact E0]. rewrite (record_params_anns _ _ _ E). constructor.
Qed.

(** ** The analysis succeeds on plain functions. *)
Definition dp1 (xl : nat * list (nat * nat)) : list (nat * nat) := map (fun po => (fst po, fst xl)) (snd xl).
Definition dpairs (a : asgs) : list (nat * nat) := flat_map dp1 a.

Lemma dpairs_get x a p : In p (prods a x) -> In (p, x) (dpairs a).
Proof.
  unfold prods, dpairs. intros H. apply in_map_iff in H. destruct H as [[p' o] [E H]]. cbn in E. subst p'.
  apply get_in in H. destruct H as [l [H1 H2]]. apply in_flat_map. exists (x, l). split; [exact H1|]. apply in_map_iff. exists (p, o). auto.
Qed.
Lemma dpairs_add x p o a : Permutation (dpairs (put x (get x a ++ [(p, o)]) a)) ((p, x) :: dpairs a).
Proof.
  induction a as [|[z m] a IH]; cbn; [apply Permutation_refl|]. destruct (x =? z) eqn:E.
  - apply Nat.eqb_eq in E. subst z. cbn. unfold dp1 at 1. cbn. rewrite map_app. cbn. rewrite <- app_assoc. cbn. symmetry. apply Permutation_middle.
  - cbn. change (flat_map dp1 (put x (get x a ++ [(p, o)]) a)) with (dpairs (put x (get x a ++ [(p, o)]) a)). rewrite IH. symmetry. apply Permutation_middle.
Qed.
Lemma find_prod_none p l : ~ In p (map fst l) -> find_prod p l = None.
Proof. destruct (find_prod p l) eqn:E; [|reflexivity]. apply find_prod_in in E. intros H. exfalso. apply H. apply in_map_iff. exists (p, n). auto. Qed.
Lemma merge_one_total h x p o a : ~ In (p, x) (dpairs a) -> exists c, merge_one h x p o a = Ok c /\ Permutation (dpairs c) ((p, x) :: dpairs a).
Proof.
  intros H. unfold merge_one. rewrite find_prod_none.
  - eexists. split; [reflexivity|apply dpairs_add].
  - intros Hi. apply H, dpairs_get, Hi.
Qed.
Lemma merge_var_total h x l : forall a, NoDup (dp1 (x, l) ++ dpairs a) ->
  exists c, merge_var h x l a = Ok c /\ Permutation (dpairs c) (dp1 (x, l) ++ dpairs a).
Proof.
  induction l as [|[p o] l IH]; intros a H.
  - exists a. split; [reflexivity|apply Permutation_refl].
  - cbn in H. inversion H as [|? ? H1 H2]; subst.
    destruct (merge_one_total h x p o a) as [c [E P]]; [intros Hi; apply H1, in_app_iff; now right|].
    assert (P2 : Permutation (dp1 (x, l) ++ dpairs c) (dp1 (x, (p, o) :: l) ++ dpairs a)).
    { cbn. rewrite P. symmetry. apply Permutation_middle. }
    destruct (IH c) as [d [E2 Q]].
    { eapply Permutation_NoDup; [symmetry; exact P2|]. exact H. }
    exists d. split; [cbn; rewrite E; exact E2|]. rewrite Q. exact P2.
Qed.
Lemma merge_asgs_total h b : forall a, NoDup (dpairs a ++ dpairs b) ->
  exists c, merge_asgs h a b = Ok c /\ Permutation (dpairs c) (dpairs a ++ dpairs b).
Proof.
  induction b as [|[x l] b IH]; intros a H.
  - exists a. split; [reflexivity|]. cbn. rewrite app_nil_r. apply Permutation_refl.
  - change (dpairs ((x, l) :: b)) with (dp1 (x, l) ++ dpairs b) in *.
    assert (P0 : Permutation (dpairs a ++ dp1 (x, l) ++ dpairs b) ((dp1 (x, l) ++ dpairs a) ++ dpairs b)).
    { rewrite app_assoc. apply Permutation_app_tail, Permutation_app_comm. }
    pose proof (Permutation_NoDup P0 H) as H'.
    destruct (merge_var_total h x l a) as [c [E P]].
    { clear -H'. revert H'. generalize (dp1 (x, l) ++ dpairs a). intros u H. induction u as [|y u IHu]; [constructor|].
      inversion H as [|? ? H1 H2]; subst. constructor; [|auto]. intros Hi. apply H1, in_app_iff. now left. }
    destruct (IH c) as [d [E2 Q]].
    { eapply Permutation_NoDup; [|exact H']. apply Permutation_app_tail. symmetry. exact P. }
    exists d. split; [cbn; rewrite E; exact E2|]. rewrite Q. rewrite P. symmetry. exact P0.
Qed.
Lemma nodup_app_iff {A} (u v : list A) : NoDup (u ++ v) <-> NoDup u /\ NoDup v /\ forall x, In x u -> ~ In x v.
Proof.
  induction u as [|y u IH]; cbn.
  - split; [intros H; split; [constructor|split; [exact H|tauto]]|tauto].
  - split.
    + intros H. inversion H as [|? ? H1 H2]; subst. apply IH in H2. destruct H2 as [A1 [A2 A3]]. split; [|split; [exact A2|]].
      * constructor; [|exact A1]. intros Hi. apply H1, in_app_iff. now left.
      * intros x [<-|Hx]; [|auto]. intros Hi. apply H1, in_app_iff. now right.
    + intros [A1 [A2 A3]]. inversion A1 as [|? ? H1 H2]; subst. constructor.
      * intros Hi. apply in_app_iff in Hi. destruct Hi as [Hi|Hi]; [auto|]. eapply A3; [left; reflexivity|exact Hi].
      * apply IH. split; [exact H2|split; [exact A2|]]. intros x Hx. apply A3. now right.
Qed.
Lemma dpairs_put x l a : NoDup (dp1 (x, l) ++ dpairs a) -> NoDup (dpairs (put x l a)) /\ incl (dpairs (put x l a)) (dp1 (x, l) ++ dpairs a).
Proof.
  induction a as [|[z m] a IH]; cbn [put].
  - intros H. cbn in *. rewrite app_nil_r in *. split; [exact H|apply incl_refl].
  - change (dpairs ((z, m) :: a)) with (dp1 (z, m) ++ dpairs a). intros H. destruct (x =? z) eqn:E.
    + apply Nat.eqb_eq in E. subst z. change (dpairs ((x, l) :: a)) with (dp1 (x, l) ++ dpairs a).
      apply nodup_app_iff in H. destruct H as [A1 [A2 A3]]. apply nodup_app_iff in A2. destruct A2 as [B1 [B2 B3]]. split.
      * apply nodup_app_iff. split; [exact A1|split; [exact B2|]]. intros y Hy Hi. eapply A3; [exact Hy|]. apply in_app_iff. now right.
      * intros y Hy. apply in_app_iff in Hy. apply in_app_iff. destruct Hy; [auto|]. right. apply in_app_iff. auto.
    + apply nodup_app_iff in H. destruct H as [A1 [A2 A3]]. apply nodup_app_iff in A2. destruct A2 as [B1 [B2 B3]].
      destruct IH as [C1 C2].
      { apply nodup_app_iff. split; [exact A1|split; [exact B2|]]. intros y Hy Hi. eapply A3; [exact Hy|]. apply in_app_iff. now right. }
      change (dpairs ((z, m) :: put x l a)) with (dp1 (z, m) ++ dpairs (put x l a)). split.
      * apply nodup_app_iff. split; [exact B1|split; [exact C1|]]. intros y Hy Hi. apply C2, in_app_iff in Hi. destruct Hi as [Hi|Hi].
        -- eapply A3; [exact Hi|]. apply in_app_iff. now left.
        -- eapply B3; eauto.
      * intros y Hy. apply in_app_iff in Hy. destruct Hy as [Hy|Hy].
        -- apply in_app_iff. right. apply in_app_iff. now left.
        -- apply C2, in_app_iff in Hy. apply in_app_iff. destruct Hy; [auto|]. right. apply in_app_iff. now right.
Qed.
Lemma dpairs_overwrite b : forall a, NoDup (dpairs a ++ dpairs b) ->
  NoDup (dpairs (overwrite_asgs a b)) /\ incl (dpairs (overwrite_asgs a b)) (dpairs a ++ dpairs b).
Proof.
  induction b as [|[x l] b IH]; intros a H.
  - cbn in *. rewrite app_nil_r in *. split; [exact H|apply incl_refl].
  - change (dpairs ((x, l) :: b)) with (dp1 (x, l) ++ dpairs b) in *. cbn [overwrite_asgs].
    apply nodup_app_iff in H. destruct H as [A1 [A2 A3]]. apply nodup_app_iff in A2. destruct A2 as [B1 [B2 B3]].
    destruct (dpairs_put x l a) as [C1 C2].
    { apply nodup_app_iff. split; [exact B1|split; [exact A1|]]. intros y Hy Hi. eapply A3; [exact Hi|]. apply in_app_iff. now left. }
    destruct (IH (put x l a)) as [E1 E2].
    { apply nodup_app_iff. split; [exact C1|split; [exact B2|]]. intros y Hy Hi. apply C2, in_app_iff in Hy. destruct Hy as [Hy|Hy].
      - eapply B3; eauto.
      - eapply A3; [exact Hy|]. apply in_app_iff. now right. }
    split; [exact E1|]. intros y Hy. apply E2, in_app_iff in Hy. apply in_app_iff. destruct Hy as [Hy|Hy].
    + apply C2, in_app_iff in Hy. destruct Hy; [right; apply in_app_iff; now left|now left].
    + right. apply in_app_iff. now right.
Qed.

(** [ends]: may the run end the block? *)
Definition total (ends : bool) (run : state -> result state) (B : list (nat * nat)) : Prop :=
  forall st s r, scopes st = s :: r -> s_term s = None -> NoDup (dpairs (s_asgs s) ++ B) ->
    exists st' s', run st = Ok st' /\ scopes st' = s' :: r /\ (ends = false -> s_term s' = None) /\ s_loop s' = s_loop s /\
      NoDup (dpairs (s_asgs s')) /\ incl (dpairs (s_asgs s')) (dpairs (s_asgs s) ++ B).

Lemma total_id en : total en (fun st => Ok st) [].
Proof.
  intros st s r Hs Ht H. rewrite app_nil_r in *. exists st, s. split; [reflexivity|split; [exact Hs|split; [auto|split; [reflexivity|split; [exact H|apply incl_refl]]]]].
Qed.
Lemma total_seq en f g B1 B2 : total false f B1 -> total en g B2 -> total en (fun st => let? st1 := f st in g st1) (B1 ++ B2).
Proof.
  intros Hf Hg st s r Hs Ht H. rewrite app_assoc in H. apply nodup_app_iff in H. destruct H as [A1 [A2 A3]].
  destruct (Hf st s r Hs Ht A1) as [st1 [s1 [E1 [S1 [T1 [L1 [N1 I1]]]]]]].
  destruct (Hg st1 s1 r S1 (T1 eq_refl)) as [st2 [s2 [E2 [S2 [T2 [L2 [N2 I2]]]]]]].
  { apply nodup_app_iff. split; [exact N1|split; [exact A2|]]. intros y Hy. apply A3, I1, Hy. }
  exists st2, s2. rewrite E1. cbn. split; [exact E2|split; [exact S2|split; [exact T2|split; [congruence|split; [exact N2|]]]]].
  intros y Hy. rewrite app_assoc. apply I2, in_app_iff in Hy. apply in_app_iff. destruct Hy as [Hy|Hy]; [left; apply I1, Hy|auto].
Qed.
Lemma total_pre en f g B : (forall st, scopes (g st) = scopes st) -> total en f B -> total en (fun st => f (g st)) B.
Proof. intros H Hf st s r Hs. apply Hf. rewrite H. exact Hs. Qed.

Lemma total_record x p q : total false (record x p q) [(p, x)].
Proof.
  intros st s r Hs Ht H. apply nodup_app_iff in H. destruct H as [A1 [A2 A3]].
  assert (Hno : ~ In (p, x) (dpairs (s_asgs s))) by (intros Hi; eapply A3; [exact Hi|now left]).
  unfold record. replace (active st) with s by (unfold active; rewrite Hs; reflexivity). rewrite Ht.
  rewrite find_prod_none; [|intros Hi; apply Hno, dpairs_get, Hi].
  destruct (dpairs_put x [(p, length (heap st))] (s_asgs s)) as [C1 C2]; [cbn; constructor; assumption|].
  do 2 eexists. split; [reflexivity|]. unfold set_active. cbn. rewrite Hs. cbn. split; [reflexivity|]. cbn. rewrite Ht.
  split; [reflexivity|split; [reflexivity|split; [exact C1|]]]. intros y Hy. apply C2 in Hy. apply in_app_iff. destruct Hy as [<-|Hy]; [right; now left|now left].
Qed.
Lemma total_record_all xs p q : total false (record_all xs p q) (map (fun x => (p, x)) xs).
Proof. induction xs as [|x xs IH]; [apply total_id|]. exact (total_seq _ _ _ _ _ (total_record x p q) IH). Qed.
Lemma total_process_all p parts : Forall (fun a : list (option nat) * expr => match snd a with EQuant _ => length (fst a) = 1 | EPlain _ => True end) parts ->
  total false (process_all p parts) (map fst (flat_map (part_binds p) parts)).
Proof.
  induction parts as [|[ts e] parts IH]; intros H; [apply total_id|]. inversion H as [|? ? H1 H2]; subst. cbn in H1.
  cbn [flat_map]. rewrite map_app. refine (total_seq _ _ _ _ _ _ (IH H2)).
  assert (Em : map fst (part_binds p (ts, e)) = map (fun x => (p, x)) (names ts)).
  { unfold part_binds. rewrite map_map. reflexivity. }
  rewrite Em. unfold process. cbn [fst snd]. destruct e; [apply total_record_all|]. destruct ts as [|t [|]]; try discriminate. apply total_record_all.
Qed.
Lemma total_terminate t f : (forall st, scopes (f st) = scopes st) -> t <> Break -> forall B, total true (fun st => terminate t (f st)) B.
Proof.
  intros Hf Hb B st s r Hs Ht H. apply nodup_app_iff in H. destruct H as [A1 _].
  exists (set_active (f st) (with_term s (Some t))), (with_term s (Some t)).
  split.
  { unfold terminate. replace (active (f st)) with s by (unfold active; rewrite Hf, Hs; reflexivity). destruct t; [reflexivity|congruence|reflexivity]. }
  split; [unfold set_active; cbn; rewrite Hf, Hs; reflexivity|]. split; [discriminate|split; [reflexivity|split; [exact A1|]]].
  intros y Hy. apply in_app_iff. now left.
Qed.

Lemma merge_inplace_total t st s r : scopes st = s :: r -> s_loop t = false -> NoDup (dpairs (s_asgs s) ++ dpairs (s_asgs t)) ->
  exists st' s', merge_inplace t st = Ok st' /\ scopes st' = s' :: r /\ s_term s' = s_term s /\ s_loop s' = s_loop s /\
    NoDup (dpairs (s_asgs s')) /\ incl (dpairs (s_asgs s')) (dpairs (s_asgs s) ++ dpairs (s_asgs t)).
Proof.
  intros Hs Hl H. unfold merge_inplace. replace (active st) with s by (unfold active; rewrite Hs; reflexivity).
  destruct (_ || _).
  - exists st, s. split; [reflexivity|split; [exact Hs|split; [reflexivity|split; [reflexivity|]]]]. apply nodup_app_iff in H. destruct H as [A1 _].
    split; [exact A1|]. intros y Hy. apply in_app_iff. now left.
  - unfold merge_scopes. destruct (merge_asgs_total (heap st) (s_asgs t) (s_asgs s) H) as [c [E P]]. rewrite E. cbn. rewrite Hl. cbn.
    do 2 eexists. split; [reflexivity|]. unfold set_active. cbn. rewrite Hs. split; [reflexivity|]. cbn. split; [reflexivity|split; [reflexivity|]].
    split; [eapply Permutation_NoDup; [symmetry; exact P|exact H]|]. intros y Hy. eapply Permutation_in; [exact P|exact Hy].
Qed.

Lemma total_if e run o exh B1 B2 : total true run B1 -> match o with Some r2 => total true r2 B2 | None => True end ->
  total false (eval_if e run o exh) (B1 ++ B2).
Proof.
  intros H1 H2 st s r Hs Ht H. apply nodup_app_iff in H. destruct H as [A1 [A2 A3]]. apply nodup_app_iff in A2. destruct A2 as [N1 [N2 N3]].
  unfold eval_if.
  destruct (H1 (push false (eval_expr e st)) (empty_scope false (s_rep (active (eval_expr e st)))) (s :: r)) as [st1 [T [E1 [S1 [_ [L1 [D1 I1]]]]]]]; [cbn; rewrite scopes_expr, Hs; reflexivity|reflexivity|exact N1|].
  rewrite E1. cbn [rbind]. cbn in I1, L1.
  assert (Hp1 : scopes (pop st1) = s :: r) by (unfold pop; cbn; rewrite S1; reflexivity).
  replace (active st1) with T by (unfold active; rewrite S1; reflexivity).
  destruct o as [r2|].
  - destruct (H2 (push false (pop st1)) (empty_scope false (s_rep (active (pop st1)))) (s :: r)) as [st2 [F [E2 [S2 [_ [L2 [D2 I2]]]]]]]; [unfold push; cbn [scopes]; rewrite Hp1; reflexivity|reflexivity|exact N2|].
    rewrite E2. cbn [rbind]. cbn in I2, L2.
    replace (active st2) with F by (unfold active; rewrite S2; reflexivity).
    assert (Hp2 : scopes (pop st2) = s :: r) by (unfold pop; cbn; rewrite S2; reflexivity).
    assert (Hm : exists m, merge (heap st2) T F = Ok m /\ s_loop m = false /\ NoDup (dpairs (s_asgs m)) /\ incl (dpairs (s_asgs m)) (B1 ++ B2)).
    { unfold merge. destruct (leaves (s_term T)), (leaves (s_term F)).
      - eexists. split; [reflexivity|]. cbn. split; [reflexivity|split; [constructor|intros ? []]].
      - eexists. split; [reflexivity|]. split; [exact L2|split; [exact D2|]]. intros y Hy. apply in_app_iff. auto.
      - eexists. split; [reflexivity|]. split; [exact L1|split; [exact D1|]]. intros y Hy. apply in_app_iff. auto.
      - assert (Hd : NoDup (dpairs (s_asgs T) ++ dpairs (s_asgs F))).
        { apply nodup_app_iff. split; [exact D1|split; [exact D2|]]. intros y Hy Hi. eapply N3; [apply I1, Hy|apply I2, Hi]. }
        unfold merge_scopes. destruct (merge_asgs_total (heap st2) _ _ Hd) as [c [E P]]. rewrite E. cbn. rewrite L2. cbn.
        eexists. split; [reflexivity|]. cbn. split; [exact L1|split; [eapply Permutation_NoDup; [symmetry; exact P|exact Hd]|]].
        intros y Hy. apply (Permutation_in _ P) in Hy. apply in_app_iff in Hy. apply in_app_iff. destruct Hy; auto. }
    destruct Hm as [m [Em [Lm [Dm Im]]]]. rewrite Em. cbn [rbind].
    assert (Hd : NoDup (dpairs (s_asgs s) ++ dpairs (s_asgs m))).
    { apply nodup_app_iff. split; [exact A1|split; [exact Dm|]]. intros y Hy Hi. eapply A3; [exact Hy|apply Im, Hi]. }
    destruct exh.
    + destruct (dpairs_overwrite (s_asgs m) (s_asgs s) Hd) as [C1 C2].
      do 2 eexists. split; [reflexivity|]. unfold overwrite, set_active. rewrite Hp2.
      replace (active (pop st2)) with s by (unfold active; rewrite Hp2; reflexivity). cbn. split; [reflexivity|]. cbn.
      split; [auto|split; [reflexivity|split; [exact C1|]]]. intros y Hy. apply C2, in_app_iff in Hy. apply in_app_iff. destruct Hy; auto.
    + destruct (merge_inplace_total m (pop st2) s r Hp2 Lm Hd) as [st' [s' [E [S' [T' [L' [N' I']]]]]]].
      exists st', s'. split; [exact E|split; [exact S'|split; [congruence|split; [exact L'|split; [exact N'|]]]]].
      intros y Hy. apply I', in_app_iff in Hy. apply in_app_iff. destruct Hy; auto.
  - assert (Hd : NoDup (dpairs (s_asgs s) ++ dpairs (s_asgs T))).
    { apply nodup_app_iff. split; [exact A1|split; [exact D1|]]. intros y Hy Hi. eapply A3; [exact Hy|]. apply in_app_iff. left. apply I1, Hi. }
    destruct (merge_inplace_total T (pop st1) s r Hp1 L1 Hd) as [st' [s' [E [S' [T' [L' [N' I']]]]]]].
    exists st', s'. split; [exact E|split; [exact S'|split; [congruence|split; [exact L'|split; [exact N'|]]]]].
    intros y Hy. apply I', in_app_iff in Hy. apply in_app_iff. destruct Hy as [Hy|Hy]; [auto|]. right. apply in_app_iff. left. apply I1, Hy.
Qed.

Lemma total_weaken f B : total false f B -> total true f B.
Proof.
  intros H st s r Hs Ht HN. destruct (H st s r Hs Ht HN) as [st' [s' [E [S [T R]]]]]. exists st', s'. split; [exact E|split; [exact S|split; [discriminate|exact R]]].
Qed.

Lemma all_total :
  (forall s, stmt_plain s -> match s with SReturn _ | SRaise _ => True | _ => total false (eval_stmt s) (map fst (stmt_binds s)) end) /\
  (forall b, block_plain b -> total true (eval_block b) (map fst (block_binds b))) /\
  (forall o, orelse_plain o -> total true (eval_orelse o) (map fst (orelse_binds o))) /\ (forall hs : blocks, True).
Proof.
  apply syntax_ind; auto; try (cbn; tauto).
  - intros e _. cbn. exact (total_pre _ _ (eval_expr e) _ (scopes_expr e) (total_id false)).
  - intros p parts H. cbn. exact (total_pre _ _ (eval_exprs (map snd parts)) _ (scopes_exprs _) (total_process_all p parts H)).
  - intros e b IHb o IHo [Hb Ho]. cbn [eval_stmt stmt_binds]. rewrite map_app. apply total_if; [apply IHb, Hb|]. destruct o; auto.
  - intros _. apply total_id.
  - intros s IHs b IHb [Hs Hb]. cbn [block_binds]. rewrite map_app.
    assert (Hseq : total false (eval_stmt s) (map fst (stmt_binds s)) -> total true (fun st => let? st1 := eval_stmt s st in eval_block b st1) (map fst (stmt_binds s) ++ map fst (block_binds b))).
    { intros Hs'. exact (total_seq _ _ _ _ _ Hs' (IHb Hb)). }
    destruct s; try (exact (Hseq (IHs Hs))); try contradiction.
    + apply total_terminate; [apply scopes_exprs|discriminate].
    + apply total_terminate; [apply scopes_exprs|discriminate].
  - intros _. apply total_id.
  - intros e b IHb o IHo [Hb Ho]. cbn [eval_orelse orelse_binds]. rewrite map_app. apply total_weaken, total_if; [apply IHb, Hb|]. destruct o; auto.
Qed.
Lemma total_params ps : total false (record_params ps) (map fst (map (fun p => (p_node p, p_name p, false)) ps)).
Proof. induction ps as [|p ps IH]; [apply total_id|]. exact (total_seq _ _ _ _ _ (total_record (p_name p) (p_node p) false) IH). Qed.

Lemma analyze_total f : block_plain (body f) -> distinct_binds f -> exists A, analyze f = Ok A.
Proof.
  intros Hb Hd. unfold distinct_binds, func_binds in Hd. rewrite map_app in Hd.
  destruct (total_seq _ _ _ _ _ (total_params (params f)) (proj1 (proj2 all_total) (body f) Hb) init (empty_scope false false) [empty_scope false false] eq_refl eq_refl Hd) as [st' [_ [E _]]].
  exists (anns st'). unfold analyze. apply rbind_ok in E. destruct E as [st1 [E1 E2]]. rewrite E1. cbn. rewrite E2. reflexivity.
Qed.
