(** Proofs about surrogates, registered quantizers and summaries. *)
From Coq Require Import String Ascii Sorted Permutation.
From Verif Require Import Prelude ModulesModel ModulesSpec ModulesProofs ModulesConvProofs QmModel QmSpec.
Local Open Scope nat_scope.
Local Open Scope list_scope.

(** ** Grouping and sorting *)
Section Grouping.
  Context {A K : Type} (eqb : K -> K -> bool).
  Variable eqb_ok : forall a b, eqb a b = true <-> a = b.

  Lemma append_to_in k (v : A) d : NoDup (map fst d) -> forall k' vs,
    In (k', vs) (append_to eqb k v d) <->
    (k' <> k /\ In (k', vs) d) \/ (k' = k /\ ((exists vs0, In (k, vs0) d /\ vs = vs0 ++ [v]) \/ (~ In k (map fst d) /\ vs = [v]))).
  Proof.
    induction d as [|[k0 vs0] d IH]; intros N k' vs; cbn [append_to map fst].
    - cbn. split.
      + intros [E|[]]. injection E as <- <-. right. split; [reflexivity|]. right. auto.
      + intros [[_ []]|[-> [(? & [] & _)|[_ ->]]]]. auto.
    - inversion N as [|? ? N0 N1]; subst. destruct (eqb k k0) eqn:E.
      + apply eqb_ok in E. subst k0. cbn [In]. split.
        * intros [E|E].
          -- injection E as <- <-. right. split; [reflexivity|]. left. exists vs0. auto.
          -- assert (k' <> k). { intros ->. apply N0. apply (in_map fst) in E. exact E. } left. auto.
        * intros [[H [E|E]]|[-> [(vs1 & [E|E] & ->)|[H _]]]].
          -- congruence.
          -- auto.
          -- injection E as <-. auto.
          -- exfalso. apply N0. apply (in_map fst) in E. exact E.
          -- exfalso. apply H. left. reflexivity.
      + assert (k <> k0). { intros ->. rewrite (proj2 (eqb_ok k0 k0) eq_refl) in E. discriminate. }
        cbn [In]. rewrite IH by assumption. clear IH E. split.
        * intros [E|[[H1 H2]|[-> [(vs1 & H1 & ->)|[H1 ->]]]]].
          -- injection E as <- <-. left. auto.
          -- left. auto.
          -- right. split; [reflexivity|]. left. exists vs1. auto.
          -- right. split; [reflexivity|]. right. split; [|reflexivity]. intros [E|E]; [congruence|contradiction].
        * intros [[H1 [H2|H2]]|[-> [(vs1 & [H1|H1] & ->)|[H1 ->]]]].
          -- auto.
          -- right. left. auto.
          -- congruence.
          -- right. right. split; [reflexivity|]. left. eauto.
          -- right. right. split; [reflexivity|]. right. tauto.
  Qed.
  Lemma append_to_keys k (v : A) d : map fst (append_to eqb k v d) = if existsb (eqb k) (map fst d) then map fst d else map fst d ++ [k].
  Proof.
    induction d as [|[k0 vs0] d IH]; cbn; [reflexivity|]. destruct (eqb k k0) eqn:E; cbn; [reflexivity|]. rewrite IH. destruct existsb; reflexivity.
  Qed.
  Lemma existsb_keys k l : existsb (eqb k) l = true <-> In k l.
  Proof.
    rewrite existsb_exists. split; [intros (x & H & E); apply eqb_ok in E; congruence|]. intros H. exists k. split; [assumption|]. now apply eqb_ok.
  Qed.
  Lemma append_to_nodup k (v : A) d : NoDup (map fst d) -> NoDup (map fst (append_to eqb k v d)).
  Proof.
    intros N. rewrite append_to_keys. destruct existsb eqn:E; [assumption|].
    apply ModulesProofs.NoDup_app; [assumption|constructor; [easy|constructor]|]. intros x Hx [<-|[]].
    apply existsb_keys in Hx. congruence.
  Qed.
  Lemma group_snoc (l : list (K * A)) k v : group eqb (l ++ [(k, v)]) = append_to eqb k v (group eqb l).
  Proof. unfold group. rewrite fold_left_app. reflexivity. Qed.
  Definition values (l : list (K * A)) (k : K) : list A := map snd (filter (fun kv => eqb k (fst kv)) l).
  Lemma values_app l l' k : values (l ++ l') k = values l k ++ values l' k.
  Proof. unfold values. now rewrite filter_app, map_app. Qed.
  Lemma values_nil l k : values l k = [] <-> ~ In k (map fst l).
  Proof.
    unfold values. split.
    - intros E H. apply in_map_iff in H. destruct H as ([k' v] & <- & H). cbn in E.
      assert (Hf : In (k', v) (filter (fun kv => eqb k' (fst kv)) l)). { apply filter_In. split; [assumption|]. now apply eqb_ok. }
      apply (in_map snd) in Hf. rewrite E in Hf. destruct Hf.
    - intros H. destruct (filter (fun kv => eqb k (fst kv)) l) as [|[k' v] r] eqn:E; [reflexivity|]. exfalso. apply H.
      assert (Hf : In (k', v) (filter (fun kv => eqb k (fst kv)) l)) by (rewrite E; left; reflexivity).
      apply filter_In in Hf. destruct Hf as [Hf Hk]. apply eqb_ok in Hk. cbn in Hk. subst k'. apply (in_map fst) in Hf. exact Hf.
  Qed.
  Lemma group_spec (l : list (K * A)) :
    NoDup (map fst (group eqb l)) /\
    (forall k vs, In (k, vs) (group eqb l) <-> vs = values l k /\ vs <> []) /\
    StronglySorted (appears_before fst l) (map fst (group eqb l)).
  Proof.
    induction l as [|[k v] l IH] using rev_ind.
    - cbn. split; [constructor|]. split; [|constructor]. intros k vs. split; [intros []|]. intros [-> H]. apply H. reflexivity.
    - destruct IH as (N & G & B). rewrite group_snoc. split; [now apply append_to_nodup|].
      assert (Keys : forall k', In k' (map fst (group eqb l)) <-> In k' (map fst l)).
      { intros k'. split.
        - intros H. apply in_map_iff in H. destruct H as ([k1 vs] & <- & H). apply G in H. destruct H as [-> H].
          cbn. destruct (existsb (eqb k1) (map fst l)) eqn:E; [now apply existsb_keys in E|]. exfalso. apply H. apply values_nil.
          intros Hin. apply existsb_keys in Hin. congruence.
        - intros H. apply (in_map fst (group eqb l) (k', values l k')). apply G. split; [reflexivity|]. intros E. now apply values_nil in E. }
      split.
      + intros k' vs. rewrite append_to_in by assumption. rewrite values_app. unfold values at 2. cbn [filter map fst].
        destruct (eqb k' k) eqn:E.
        * apply eqb_ok in E. subst k'. cbn [map snd]. split.
          -- intros [[H _]|[_ [(vs0 & H & ->)|[H ->]]]]; [congruence| |].
             ++ apply G in H. destruct H as [-> _]. split; [reflexivity|]. destruct (values l k); discriminate.
             ++ rewrite Keys in H. apply values_nil in H. rewrite H. split; [reflexivity|discriminate].
          -- intros [-> _]. right. split; [reflexivity|]. destruct (values l k) eqn:Ev.
             ++ right. rewrite Keys. split; [now apply values_nil|reflexivity].
             ++ left. eexists. split; [apply G; split; [reflexivity|rewrite Ev; discriminate]|]. rewrite Ev. reflexivity.
        * assert (k' <> k). { intros ->. rewrite (proj2 (eqb_ok k k) eq_refl) in E. discriminate. }
          cbn [map]. rewrite app_nil_r. rewrite <- G. split; [intros [[_ H0]|[H0 _]]; [assumption|congruence]|]. left. auto.
      + assert (B' : StronglySorted (appears_before fst (l ++ [(k, v)])) (map fst (group eqb l))).
        { assert (M : forall a b, appears_before fst l a b -> appears_before fst (l ++ [(k, v)]) a b).
          { intros a b (pre & x & post & -> & H). exists pre, x, (post ++ [(k, v)]). rewrite <- app_assoc. auto. }
          clear - B M. induction B; constructor; [assumption|]. eapply Forall_impl; [|eassumption]. auto. }
        rewrite append_to_keys. destruct existsb eqn:E; [assumption|].
        assert (Hk : ~ In k (map fst l)). { rewrite <- Keys, <- existsb_keys. congruence. }
        assert (W : forall a, In a (map fst (group eqb l)) -> appears_before fst (l ++ [(k, v)]) a k).
        { intros a Ha. rewrite Keys in Ha. apply in_map_iff in Ha. destruct Ha as (x & <- & Hx). apply in_split in Hx.
          destruct Hx as (pre & post & ->). exists pre, x, (post ++ [(k, v)]). rewrite <- app_assoc. split; [reflexivity|]. split; [reflexivity|].
          intros y Hy Ey. apply Hk. rewrite map_app. apply in_or_app. left. rewrite <- Ey. now apply in_map. }
        clear - B' W. induction B' as [|a r B' IH Fa]; cbn [app]; [constructor; constructor|]. constructor.
        * apply IH. intros b Hb. apply W. right. exact Hb.
        * apply Forall_app. split; [assumption|]. constructor; [apply W; left; reflexivity|constructor].
  Qed.

End Grouping.
Section Sorting.
  Context {A K : Type}.
  Definition stable (B : K -> K -> Prop) (a b : K * list A) : Prop :=
    length (snd b) < length (snd a) \/ (length (snd b) = length (snd a) /\ B (fst a) (fst b)).
  Lemma insert_by_perm (e : K * list A) l : Permutation (insert_by e l) (e :: l).
  Proof.
    induction l as [|e' l IH]; cbn [insert_by]; [reflexivity|]. destruct (_ <? _); [|reflexivity].
    rewrite IH. apply perm_swap.
  Qed.
  Lemma sort_by_perm (l : list (K * list A)) : Permutation (sort_by l) l.
  Proof. induction l as [|e l IH]; cbn [sort_by]; [reflexivity|]. rewrite insert_by_perm. now constructor. Qed.
  Lemma insert_by_sorted B (e : K * list A) l : StronglySorted (stable B) l -> Forall (fun x => B (fst e) (fst x)) l ->
    StronglySorted (stable B) (insert_by e l).
  Proof.
    intros Hs Hb. induction Hs as [|e' l Hs IH F]; cbn [insert_by]; [constructor; constructor|].
    inversion Hb as [|? ? Hb0 Hb1]; subst. destruct (length (snd e) <? length (snd e')) eqn:E.
    - apply Nat.ltb_lt in E. constructor; [auto|]. eapply Permutation_Forall; [symmetry; apply insert_by_perm|]. constructor; [left; exact E|assumption].
    - apply Nat.ltb_ge in E. constructor; [now constructor|]. apply Forall_forall. intros x Hx.
      rewrite Forall_forall in F, Hb. pose proof (Hb x Hx) as HB. unfold stable.
      assert (length (snd x) <= length (snd e')). { destruct Hx as [<-|Hx]; [lia|]. destruct (F x Hx) as [H|[H _]]; lia. }
      destruct (Nat.eq_dec (length (snd x)) (length (snd e))); [right; auto|left; lia].
  Qed.
  Lemma sort_by_sorted B (l : list (K * list A)) : StronglySorted B (map fst l) -> StronglySorted (stable B) (sort_by l).
  Proof.
    induction l as [|e l IH]; cbn [sort_by map]; intros H; [constructor|]. inversion H as [|? ? H0 H1]; subst.
    apply insert_by_sorted; [auto|]. eapply Permutation_Forall; [symmetry; apply sort_by_perm|].
    rewrite Forall_map in H1. exact H1.
  Qed.
End Sorting.
Section Sums.
  Context {A K : Type} (eqb : K -> K -> bool).
  Lemma append_to_sum k (v : A) d : list_sum (map (fun e => length (snd e)) (append_to eqb k v d)) = S (list_sum (map (fun e => length (snd e)) d)).
  Proof.
    induction d as [|[k0 vs] d IH]; cbn; [reflexivity|]. destruct eqb; cbn.
    - rewrite app_length. cbn. lia.
    - unfold list_sum in IH. rewrite IH. lia.
  Qed.
  Lemma group_sum (l : list (K * A)) : list_sum (map (fun e => length (snd e)) (group eqb l)) = length l.
  Proof.
    induction l as [|[k v] l IH] using rev_ind; [reflexivity|]. rewrite group_snoc, append_to_sum, IH, app_length. cbn. lia.
  Qed.
  Lemma sum_perm (l l' : list nat) : Permutation l l' -> list_sum l = list_sum l'.
  Proof. unfold list_sum. induction 1; cbn; lia. Qed.
End Sums.

Lemma filter_selects {A} (f : A -> bool) (P : A -> Prop) l : (forall x, In x l -> f x = true <-> P x) -> selects P l (filter f l).
Proof.
  induction l as [|x l IH]; intros H; cbn [filter]; [constructor|].
  assert (H' : forall x0, In x0 l -> f x0 = true <-> P x0) by (intros; apply H; right; assumption).
  specialize (H x (or_introl eq_refl)). destruct (f x).
  - constructor; [now apply H|auto].
  - constructor; [intros C; apply H in C; discriminate|auto].
Qed.
Lemma selects_fun {A} (P : A -> Prop) l a b : selects P l a -> selects P l b -> a = b.
Proof.
  intros H. revert b. induction H; intros b Hb; inversion Hb; subst; try contradiction; try reflexivity.
  - f_equal. auto.
  - auto.
Qed.

(** Summaries by [repr]. *)
Lemma summary_spec repr named :
  (forall r locs, In (r, locs) (summarize repr named) <->
     (exists nqs, selects (fun nq => repr (snd nq) = r) named nqs /\ locs = map fst nqs) /\ locs <> []) /\
  NoDup (map fst (summarize repr named)) /\
  StronglySorted (fun a b => length (snd b) < length (snd a) \/
    (length (snd b) = length (snd a) /\ appears_before (fun nq => repr (snd nq)) named (fst a) (fst b))) (summarize repr named) /\
  list_sum (map (fun s => length (snd s)) (summarize repr named)) = length named.
Proof.
  unfold summarize. set (l := map (fun nq => (repr (snd nq), fst nq)) named).
  destruct (group_spec String.eqb String.eqb_eq l) as (N & G & B).
  assert (V : forall r, values String.eqb l r = map fst (filter (fun nq => String.eqb r (repr (snd nq))) named)).
  { intros r. unfold values, l. clear. induction named as [|nq named IH]; cbn; [reflexivity|]. destruct (String.eqb r (repr (snd nq))); cbn; congruence. }
  assert (S : forall r, selects (fun nq => repr (snd nq) = r) named (filter (fun nq => String.eqb r (repr (snd nq))) named)).
  { intros r. apply filter_selects. intros x _. rewrite String.eqb_eq. split; congruence. }
  split; [|split; [|split]].
  - intros r locs. split.
    + intros H. apply (Permutation_in _ (sort_by_perm _)) in H. apply G in H. destruct H as [E H]. split; [|assumption].
      eexists. split; [apply S|]. rewrite <- V. exact E.
    + intros [(nqs & H1 & H2) H]. apply (Permutation_in _ (Permutation_sym (sort_by_perm _))). apply G. split; [|assumption].
      rewrite V, H2. f_equal. eapply selects_fun; [exact H1|apply S].
  - eapply Permutation_NoDup; [apply Permutation_map; symmetry; apply sort_by_perm|assumption].
  - assert (X : StronglySorted (stable (appears_before fst l)) (sort_by (group String.eqb l))) by (apply sort_by_sorted; assumption).
    revert X. generalize (sort_by (group String.eqb l)). clear. induction 1 as [|a r Hs IH F]; constructor; [assumption|].
    eapply Forall_impl; [|exact F]. intros b [H|[H (pre & x & post & E & E1 & E2)]]; [left; exact H|right; split; [exact H|]].
    unfold l in E. apply map_eq_app in E. destruct E as (l1 & l2 & -> & <- & E). destruct l2 as [|y l2]; [discriminate|].
    injection E as E3 E4. exists l1, y, l2. split; [reflexivity|]. split; [rewrite <- E1, <- E3; reflexivity|].
    intros z Hz. apply (E2 (repr (snd z), fst z)). apply in_map_iff. eauto.
  - rewrite (sum_perm _ _ (Permutation_map _ (sort_by_perm _))), group_sum. unfold l. apply map_length.
Qed.
