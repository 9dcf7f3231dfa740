(** Proofs for C100 and C101. *)
From Verif Require Import Prelude WrkModel WrkSpec.
Local Open Scope nat_scope.
Local Open Scope list_scope.

Lemma task_eqb_iff : forall a b, task_eqb a b = true <-> a = b.
Proof.
  intros [f|c n] [g|d m]; cbn; rewrite ?andb_true_iff, ?Nat.eqb_eq; split; intros H; try discriminate; try congruence.
  - destruct H; congruence.
  - injection H as -> ->. auto.
Qed.
Lemma unquantized_in : forall types discovered t, In t (unquantized discovered types) <-> In t types /\ ~ In t discovered.
Proof.
  induction types as [|x types IH]; intros disc t; cbn [unquantized]; [cbn; intuition|]. destruct (existsb (Nat.eqb x) disc) eqn:E.
  - apply existsb_exists in E. destruct E as (y & I & E). apply Nat.eqb_eq in E. subst y. rewrite IH. cbn. intuition. subst. contradiction.
  - assert (N : ~ In x disc). { intros I. assert (X : existsb (Nat.eqb x) disc = true) by (apply existsb_exists; exists x; split; [exact I | apply Nat.eqb_refl]). congruence. }
    cbn [In]. rewrite IH. cbn [In]. destruct (Nat.eq_dec x t) as [->|NE]; intuition.
Qed.
Lemma unquantized_nodup : forall types discovered, NoDup (unquantized discovered types).
Proof.
  induction types as [|x types IH]; intros disc; cbn [unquantized]; [constructor|]. destruct (existsb (Nat.eqb x) disc); [apply IH|]. constructor; [|apply IH].
  rewrite unquantized_in. intros [_ N]. apply N. left. reflexivity.
Qed.

Section Proofs.
  Variable member : nat -> nat -> nat.
  Variable convert : task -> option (list task).
  Variable first : list task.
  Notation fn := (function member).
  Notation skips := (skip member).
  Notation run := (work member convert).
  Notation use := (used convert first).

  Lemma skip_iff : forall done t, skips done t = true <-> In (Helper (fn t)) done \/ In t done.
  Proof.
    intros done t. unfold skip. rewrite orb_true_iff, !existsb_exists. split.
    - intros [([g|c n] & I & E)|(u & I & E)]; cbn in E; [apply Nat.eqb_eq in E; subst; auto | discriminate | apply task_eqb_iff in E; subst; auto].
    - intros [I|I]; [left; exists (Helper (fn t)); split; [exact I | cbn; apply Nat.eqb_refl] | right; exists t; split; [exact I | apply task_eqb_iff; reflexivity]].
  Qed.
  Lemma skip_not : forall done t, skips done t = false <-> ~ In (Helper (fn t)) done /\ ~ In t done.
  Proof. intros done t. pose proof (skip_iff done t). destruct (skips done t); intuition congruence. Qed.

  (** Everything waits in the queue, is converted, is done as a helper, or fails. *)
  Definition settled (queue done : list task) (t : task) : Prop := In t queue \/ In t done \/ In (Helper (fn t)) done \/ convert t = None.
  Definition inv (queue done : list task) : Prop :=
    NoDup done /\ (forall t, In t queue -> use t) /\ (forall t, In t done -> use t /\ convert t <> None) /\
    (forall t, In t first -> settled queue done t) /\ (forall t found u, In t done -> convert t = Some found -> In u found -> settled queue done u).
  Lemma settled_skip : forall t q d u, skips d t = true -> settled (t :: q) d u -> settled q d u.
  Proof. intros t q d u S [[<-|I]|H]; [|left; exact I | right; exact H]. apply skip_iff in S. unfold settled. tauto. Qed.
  Lemma settled_fail : forall t q d u, convert t = None -> settled (t :: q) d u -> settled q d u.
  Proof. intros t q d u S [[<-|I]|H]; [unfold settled; auto | left; exact I | right; exact H]. Qed.
  Lemma settled_done : forall t q d l u, settled (t :: q) d u -> settled (q ++ l) (d ++ [t]) u.
  Proof.
    intros t q d l u. unfold settled. rewrite !in_app_iff. cbn. intuition.
  Qed.
  Lemma inv_skip : forall t q d, skips d t = true -> inv (t :: q) d -> inv q d.
  Proof.
    intros t q d S (N & Q & D & F & G). repeat split; auto.
    - intros u I. apply Q. right. exact I.
    - apply D. assumption.
    - apply D. assumption.
    - intros u I. apply (settled_skip t); auto.
    - intros u l v I E J. apply (settled_skip t); eauto.
  Qed.
  Lemma inv_fail : forall t q d, convert t = None -> inv (t :: q) d -> inv q d.
  Proof.
    intros t q d S (N & Q & D & F & G). repeat split; auto.
    - intros u I. apply Q. right. exact I.
    - apply D. assumption.
    - apply D. assumption.
    - intros u I. apply (settled_fail t); auto.
    - intros u l v I E J. apply (settled_fail t); eauto.
  Qed.
  Lemma nodup_snoc : forall (l : list task) x, NoDup l -> ~ In x l -> NoDup (l ++ [x]).
  Proof.
    induction l as [|y l IH]; cbn; intros x N I; [constructor; [exact I | constructor]|]. inversion N; subst. constructor; [rewrite in_app_iff; cbn; intuition | apply IH; auto].
  Qed.
  Lemma inv_done : forall t q d l, skips d t = false -> convert t = Some l -> inv (t :: q) d -> inv (q ++ l) (d ++ [t]).
  Proof.
    intros t q d l S E (N & Q & D & F & G). apply skip_not in S. destruct S as [_ S]. assert (U : use t) by (apply Q; left; reflexivity). split; [|split; [|split; [|split]]].
    - apply nodup_snoc; assumption.
    - intros u I. apply in_app_or in I. destruct I as [I|I]; [apply Q; right; exact I | apply (used_by convert first t l u U E I)].
    - intros u I. apply in_app_or in I. destruct I as [I|[<-|[]]]; [apply D; exact I | split; [exact U | congruence]].
    - intros u I. apply settled_done. auto.
    - intros u l' v I E' J. apply in_app_or in I. destruct I as [I|[<-|[]]]; [apply settled_done; eauto|]. rewrite E in E'. injection E' as <-. left. apply in_or_app. right. exact J.
  Qed.
  Lemma work_inv : forall fuel q d r, inv q d -> run fuel q d = Some r -> inv [] r.
  Proof.
    induction fuel as [|n IH]; intros [|t q] d r V E; cbn [work] in E; try discriminate; try (injection E as <-; exact V).
    destruct (skips d t) eqn:S; [apply (IH q d r); [apply (inv_skip t); assumption | exact E]|].
    destruct (convert t) as [l|] eqn:C; [apply (IH (q ++ l) (d ++ [t]) r); [apply inv_done; assumption | exact E] | apply (IH q d r); [apply (inv_fail t); assumption | exact E]].
  Qed.
  Lemma inv_first : inv first [].
  Proof. repeat split; try contradiction; [constructor | intros t I; apply used_first; exact I | intros t I; left; exact I]. Qed.

  (** *** The end *)
  Lemma work_more : forall n m q d r, n <= m -> run n q d = Some r -> run m q d = Some r.
  Proof.
    induction n as [|n IH]; intros m q d r L E; destruct q as [|t q]; cbn [work] in E; try discriminate; try (injection E as <-; destruct m; reflexivity).
    destruct m as [|m]; [lia|]. cbn [work]. destruct (skips d t); [apply (IH m); [lia | exact E]|]. destruct (convert t); (apply (IH m); [lia | exact E]).
  Qed.
  Lemma work_ends : forall universe k d q, NoDup d -> (forall t, In t d -> In t universe) -> (forall t, use t -> In t universe) -> (forall t, In t q -> use t) ->
    k + length d = length universe -> NoDup universe -> exists fuel r, run fuel q d = Some r.
  Proof.
    intros universe. induction k as [k IHk] using (well_founded_induction lt_wf). intros d q. revert d. induction q as [|t q IHq]; intros d N D U Q K NU; [exists 0; eexists; reflexivity|].
    destruct (skips d t) eqn:S.
    - destruct (IHq d N D U) as (fuel & r & E); auto. { intros u I. apply Q. right. exact I. } exists (Datatypes.S fuel), r. cbn [work]. rewrite S. exact E.
    - destruct (convert t) as [l|] eqn:C.
      + pose proof S as S0. apply skip_not in S. destruct S as [_ S]. assert (Ut : use t) by (apply Q; left; reflexivity).
        assert (N' : NoDup (d ++ [t])) by (apply nodup_snoc; assumption).
        assert (I' : incl (d ++ [t]) universe). { intros u I. apply in_app_or in I. destruct I as [I|[<-|[]]]; auto. }
        pose proof (NoDup_incl_length N' I') as L. rewrite app_length in L. cbn in L.
        destruct (IHk (k - 1) ltac:(lia) (d ++ [t]) (q ++ l)) as (fuel & r & E); auto.
        { intros u I. apply in_app_or in I. destruct I as [I|I]; [apply Q; right; exact I | apply (used_by convert first t l u Ut C I)]. }
        { rewrite app_length. cbn. lia. }
        exists (Datatypes.S fuel), r. cbn [work]. rewrite S0, C. exact E.
      + destruct (IHq d N D U) as (fuel & r & E); auto. { intros u I. apply Q. right. exact I. } exists (Datatypes.S fuel), r. cbn [work]. rewrite S, C. exact E.
  Qed.
  Lemma task_dec : forall a b : task, {a = b} + {a <> b}.
  Proof. repeat decide equality. Qed.
  Lemma queue_ends : finite convert first -> exists fuel done, run fuel first [] = Some done.
  Proof.
    intros [universe U]. apply (work_ends (nodup task_dec universe) (length (nodup task_dec universe))); auto.
    - constructor.
    - contradiction.
    - intros t I. apply nodup_In. auto.
    - intros t I. apply used_first, I.
    - apply NoDup_nodup.
  Qed.
  Lemma queue_done : forall fuel done, run fuel first [] = Some done -> inv [] done.
  Proof. intros fuel done E. apply (work_inv fuel first []); [apply inv_first | exact E]. Qed.
  Lemma queue_exact : forall fuel done, separate member convert first -> run fuel first [] = Some done ->
    forall t, In t done <-> use t /\ converted convert t.
  Proof.
    intros fuel done Sep E t. destruct (queue_done fuel done E) as (N & _ & D & F & G). split.
    - intros I. destruct (D t I) as [U C]. split; [exact U|]. destruct (convert t) as [l|] eqn:X; [exists l; exact X | contradiction].
    - intros [U C]. assert (Z : forall u, use u -> settled [] done u -> converted convert u -> In u done).
      { intros u Uu [H|[H|[H|H]]] [l X]; [contradiction | exact H | | congruence]. destruct (D _ H) as [Uh _]. destruct u as [f|c n]; [exact H|].
        exfalso. apply (Sep c n (fn (Method c n)) Uu Uh). reflexivity. }
      induction U as [u I|u l v Uu IH X I]; [apply Z; auto; apply used_first; exact I|].
      apply Z; auto; [apply (used_by convert first u l v Uu X I)|]. apply (G u l v); auto. apply IH. exists l. exact X.
  Qed.

  (** *** The table of functions *)
  Lemma update_in : forall f t l g u, In (g, u) (update f t l) -> (g = f /\ u = t) \/ In (g, u) l.
  Proof.
    induction l as [|[h v] l IH]; cbn; intros g u; [intros [E|[]]; injection E as <- <-; auto|]. destruct (Nat.eqb_spec f h) as [->|N]; cbn; intros [E|I]; auto; [injection E as <- <-; auto|].
    destruct (IH g u I) as [H|H]; auto.
  Qed.
  Lemma update_new : forall f t l, In (f, t) (update f t l).
  Proof. induction l as [|[h v] l IH]; cbn; [auto|]. destruct (Nat.eqb_spec f h); cbn; auto. Qed.
  Lemma update_old : forall f t l g u, g <> f -> In (g, u) l -> In (g, u) (update f t l).
  Proof.
    induction l as [|[h v] l IH]; cbn; intros g u N I; [contradiction|]. destruct (Nat.eqb_spec f h) as [->|M]; cbn; destruct I as [E|I]; auto. injection E as -> ->. contradiction.
  Qed.
  Lemma discover_in : forall l t, In t (map snd (discover member l)) <-> exists l1 l2, l = l1 ++ t :: l2 /\ forall u, In u l2 -> fn u <> fn t.
  Proof.
    intros l. unfold discover. assert (A : forall l, forall g t, In (g, t) (fold_left (fun l t => update (fn t) t l) l []) <-> g = fn t /\ exists l1 l2, l = l1 ++ t :: l2 /\ forall u, In u l2 -> fn u <> fn t).
    { clear l. induction l as [|x l IH] using rev_ind; intros g t; [cbn; split; [contradiction | intros (_ & [|? ?] & ? & E & _); discriminate]|].
      rewrite fold_left_app. cbn [fold_left]. split.
      - intros I. destruct (update_in _ _ _ _ _ I) as [[-> ->]|J]; [split; [reflexivity|]; exists l, []; split; [reflexivity | contradiction]|].
        pose proof J as J0. apply IH in J. destruct J as (-> & l1 & l2 & -> & H).
        split; [reflexivity|]. destruct (Nat.eq_dec (fn x) (fn t)) as [E|N].
        + exists (l1 ++ t :: l2), []. clear -I E IH. assert (X : forall l0 y, In (fn t, y) (update (fn x) x l0) -> NoDup (map fst l0) -> fn x = fn t -> y = x).
          { clear. induction l0 as [|[h v] l0 IH]; cbn; intros y I N E; [destruct I as [I|[]]; congruence|]. inversion N; subst. destruct (Nat.eqb_spec (fn x) h) as [Eh|M]; cbn in I.
            - destruct I as [I|I]; [congruence|]. exfalso. match goal with H : ~ In h _ |- _ => apply H end. rewrite <- Eh, E. apply (in_map fst _ _ I).
            - destruct I as [I|I]; [congruence | apply IH; auto]. }
          assert (Y : forall l0, NoDup (map fst (fold_left (fun l t => update (fn t) t l) l0 []))).
          { assert (U : forall f t l0, NoDup (map fst l0) -> NoDup (map fst (update f t l0))).
            { clear. induction l0 as [|[h v] l0 IH]; cbn; intros N; [constructor; [intros [] | constructor]|]. inversion N; subst. destruct (Nat.eqb_spec f h) as [->|M]; cbn; constructor; auto.
              intros I. apply in_map_iff in I. destruct I as ([g u] & E & I). cbn in E. subst g. destruct (update_in _ _ _ _ _ I) as [[-> _]|J]; [congruence|]. match goal with H : ~ In h _ |- _ => apply H end. apply (in_map fst _ _ J). }
            clear -U. intros l0. induction l0 as [|y l0 IH] using rev_ind; [constructor|]. rewrite fold_left_app. cbn. apply U, IH. }
          rewrite (X _ t I (Y _) E). split; [reflexivity | contradiction].
        + exists l1, (l2 ++ [x]). split; [rewrite <- app_assoc; reflexivity|]. intros u J. apply in_app_or in J. destruct J as [J|[<-|[]]]; auto.
      - intros (-> & l1 & l2 & E & H). destruct l2 as [|y l2] using rev_ind.
        + apply app_inj_tail in E. destruct E as [-> ->]. apply update_new.
        + clear IHl2. rewrite app_comm_cons, app_assoc in E. apply app_inj_tail in E. destruct E as [-> ->]. apply update_old.
          * intros F. apply (H y); [apply in_or_app; right; left; reflexivity | symmetry; exact F].
          * apply IH. split; [reflexivity|]. exists l1, l2. split; [reflexivity|]. intros u J. apply H, in_or_app. left. exact J. }
    intros t. rewrite in_map_iff. split.
    - intros ([g u] & <- & I). apply A in I. apply I.
    - intros H. exists (fn t, t). split; [reflexivity|]. apply A. auto.
  Qed.
  Lemma builders_in : forall done t, In t (builders done) <-> In t done.
  Proof. intros done t. unfold builders. rewrite in_app_iff, !filter_In. destruct (is_method t) eqn:E; cbn; intuition congruence. Qed.
  Lemma nodup_filter : forall (f : task -> bool) l, NoDup l -> NoDup (filter f l).
  Proof. intros f l N. induction N as [|x l I N IH]; cbn; [constructor|]. destruct (f x); [constructor; [rewrite filter_In; intuition | exact IH] | exact IH]. Qed.
  Lemma builders_nodup : forall done, NoDup done -> NoDup (builders done).
  Proof.
    intros done N. unfold builders. pose proof (nodup_filter (fun t => negb (is_method t)) done N) as A. pose proof (nodup_filter is_method done N) as B.
    assert (C : forall t, In t (filter (fun t => negb (is_method t)) done) -> ~ In t (filter is_method done)). { intros t I J. apply filter_In in I, J. destruct I as [_ I], J as [_ J]. rewrite J in I. discriminate. }
    revert C. induction A as [|x l I A IH]; cbn; intros C; [exact B|]. constructor; [rewrite in_app_iff; intros [H|H]; [contradiction | apply (C x); auto] | apply IH; intros t J; apply C; auto].
  Qed.
  Lemma resolved_all : forall done, NoDup done -> (forall t u, In t done -> In u done -> fn t = fn u -> t = u) -> forall t, In t (resolved member done) <-> In t done.
  Proof.
    intros done N U t. unfold resolved. rewrite discover_in. split.
    - intros (l1 & l2 & E & _). apply builders_in. rewrite E. apply in_or_app. right. left. reflexivity.
    - intros I. apply builders_in in I. destruct (in_split _ _ I) as (l1 & l2 & E). exists l1, l2. split; [exact E|]. intros u J F.
      assert (u = t). { apply U; auto; apply builders_in; rewrite E; apply in_or_app; right; [right; exact J | left; reflexivity]. } subst u.
      pose proof (builders_nodup done N) as B. rewrite E in B. apply NoDup_remove_2 in B. apply B, in_or_app. right. exact J.
  Qed.
  Lemma resolved_some : forall done t, In t (resolved member done) -> In t done.
  Proof. intros done t. unfold resolved. rewrite discover_in. intros (l1 & l2 & E & _). apply builders_in. rewrite E. apply in_or_app. right. left. reflexivity. Qed.
End Proofs.
