(** Proofs about fusing weights. *)
From Coq Require Import String.
From Verif Require Import Prelude TilingModel TilingSpec AffineModel FuseModel FuseSpec FuseFloatProofs.
From Coq Require Import QArith Permutation.
Local Open Scope nat_scope.

(** ** Memory *)

Lemma write_gen l : forall (m : memory) a,
  ~ In a (map fst l) ->
  fold_left (fun (m : memory) p => fun a => if a =? fst p then snd p else m a) l m a = m a.
Proof.
  induction l as [|[b x] l IH]; intros m a H; [reflexivity|]. cbn [fold_left map fst snd In] in *.
  rewrite IH by tauto. destruct (Nat.eqb_spec a b); [subst; tauto|reflexivity].
Qed.

Lemma map_fst_combine {A B} (l : list A) (l' : list B) : length l = length l' -> map fst (combine l l') = l.
Proof. revert l'. induction l; intros [|b l'] H; try discriminate; cbn; [reflexivity|]. f_equal. apply IHl. now injection H. Qed.

Lemma in_map_fst_combine {A B} (l : list A) (l' : list B) a : In a (map fst (combine l l')) -> In a l.
Proof. revert l'. induction l; intros [|b l'] H; cbn in *; try tauto. destruct H; [left; assumption|right; eauto]. Qed.

Lemma write_other m v t a : ~ In a (addrs v) -> write m v t a = m a.
Proof. intros H. unfold write. apply write_gen. intros H'. apply H. eapply in_map_fst_combine; eassumption. Qed.

Lemma write_in_gen l l' : forall (m : memory), NoDup l -> length l = length l' ->
  map (fold_left (fun (m : memory) p => fun a => if a =? fst p then snd p else m a) (combine l l') m) l = l'.
Proof.
  revert l'. induction l as [|a l IH]; intros [|x l'] m N L; try discriminate; [reflexivity|].
  cbn [combine fold_left fst snd map]. inversion N as [|? ? Na Nl]; subst. f_equal.
  - rewrite write_gen; [now rewrite Nat.eqb_refl|]. intros H. apply Na. eapply in_map_fst_combine; eassumption.
  - apply IH; [assumption|now injection L].
Qed.

Lemma read_write m v t : proper v -> shape t = vshape v -> length (data t) = prod (vshape v) ->
  read (write m v t) v = t.
Proof.
  intros [N L] S D. unfold read, write. rewrite write_in_gen by congruence. rewrite <- S. now destruct t.
Qed.

Lemma read_ext m m' v : (forall a, In a (addrs v) -> m a = m' a) -> read m v = read m' v.
Proof. intros H. unfold read. f_equal. apply map_ext_in. exact H. Qed.

Lemma read_teq m m' v : teq (read m v) (read m' v) <-> (forall a, In a (addrs v) -> m a == m' a)%Q.
Proof.
  unfold teq, read. cbn [shape data]. split.
  - intros [_ F]. revert F. induction (addrs v) as [|b l IH]; intros F a H; [destruct H|].
    cbn [map] in F. inversion F; subst. destruct H as [<-|H]; [assumption|]. now apply IH.
  - intros H. split; [reflexivity|]. induction (addrs v) as [|b l IH]; cbn [map]; constructor.
    + apply H. now left.
    + apply IH. intros a Ha. apply H. now right.
Qed.

Lemma read_disjoint m v w t : disjoint v w -> read (write m v t) w = read m w.
Proof. intros D. apply read_ext. intros a H. apply write_other. intros H'. exact (D a H' H). Qed.

(** ** Comparison *)

Lemma torch_equal_teq a b : torch_equal a b = true <-> teq a b.
Proof.
  unfold torch_equal, teq. rewrite !Bool.andb_true_iff, size_eqb_eq, Nat.eqb_eq.
  split.
  - intros [[S L] F]. split; [exact S|]. revert L F. generalize (data b). induction (data a) as [|x l IH]; intros [|y l'] L F; try discriminate; constructor.
    + cbn in F. apply Bool.andb_true_iff in F. now apply Qeq_bool_eq.
    + cbn in F. apply Bool.andb_true_iff in F. apply IH; [now injection L|tauto].
  - intros [S F]. split; [split; [exact S|now apply Forall2_length in F]|].
    induction F; cbn; [reflexivity|]. apply Bool.andb_true_iff. split; [now apply Qeq_bool_iff|assumption].
Qed.

Lemma same_key_spec a b : same_key a b = true <-> ptr a = ptr b /\ vshape a = vshape b.
Proof. unfold same_key. rewrite Bool.andb_true_iff, Nat.eqb_eq, size_eqb_eq. reflexivity. Qed.

(** ** Groups *)

Definition sk (t u : target) : bool := same_key (t_weight t) (t_weight u).

Lemma sk_refl t : sk t t = true.
Proof. apply same_key_spec. auto. Qed.
Lemma sk_sym t u : sk t u = sk u t.
Proof.
  destruct (sk t u) eqn:E, (sk u t) eqn:E'; try reflexivity;
  [apply same_key_spec in E|apply same_key_spec in E'];
  [assert (sk u t = true)|assert (sk t u = true)]; try congruence; apply same_key_spec; intuition congruence.
Qed.
Lemma sk_trans t u v : sk t u = true -> sk t v = sk u v.
Proof.
  intros E. apply same_key_spec in E. destruct E as [E1 E2]. unfold sk, same_key. now rewrite E1, E2.
Qed.

Definition hd_sk (t : target) (g : list target) : bool := match g with h :: _ => sk h t | [] => false end.

Lemma add_group_spec t gs :
  (forall i j g g', nth_error gs i = Some g -> nth_error gs j = Some g' -> hd_sk t g = true -> hd_sk t g' = true -> i = j) ->
  forall g', In g' (add_group t gs) <->
    (In g' gs /\ hd_sk t g' = false) \/ (exists g, In g gs /\ hd_sk t g = true /\ g' = g ++ [t]) \/
    ((forall g, In g gs -> hd_sk t g = false) /\ g' = [t]).
Proof.
  induction gs as [|g gs IH]; intros U g'.
  - cbn. split; [intros [<-|[]]; right; right; split; [tauto|reflexivity]|].
    intros [[[] _]|[(? & [] & _)|[_ ->]]]. now left.
  - assert (E : add_group t (g :: gs) = if hd_sk t g then (g ++ [t]) :: gs else g :: add_group t gs).
    { cbn [add_group]. destruct g as [|h g]; [reflexivity|]. cbn [hd_sk]. unfold sk. now destruct (same_key _ _). }
    rewrite E. destruct (hd_sk t g) eqn:H.
    + cbn [In]. split.
      * intros [<-|I]; [right; left; exists g; auto|].
        left. split; [now right|]. destruct (hd_sk t g') eqn:H'; [|reflexivity].
        apply In_nth_error in I. destruct I as [k Hk]. specialize (U 0 (S k) g g' eq_refl Hk H H'). discriminate.
      * intros [[[<-|I] H']|[(g0 & [<-|I] & H0 & ->)|[A _]]].
        -- congruence.
        -- now right.
        -- now left.
        -- apply In_nth_error in I. destruct I as [k Hk]. specialize (U 0 (S k) g g0 eq_refl Hk H H0). discriminate.
        -- specialize (A g (or_introl eq_refl)). congruence.
    + assert (U' : forall i j g g', nth_error gs i = Some g -> nth_error gs j = Some g' -> hd_sk t g = true -> hd_sk t g' = true -> i = j).
      { intros i j a b Ha Hb Ta Tb. specialize (U (S i) (S j) a b Ha Hb Ta Tb). now injection U. }
      cbn [In]. rewrite (IH U'). split.
      * intros [<-|[[I H']|[(g0 & I & H0 & ->)|[A ->]]]].
        -- left. auto.
        -- left. auto.
        -- right. left. exists g0. auto.
        -- right. right. split; [|reflexivity]. intros g0 [<-|I]; [assumption|now apply A].
      * intros [[[<-|I] H']|[(g0 & [<-|I] & H0 & ->)|[A ->]]].
        -- now left.
        -- right. left. auto.
        -- congruence.
        -- right. right. left. exists g0. auto.
        -- right. right. right. split; [|reflexivity]. intros g0 I. apply A. now right.
Qed.

Lemma add_group_nth t gs i g' : nth_error (add_group t gs) i = Some g' ->
  (exists g, nth_error gs i = Some g /\ (g' = g \/ (g' = g ++ [t] /\ hd_sk t g = true))) \/
  (i = length gs /\ g' = [t] /\ forall g, In g gs -> hd_sk t g = false).
Proof.
  revert i g'. induction gs as [|g gs IH]; intros i g' H.
  - cbn in H. destruct i; [|destruct i; discriminate]. injection H as <-. right. split; [reflexivity|]. split; [reflexivity|]. intros ? [].
  - assert (E : add_group t (g :: gs) = if hd_sk t g then (g ++ [t]) :: gs else g :: add_group t gs).
    { cbn [add_group]. destruct g as [|h g]; [reflexivity|]. cbn [hd_sk]. unfold sk. now destruct (same_key _ _). }
    rewrite E in H. clear E. destruct (hd_sk t g) eqn:Hd.
    + left. destruct i; cbn [nth_error] in *.
      * injection H as <-. exists g. auto.
      * exists g'. auto.
    + destruct i; cbn [nth_error length] in *.
      * injection H as <-. left. exists g. auto.
      * destruct (IH _ _ H) as [L|(-> & -> & A)]; [left; exact L|]. right. split; [reflexivity|]. split; [reflexivity|].
        intros g0 [<-|I]; [assumption|now apply A].
Qed.

Lemma hd_sk_filter t u ts : In u ts -> hd_sk t (filter (sk u) ts) = sk u t.
Proof.
  intros I. destruct (filter (sk u) ts) as [|h l] eqn:E.
  - assert (In u (filter (sk u) ts)) by (apply filter_In; split; [assumption|apply sk_refl]). rewrite E in H. destruct H.
  - cbn. assert (H : In h (filter (sk u) ts)) by (rewrite E; now left). apply filter_In in H. symmetry. apply sk_trans. apply H.
Qed.

Lemma filter_sk_eq t u ts : sk t u = true -> filter (sk t) ts = filter (sk u) ts.
Proof. intros E. apply filter_ext. intros v. now apply sk_trans. Qed.

Lemma groups_spec ts :
  (forall g, In g (groups ts) <-> exists t, In t ts /\ g = filter (sk t) ts) /\
  (forall i j g g' u, nth_error (groups ts) i = Some g -> nth_error (groups ts) j = Some g' ->
     hd_sk u g = true -> hd_sk u g' = true -> i = j).
Proof.
  induction ts as [|t ts [IH U]] using rev_ind.
  - split; [intros g; split; [intros []|intros (? & [] & _)]|]. intros i j g g' u H. destruct i; discriminate.
  - unfold groups in *. rewrite fold_left_app. cbn [fold_left]. set (gs := fold_left _ ts []) in *.
    assert (Ut : forall i j g g', nth_error gs i = Some g -> nth_error gs j = Some g' -> hd_sk t g = true -> hd_sk t g' = true -> i = j)
      by (intros; eapply U; eassumption).
    split.
    + intros g'. rewrite (add_group_spec t gs Ut). split.
      * intros [[I H]|[(g & I & H & ->)|[A ->]]].
        -- apply IH in I. destruct I as (u & I & ->). exists u. split; [apply in_or_app; auto|].
           rewrite filter_app. cbn [filter]. rewrite hd_sk_filter in H by assumption. now rewrite H, app_nil_r.
        -- apply IH in I. destruct I as (u & I & ->). rewrite hd_sk_filter in H by assumption. exists t.
           split; [apply in_or_app; right; now left|]. rewrite filter_app. cbn [filter]. rewrite sk_refl.
           f_equal. now apply filter_sk_eq.
        -- exists t. split; [apply in_or_app; right; now left|]. rewrite filter_app. cbn [filter]. rewrite sk_refl.
           replace (filter (sk t) ts) with (@nil target); [reflexivity|]. symmetry.
           destruct (filter (sk t) ts) as [|u l] eqn:E; [reflexivity|].
           assert (I : In u (filter (sk t) ts)) by (rewrite E; now left). apply filter_In in I. destruct I as [I K].
           specialize (A (filter (sk u) ts)). rewrite hd_sk_filter in A by assumption. rewrite sk_sym in K. rewrite K in A.
           discriminate A. apply IH. eauto.
      * intros (u & I & ->). rewrite filter_app. cbn [filter]. apply in_app_or in I. destruct (sk u t) eqn:K.
        -- destruct (existsb (sk t) ts) eqn:X.
           ++ apply existsb_exists in X. destruct X as (v & Iv & Kv). right. left. exists (filter (sk u) ts).
              assert (Kuv : sk u v = true) by (rewrite (sk_trans _ _ v K); exact Kv).
              split; [apply IH; exists v; split; [assumption|now apply filter_sk_eq]|]. split; [|reflexivity].
              rewrite (filter_sk_eq u v) by assumption. rewrite hd_sk_filter by assumption.
              rewrite <- (sk_trans _ _ t Kuv). exact K.
           ++ right. right. split.
              ** intros g Hg. apply IH in Hg. destruct Hg as (v & Iv & ->). rewrite hd_sk_filter by assumption.
                 rewrite sk_sym. destruct (sk t v) eqn:E; [|reflexivity].
                 assert (existsb (sk t) ts = true) by (apply existsb_exists; eauto). congruence.
              ** replace (filter (sk u) ts) with (@nil target); [reflexivity|]. symmetry.
                 rewrite (filter_sk_eq u t) by assumption.
                 destruct (filter (sk t) ts) as [|v l] eqn:E; [reflexivity|].
                 assert (Iv : In v (filter (sk t) ts)) by (rewrite E; now left). apply filter_In in Iv.
                 assert (existsb (sk t) ts = true) by (apply existsb_exists; eauto). congruence.
        -- left. destruct I as [I|[<-|[]]]; [|rewrite sk_refl in K; discriminate].
           rewrite app_nil_r. rewrite hd_sk_filter by assumption. split; [apply IH; eauto|exact K].
    + intros i j g g' u Hi Hj Tg Tg'.
      assert (N : forall g, In g gs -> g <> []).
      { intros g0 I. apply IH in I. destruct I as (v & Iv & ->). intros E.
        assert (X : In v (filter (sk v) ts)) by (apply filter_In; split; [assumption|apply sk_refl]). rewrite E in X. destruct X. }
      assert (Hd : forall g u, In g gs -> hd_sk u (g ++ [t]) = hd_sk u g).
      { intros g0 u0 I. specialize (N g0 I). destruct g0; [congruence|reflexivity]. }
      destruct (add_group_nth _ _ _ _ Hi) as [(g1 & H1 & C1)|(-> & -> & A1)];
      destruct (add_group_nth _ _ _ _ Hj) as [(g2 & H2 & C2)|(-> & -> & A2)].
      * pose proof (nth_error_In _ _ H1) as I1. pose proof (nth_error_In _ _ H2) as I2.
        apply (U i j g1 g2 u H1 H2).
        -- destruct C1 as [->|[-> _]]; [assumption|]. now rewrite Hd in Tg.
        -- destruct C2 as [->|[-> _]]; [assumption|]. now rewrite Hd in Tg'.
      * exfalso. pose proof (nth_error_In _ _ H1) as I1. specialize (A2 g1 I1).
        assert (T1 : hd_sk u g1 = true) by (destruct C1 as [->|[-> _]]; [assumption|now rewrite Hd in Tg]).
        cbn in Tg'. destruct g1 as [|h g1]; [discriminate|]. cbn in T1, A2.
        rewrite sk_sym in A2. rewrite (sk_trans _ _ h Tg'), sk_sym in A2. congruence.
      * exfalso. pose proof (nth_error_In _ _ H2) as I2. specialize (A1 g2 I2).
        assert (T1 : hd_sk u g2 = true) by (destruct C2 as [->|[-> _]]; [assumption|now rewrite Hd in Tg']).
        cbn in Tg. destruct g2 as [|h g2]; [discriminate|]. cbn in T1, A1.
        rewrite sk_sym in A1. rewrite (sk_trans _ _ h Tg), sk_sym in A1. congruence.
      * reflexivity.
Qed.

Lemma rmapM_ok_all {A B} (f : A -> result B) l : (exists r, rmapM f l = Ok r) <-> (forall a, In a l -> exists b, f a = Ok b).
Proof.
  induction l as [|a l IH]; cbn [rmapM].
  - split; [intros _ a []|intros _; eauto].
  - split.
    + intros [r H]. destruct (f a) as [b|] eqn:E; [|discriminate]. cbn [rbind] in H.
      destruct (rmapM f l) as [bs|] eqn:E2; [|discriminate]. intros a' [<-|I]; [eauto|]. apply IH; eauto.
    + intros H. destruct (H a (or_introl eq_refl)) as [b E]. rewrite E. cbn [rbind].
      destruct (proj2 IH) as [bs E2]; [intros a' I; apply H; now right|]. rewrite E2. cbn [rbind]. eauto.
Qed.

Section Fuse.
  Variable call : nat -> tensor Q -> result outcome.

  Lemma check_tied_ok m ts :
    check_tied call m ts = Ok tt <-> (forall t, In t ts -> exists u, check_group call m (filter (sk t) ts) = Ok u).
  Proof.
    unfold check_tied. destruct (groups_spec ts) as [G _].
    assert (E : (rmap (fun _ => tt) (rmapM (check_group call m) (groups ts)) = Ok tt) <->
                (exists r, rmapM (check_group call m) (groups ts) = Ok r)).
    { destruct (rmapM _ _); cbn; split; try discriminate; eauto. intros [r H]. discriminate. }
    rewrite E, rmapM_ok_all. split.
    - intros H t I. apply H. apply G. eauto.
    - intros H g I. apply G in I. destruct I as (t & It & ->). now apply H.
  Qed.

  Lemma check_members_some w r g :
    (exists u, check_members call w (Some r) g = Ok u) <->
    (forall t, In t g -> exists o, call (t_quant t) w = Ok o /\ teq r (value w o)).
  Proof.
    induction g as [|t g IH]; cbn [check_members]; [split; [intros _ t []|eauto]|].
    split.
    - intros [u H]. destruct (call (t_quant t) w) as [o|] eqn:E; [|discriminate]. cbn [rbind] in H.
      destruct (torch_equal r (value w o)) eqn:T; [|discriminate]. apply torch_equal_teq in T.
      intros t' [<-|I]; [eauto|]. apply IH; eauto.
    - intros H. destruct (H t (or_introl eq_refl)) as (o & E & T). rewrite E. cbn [rbind].
      rewrite (proj2 (torch_equal_teq r (value w o)) T). apply IH. intros t' I. apply H. now right.
  Qed.

  Lemma check_group_ok m g :
    (exists u, check_group call m g = Ok u) <->
    (length g <= 1 \/
     exists h, hd_error g = Some h /\ exists r, forall t, In t g ->
        exists o, call (t_quant t) (read m (t_weight h)) = Ok o /\ teq r (value (read m (t_weight h)) o)).
  Proof.
    unfold check_group. destruct g as [|h [|h2 g]].
    - split; [left; cbn; lia|eauto].
    - split; [left; cbn; lia|eauto].
    - set (g' := h2 :: g). cbn [check_members hd_error]. set (w := read m (t_weight h)). split.
      + intros [u H]. right. exists h. split; [reflexivity|].
        destruct (call (t_quant h) w) as [o|] eqn:E; [|discriminate]. cbn [rbind] in H.
        exists (value w o). assert (X : exists u, check_members call w (Some (value w o)) g' = Ok u) by eauto.
        rewrite check_members_some in X. intros t [<-|I]; [exists o; split; [exact E|apply teq_refl]|]. now apply X.
      + intros [L|(h' & Hh & r & A)]; [cbn in L; lia|]. injection Hh as <-.
        destruct (A h (or_introl eq_refl)) as (o & E & T). fold w in E, T. rewrite E. cbn [rbind].
        apply check_members_some. intros t I. destruct (A t (or_intror I)) as (o' & E' & T'). fold w in E', T'.
        exists o'. split; [exact E'|]. eapply teq_trans; [apply teq_sym; exact T|exact T'].
  Qed.

  (** ** The fused memory *)

  Variable ts : list target.
  Hypothesis ties : plain_ties ts.

  Lemma sk_weight a b : In a ts -> In b ts -> sk a b = true -> t_weight a = t_weight b.
  Proof.
    intros Ia Ib K. apply same_key_spec in K. destruct (proj2 ties a b Ia Ib) as [E|[_ N]]; [exact E|]. contradiction.
  Qed.
  Lemma nsk_disjoint a b : In a ts -> In b ts -> sk a b = false -> disjoint (t_weight a) (t_weight b).
  Proof.
    intros Ia Ib K. destruct (proj2 ties a b Ia Ib) as [E|[D _]]; [|exact D].
    unfold sk in K. rewrite E in K. assert (same_key (t_weight b) (t_weight b) = true) by (apply same_key_spec; auto). congruence.
  Qed.

  (** Two targets on different positions with the same weight have been compared. *)
  Lemma tied_checked m a b :
    check_tied call m ts = Ok tt -> In a ts -> In b ts -> sk a b = true ->
    (a <> b \/ exists pre mid post, ts = pre ++ a :: mid ++ b :: post) ->
    exists oa ob, call (t_quant a) (read m (t_weight a)) = Ok oa /\ call (t_quant b) (read m (t_weight a)) = Ok ob /\
      teq (value (read m (t_weight a)) oa) (value (read m (t_weight a)) ob).
  Proof.
    intros C Ia Ib K D. rewrite check_tied_ok in C. specialize (C a Ia). apply check_group_ok in C.
    assert (Ga : In a (filter (sk a) ts)) by (apply filter_In; split; [assumption|apply sk_refl]).
    assert (Gb : In b (filter (sk a) ts)) by (apply filter_In; auto).
    destruct C as [L|(h & Hh & r & A)].
    - exfalso. destruct D as [D|(pre & mid & post & E)].
      + destruct (filter (sk a) ts) as [|x [|y l]]; cbn in *; try lia; try tauto.
        destruct Ga as [<-|[]], Gb as [<-|[]]. congruence.
      + rewrite E, filter_app in L. cbn [filter] in L. rewrite sk_refl, filter_app in L. cbn [filter] in L.
        rewrite K, !app_length in L. cbn [length] in L. rewrite app_length in L. cbn [length] in L. lia.
    - assert (Hin : In h (filter (sk a) ts)) by (destruct (filter (sk a) ts); [discriminate|injection Hh as ->; now left]).
      apply filter_In in Hin. destruct Hin as [Ih Kh].
      rewrite <- (sk_weight a h Ia Ih Kh) in A.
      destruct (A a Ga) as (oa & Ea & Ta). destruct (A b Gb) as (ob & Eb & Tb).
      exists oa, ob. split; [exact Ea|]. split; [exact Eb|]. eapply teq_trans; [apply teq_sym; exact Ta|exact Tb].
  Qed.

  Lemma tied_agree m a b oa ob :
    check_tied call m ts = Ok tt -> In a ts -> In b ts -> sk a b = true ->
    call (t_quant a) (read m (t_weight a)) = Ok oa -> call (t_quant b) (read m (t_weight a)) = Ok ob ->
    teq (value (read m (t_weight a)) oa) (value (read m (t_weight a)) ob).
  Proof.
    intros C Ia Ib K Ea Eb.
    assert (D : {a = b} + {a <> b}).
    { destruct a as [a1 [p1 s1 l1] a3], b as [b1 [p2 s2 l2] b3]. decide equality; [apply Nat.eq_dec| |apply Nat.eq_dec].
      decide equality; [apply (list_eq_dec Nat.eq_dec)|apply (list_eq_dec Nat.eq_dec)|apply Nat.eq_dec]. }
    destruct D as [->|D].
    - rewrite Ea in Eb. injection Eb as <-. apply teq_refl.
    - destruct (tied_checked m a b C Ia Ib K (or_introl D)) as (oa' & ob' & Ea' & Eb' & T).
      rewrite Ea in Ea'. injection Ea' as <-. rewrite Eb in Eb'. injection Eb' as <-. exact T.
  Qed.

  (** If all quantizers of tied weights agree, the check passes. *)
  Lemma check_complete m :
    (forall t, In t ts -> exists o, call (t_quant t) (read m (t_weight t)) = Ok o) ->
    (forall a b oa ob, In a ts -> In b ts -> t_weight a = t_weight b ->
       call (t_quant a) (read m (t_weight a)) = Ok oa -> call (t_quant b) (read m (t_weight b)) = Ok ob ->
       teq (value (read m (t_weight a)) oa) (value (read m (t_weight b)) ob)) ->
    check_tied call m ts = Ok tt.
  Proof.
    intros O A. apply check_tied_ok. intros t It. apply check_group_ok. right.
    destruct (filter (sk t) ts) as [|h l] eqn:E.
    - assert (X : In t (filter (sk t) ts)) by (apply filter_In; split; [assumption|apply sk_refl]). rewrite E in X. destruct X.
    - exists h. split; [reflexivity|].
      assert (Hh : In h (filter (sk t) ts)) by (rewrite E; now left). apply filter_In in Hh. destruct Hh as [Ih Kh].
      destruct (O h Ih) as [oh Eh]. exists (value (read m (t_weight h)) oh). intros u Iu. rewrite <- E in Iu.
      apply filter_In in Iu. destruct Iu as [Iu Ku].
      assert (Khu : sk h u = true) by (rewrite <- (sk_trans _ _ u Kh); exact Ku).
      pose proof (sk_weight h u Ih Iu Khu) as W. destruct (O u Iu) as [ou Eu].
      specialize (A h u oh ou Ih Iu W Eh Eu). rewrite W in *. eauto.
  Qed.

  Hypothesis stable : forall t, In t ts -> stable_on (vshape (t_weight t)) (call (t_quant t)).

  Section Run.
    Variable m0 : memory.
    Hypothesis checked : check_tied call m0 ts = Ok tt.

    Definition inv (done : list target) (m : memory) : Prop :=
      (forall a, (forall t, In t done -> ~ In a (addrs (t_weight t))) -> m a = m0 a) /\
      (forall t, In t done -> exists o, call (t_quant t) (read m0 (t_weight t)) = Ok o /\
         teq (read m (t_weight t)) (value (read m0 (t_weight t)) o)).

    Lemma read_shape m t : In t ts -> shape (read m (t_weight t)) = vshape (t_weight t) /\
      length (data (read m (t_weight t))) = prod (vshape (t_weight t)).
    Proof. intros I. split; [reflexivity|]. cbn. rewrite map_length. apply (proj1 ties t I). Qed.

    (** The quantizer's result on the current memory, given its result on the original. *)
    Lemma step_call m t o :
      In t ts -> call (t_quant t) (read m0 (t_weight t)) = Ok o ->
      teq (read m (t_weight t)) (value (read m0 (t_weight t)) o) ->
      exists o', call (t_quant t) (read m (t_weight t)) = Ok o' /\
        teq (value (read m (t_weight t)) o') (value (read m0 (t_weight t)) o) /\ (o' = Same <-> o = Same) /\
        (forall v, o' = New v -> shape v = vshape (t_weight t) /\ length (data v) = prod (vshape (t_weight t))).
    Proof.
      intros I E T. destruct (read_shape m0 t I) as [S L]. destruct (read_shape m t I) as [S' L'].
      pose proof (stable t I) as St.
      destruct (St _ S L) as (A & B & C). destruct (St _ S' L') as (A' & _ & _).
      destruct o as [|v].
      - cbn [value] in T. destruct (B Same _ E (teq_sym _ _ T)) as (o' & E' & Q1 & Q2). exists o'.
        split; [exact E'|]. split; [now apply teq_sym|]. split; [exact Q1|]. intros v ->. now apply A'.
      - cbn [value] in *. destruct (C v E) as (v' & E' & T'). destruct (A v E) as [Sv Lv].
        destruct (St v Sv Lv) as (_ & B' & _).
        destruct (B' _ _ E' (teq_sym _ _ T)) as (o'' & E2 & Q1 & Q2). exists o''. split; [exact E2|].
        split; [eapply teq_trans; [apply teq_sym; exact Q2|]; cbn [value]; now apply teq_sym|].
        split; [split; [intros X; apply Q1 in X; discriminate|discriminate]|].
        intros x ->. now apply A'.
    Qed.

    Lemma step_before done t rest m o' :
      ts = done ++ t :: rest -> inv done m ->
      call (t_quant t) (read m (t_weight t)) = Ok o' ->
      exists o, call (t_quant t) (read m0 (t_weight t)) = Ok o /\
        (read m (t_weight t) = read m0 (t_weight t) \/ teq (read m (t_weight t)) (value (read m0 (t_weight t)) o)).
    Proof.
      intros E [F V] C.
      assert (It : In t ts) by (rewrite E; apply in_or_app; right; now left).
      assert (Id : forall b, In b done -> In b ts) by (intros b Hb; rewrite E; apply in_or_app; auto).
      destruct (existsb (sk t) done) eqn:X.
        - apply existsb_exists in X. destruct X as (b & Ib & Kb). destruct (V b Ib) as (ob & Eb & Tb).
          rewrite sk_sym in Kb. pose proof (sk_weight b t (Id b Ib) It Kb) as W.
          destruct (in_split b done Ib) as (p & q & Ed).
          destruct (tied_checked m0 b t checked (Id b Ib) It Kb) as (o1 & o2 & E1 & E2 & T).
          { right. exists p, q, rest. rewrite E, Ed, <- app_assoc. reflexivity. }
          rewrite Eb in E1. injection E1 as <-. rewrite W in *. exists o2. split; [exact E2|]. right.
          eapply teq_trans; eassumption.
        - assert (R : read m (t_weight t) = read m0 (t_weight t)).
          { apply read_ext. intros a Ha. apply F. intros b Ib.
            assert (Kb : sk t b = false).
            { destruct (sk t b) eqn:Y; [|reflexivity]. assert (existsb (sk t) done = true) by (apply existsb_exists; eauto). congruence. }
            exact (nsk_disjoint t b It (Id b Ib) Kb a Ha). }
          rewrite R in C. exists o'. auto.
    Qed.

    Lemma step_inv done t rest m o' :
      ts = done ++ t :: rest -> inv done m ->
      call (t_quant t) (read m (t_weight t)) = Ok o' ->
      inv (done ++ [t]) (match o' with Same => m | New v => write m (t_weight t) v end).
    Proof.
      intros E [F V] C.
      assert (It : In t ts) by (rewrite E; apply in_or_app; right; now left).
      assert (Id : forall b, In b done -> In b ts) by (intros b Hb; rewrite E; apply in_or_app; auto).
      (* the original result of t, agreeing with the new memory *)
      pose proof (step_before done t rest m o' E (conj F V) C) as K.
      destruct K as (o & Eo & K).
      assert (N : exists o'', call (t_quant t) (read m (t_weight t)) = Ok o'' /\
                teq (value (read m (t_weight t)) o'') (value (read m0 (t_weight t)) o) /\
                (forall v, o'' = New v -> shape v = vshape (t_weight t) /\ length (data v) = prod (vshape (t_weight t)))).
      { destruct K as [K|K].
        - exists o. rewrite K. split; [exact Eo|]. split; [apply teq_refl|].
          intros v ->. destruct (read_shape m0 t It) as [S L]. destruct (stable t It _ S L) as (A & _). now apply A.
        - destruct (step_call m t o It Eo K) as (o'' & E1 & E2 & _ & E4). eauto. }
      destruct N as (o'' & E1 & T1 & S1). rewrite C in E1. injection E1 as <-.
      set (m' := match o' with Same => m | New v => write m (t_weight t) v end).
      assert (R' : read m' (t_weight t) = value (read m (t_weight t)) o').
      { unfold m'. destruct o' as [|v]; [reflexivity|]. cbn [value]. destruct (S1 v eq_refl). apply read_write; auto.
        apply (proj1 ties t It). }
      split.
      - intros a Ha. unfold m'. destruct o' as [|v].
        + apply F. intros b Hb. apply Ha. apply in_or_app. now left.
        + rewrite write_other by (apply Ha; apply in_or_app; right; now left). apply F. intros b Hb. apply Ha. apply in_or_app. now left.
      - intros b Hb. apply in_app_or in Hb. destruct Hb as [Hb|[<-|[]]].
        + destruct (V b Hb) as (ob & Eb & Tb). exists ob. split; [exact Eb|].
          destruct (sk b t) eqn:Kb.
          * pose proof (sk_weight b t (Id b Hb) It Kb) as W. rewrite W, R'.
            eapply teq_trans; [exact T1|]. rewrite W in Eb. apply teq_sym. rewrite <- W in *.
            apply (tied_agree m0 b t ob o checked (Id b Hb) It Kb); assumption.
          * assert (Rb : read m' (t_weight b) = read m (t_weight b)).
            { unfold m'. destruct o' as [|v]; [reflexivity|]. apply read_disjoint. rewrite sk_sym in Kb.
              exact (nsk_disjoint t b It (Id b Hb) Kb). }
            now rewrite Rb.
        + exists o. split; [exact Eo|]. now rewrite R'.
    Qed.

    Lemma fuse_all_inv stub rest : forall done st st',
      ts = done ++ rest -> inv done (mem st) -> fuse_all call stub st rest = Ok st' -> inv ts (mem st').
    Proof.
      induction rest as [|t rest IH]; intros done st st' E I H.
      - cbn in H. injection H as <-. rewrite app_nil_r in E. now rewrite E.
      - cbn [fuse_all] in H. unfold fuse_target in H.
        destruct (call (t_quant t) (read (mem st) (t_weight t))) as [o|] eqn:C; [|discriminate]. cbn [rbind] in H.
        pose proof (step_inv done t rest (mem st) o E I C) as I'.
        assert (E' : ts = (done ++ [t]) ++ rest) by (rewrite <- app_assoc; exact E).
        destruct o as [|v]; cbn [rbind] in H; [exact (IH _ st st' E' I' H)|].
        refine (IH (done ++ [t]) _ st' E' _ H). exact I'.
    Qed.

    Lemma fuse_all_total stub rest : forall done st,
      (forall t, In t ts -> exists o, call (t_quant t) (read m0 (t_weight t)) = Ok o) ->
      ts = done ++ rest -> inv done (mem st) -> exists st', fuse_all call stub st rest = Ok st'.
    Proof.
      induction rest as [|t rest IH]; intros done st O E I; [cbn; eauto|].
      assert (It : In t ts) by (rewrite E; apply in_or_app; right; now left).
      assert (Id : forall b, In b done -> In b ts) by (intros b Hb; rewrite E; apply in_or_app; auto).
      assert (C : exists o, call (t_quant t) (read (mem st) (t_weight t)) = Ok o).
      { destruct (O t It) as [o Eo]. destruct (existsb (sk t) done) eqn:X.
        - apply existsb_exists in X. destruct X as (b & Ib & Kb). destruct I as [_ V]. destruct (V b Ib) as (ob & Eb & Tb).
          rewrite sk_sym in Kb. pose proof (sk_weight b t (Id b Ib) It Kb) as W.
          assert (T : teq (value (read m0 (t_weight b)) ob) (value (read m0 (t_weight b)) o)).
          { apply (tied_agree m0 b t ob o checked (Id b Ib) It Kb); [exact Eb|]. now rewrite W. }
          rewrite W in *. destruct (step_call (mem st) t o It Eo (teq_trans _ _ _ Tb T)) as (o' & E' & _). eauto.
        - assert (R : read (mem st) (t_weight t) = read m0 (t_weight t)).
          { apply read_ext. intros a Ha. apply (proj1 I). intros b Ib.
            assert (Kb : sk t b = false).
            { destruct (sk t b) eqn:Y; [|reflexivity]. assert (existsb (sk t) done = true) by (apply existsb_exists; eauto). congruence. }
            exact (nsk_disjoint t b It (Id b Ib) Kb a Ha). }
          rewrite R. eauto. }
      destruct C as [o C]. pose proof (step_inv done t rest (mem st) o E I C) as I'.
      assert (E' : ts = (done ++ [t]) ++ rest) by (rewrite <- app_assoc; exact E).
      cbn [fuse_all]. unfold fuse_target. rewrite C. cbn [rbind]. destruct o as [|v]; cbn [rbind].
      - exact (IH _ st O E' I').
      - refine (IH (done ++ [t]) _ O E' _). exact I'.
    Qed.
  End Run.

  Lemma inv_start m : inv m [] m.
  Proof. split; [reflexivity|intros t []]. Qed.

  Lemma fuse_ok stub st st' : fuse_qdq_weights call stub st ts = Ok st' ->
    check_tied call (mem st) ts = Ok tt /\ fuse_all call stub st ts = Ok st'.
  Proof.
    unfold fuse_qdq_weights. destruct (check_tied call (mem st) ts) as [[]|]; [|discriminate]. cbn [rbind]. auto.
  Qed.

  Lemma fuse_inv stub st st' : fuse_qdq_weights call stub st ts = Ok st' -> inv (mem st) ts (mem st').
  Proof.
    intros H. apply fuse_ok in H. destruct H as [C H].
    exact (fuse_all_inv (mem st) C stub ts [] st st' eq_refl (inv_start _) H).
  Qed.

  (** Each weight holds the value of its quantizer on the original weight, and is a fixed
      point of it. *)
  Lemma fused stub st st' t :
    fuse_qdq_weights call stub st ts = Ok st' -> In t ts ->
    exists o o',
      call (t_quant t) (read (mem st) (t_weight t)) = Ok o /\
      teq (read (mem st') (t_weight t)) (value (read (mem st) (t_weight t)) o) /\
      call (t_quant t) (read (mem st') (t_weight t)) = Ok o' /\
      teq (value (read (mem st') (t_weight t)) o') (read (mem st') (t_weight t)).
  Proof.
    intros H I. destruct (fuse_inv stub st st' H) as [_ V]. destruct (V t I) as (o & E & T).
    destruct (step_call (mem st) (mem st') t o I E T) as (o' & E' & T' & _).
    exists o, o'. split; [exact E|]. split; [exact T|]. split; [exact E'|].
    eapply teq_trans; [exact T'|]. now apply teq_sym.
  Qed.

  Lemma fuse_frame stub st st' a :
    fuse_qdq_weights call stub st ts = Ok st' -> (forall t, In t ts -> ~ In a (addrs (t_weight t))) ->
    mem st' a = mem st a.
  Proof. intros H N. destruct (fuse_inv stub st st' H) as [F _]. now apply F. Qed.

  Lemma fuse_total stub st :
    (forall t, In t ts -> exists o, call (t_quant t) (read (mem st) (t_weight t)) = Ok o) ->
    (forall a b oa ob, In a ts -> In b ts -> t_weight a = t_weight b ->
       call (t_quant a) (read (mem st) (t_weight a)) = Ok oa -> call (t_quant b) (read (mem st) (t_weight b)) = Ok ob ->
       teq (value (read (mem st) (t_weight a)) oa) (value (read (mem st) (t_weight b)) ob)) ->
    exists st', fuse_qdq_weights call stub st ts = Ok st'.
  Proof.
    intros O A. pose proof (check_complete (mem st) O A) as C. unfold fuse_qdq_weights. rewrite C. cbn [rbind].
    exact (fuse_all_total (mem st) C stub ts [] st O eq_refl (inv_start _)).
  Qed.

  Lemma agree_weights stub st st' a b oa ob :
    fuse_qdq_weights call stub st ts = Ok st' -> In a ts -> In b ts -> t_weight a = t_weight b ->
    call (t_quant a) (read (mem st) (t_weight a)) = Ok oa -> call (t_quant b) (read (mem st) (t_weight b)) = Ok ob ->
    teq (value (read (mem st) (t_weight a)) oa) (value (read (mem st) (t_weight b)) ob).
  Proof.
    intros H Ia Ib W Ea Eb. apply fuse_ok in H. rewrite <- W in *.
    apply (tied_agree (mem st) a b oa ob (proj1 H) Ia Ib); [|exact Ea|exact Eb].
    unfold sk. rewrite W. apply same_key_spec. auto.
  Qed.

  Lemma fuse_again stub stub' st st' :
    fuse_qdq_weights call stub st ts = Ok st' ->
    exists st'', fuse_qdq_weights call stub' st' ts = Ok st'' /\ forall a, (mem st'' a == mem st' a)%Q.
  Proof.
    intros H.
    assert (P : exists st'', fuse_qdq_weights call stub' st' ts = Ok st'').
    { apply fuse_total.
      - intros t I. destruct (fused stub st st' t H I) as (_ & o' & _ & _ & E & _). eauto.
      - intros a b oa ob Ia Ib W Ea Eb.
        destruct (fused stub st st' a H Ia) as (_ & oa' & _ & _ & Ea' & Ta). rewrite Ea in Ea'. injection Ea' as <-.
        destruct (fused stub st st' b H Ib) as (_ & ob' & _ & _ & Eb' & Tb). rewrite Eb in Eb'. injection Eb' as <-.
        eapply teq_trans; [exact Ta|]. rewrite W. now apply teq_sym. }
    destruct P as [st'' P]. exists st''. split; [exact P|]. intros a.
    destruct (existsb (fun t => existsb (Nat.eqb a) (addrs (t_weight t))) ts) eqn:X.
    - apply existsb_exists in X. destruct X as (t & It & X). apply existsb_exists in X. destruct X as (a' & Ia & Ea).
      apply Nat.eqb_eq in Ea. subst a'.
      destruct (fused stub st st' t H It) as (_ & o1 & _ & _ & E1 & T1).
      destruct (fused stub' st' st'' t P It) as (o2 & _ & E2 & T2 & _). rewrite E1 in E2. injection E2 as <-.
      apply (proj1 (read_teq (mem st'') (mem st') (t_weight t))); [|exact Ia].
      eapply teq_trans; eassumption.
    - rewrite (fuse_frame stub' st' st'' a P); [reflexivity|]. intros t It Ia.
      assert (existsb (fun t => existsb (Nat.eqb a) (addrs (t_weight t))) ts = true); [|congruence].
      apply existsb_exists. exists t. split; [exact It|]. apply existsb_exists. exists a. split; [exact Ia|apply Nat.eqb_refl].
  Qed.
End Fuse.

Lemma plain_ties_perm ts ts' : Permutation ts ts' -> plain_ties ts -> plain_ties ts'.
Proof.
  intros P [A B]. apply Permutation_sym in P. split; [intros t I; apply A; eapply Permutation_in; eassumption|].
  intros a b Ia Ib. apply B; eapply Permutation_in; eassumption.
Qed.

Lemma order_independent call ts ts' stub stub' st st1 :
  plain_ties ts -> (forall t, In t ts -> stable_on (vshape (t_weight t)) (call (t_quant t))) ->
  Permutation ts ts' -> fuse_qdq_weights call stub st ts = Ok st1 ->
  exists st2, fuse_qdq_weights call stub' st ts' = Ok st2 /\ forall a, (mem st2 a == mem st1 a)%Q.
Proof.
  intros T S P H.
  assert (In1 : forall t, In t ts' -> In t ts) by (intros t I; apply Permutation_sym in P; eapply Permutation_in; eassumption).
  pose proof (plain_ties_perm ts ts' P T) as T'.
  assert (S' : forall t, In t ts' -> stable_on (vshape (t_weight t)) (call (t_quant t))) by auto.
  assert (X : exists st2, fuse_qdq_weights call stub' st ts' = Ok st2).
  { apply (fuse_total call ts' T' S').
    - intros t I. destruct (fused call ts T S stub st st1 t H (In1 t I)) as (o & _ & E & _). eauto.
    - intros a b oa ob Ia Ib W Ea Eb.
      apply (agree_weights call ts T stub st st1 a b oa ob H); auto. }
  destruct X as [st2 X]. exists st2. split; [exact X|]. intros a.
  destruct (existsb (fun t => existsb (Nat.eqb a) (addrs (t_weight t))) ts') eqn:Y.
  - apply existsb_exists in Y. destruct Y as (t & It & Y). apply existsb_exists in Y. destruct Y as (a' & Ia & Ea).
    apply Nat.eqb_eq in Ea. subst a'.
    destruct (fused call ts T S stub st st1 t H (In1 t It)) as (o1 & _ & E1 & T1 & _).
    destruct (fused call ts' T' S' stub' st st2 t X It) as (o2 & _ & E2 & T2 & _). rewrite E1 in E2. injection E2 as <-.
    apply (proj1 (read_teq (mem st2) (mem st1) (t_weight t))); [|exact Ia].
    eapply teq_trans; [exact T2|]. now apply teq_sym.
  - assert (N : forall t, In t ts' -> ~ In a (addrs (t_weight t))).
    { intros t It Ia. assert (existsb (fun t => existsb (Nat.eqb a) (addrs (t_weight t))) ts' = true); [|congruence].
      apply existsb_exists. exists t. split; [exact It|]. apply existsb_exists. exists a. split; [exact Ia|apply Nat.eqb_refl]. }
    rewrite (fuse_frame call ts' T' S' stub' st st2 a X N).
    rewrite (fuse_frame call ts T S stub st st1 a H); [reflexivity|].
    intros t It. apply N. eapply Permutation_in; eassumption.
Qed.
