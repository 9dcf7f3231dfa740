(** Proofs about the dispatcher. *)
From Verif Require Import Prelude DispatcherModel DispatcherSpec.

(** ** Equality tests, tables *)
Lemma pobj_eqb_eq p q : pobj_eqb p q = true <-> p = q.
Proof. destruct p, q; simpl; rewrite ?Nat.eqb_eq; split; intros H; try discriminate; congruence. Qed.
Lemma pnum_inj p q : pnum p = pnum q -> p = q.
Proof. destruct p, q; simpl; intros; try lia; reflexivity. Qed.
Lemma item_eqb_eq x y : item_eqb x y = true <-> x = y.
Proof.
  unfold item_eqb, prio_eqb. rewrite !andb_true_iff, pobj_eqb_eq, !Nat.eqb_eq.
  destruct x, y; simpl. split.
  - intros [[-> ->] H]. apply pnum_inj in H. now subst.
  - intros H; injection H; intros; subst; auto.
Qed.

Lemma lookup_update t op l op' :
  lookup (update t op l) op' = if op =? op' then l else lookup t op'.
Proof.
  induction t as [|[o x] t IH]; simpl; [reflexivity|].
  destruct (o =? op) eqn:E; simpl.
  - apply Nat.eqb_eq in E; subst. now destruct (op =? op').
  - rewrite IH. destruct (o =? op') eqn:E1, (op =? op') eqn:E2; try reflexivity.
    apply Nat.eqb_eq in E1, E2; subst. rewrite Nat.eqb_refl in E. discriminate.
Qed.

(** ** Binary search *)
Definition sorted_keys (l : list nat) : Prop :=
  forall i j x y, i <= j -> nth_error l i = Some x -> nth_error l j = Some y -> x <= y.

Lemma bisect_left_spec fuel keys x lo hi :
  sorted_keys keys -> lo <= hi -> hi <= length keys -> hi - lo <= fuel ->
  (forall i k, i < lo -> nth_error keys i = Some k -> k < x) ->
  (forall i k, hi <= i -> nth_error keys i = Some k -> x <= k) ->
  exists n, bisect_left fuel keys x lo hi = Ok n /\ n <= length keys /\
    (forall i k, i < n -> nth_error keys i = Some k -> k < x) /\
    (forall i k, n <= i -> nth_error keys i = Some k -> x <= k).
Proof.
  intros Hs. revert lo hi; induction fuel as [|fuel IH]; intros lo hi Hle Hhi Hf Hlo Hup; simpl.
  - destruct (lo <? hi) eqn:E; [apply Nat.ltb_lt in E; lia|].
    apply Nat.ltb_ge in E. assert (lo = hi) by lia; subst. exists hi; auto.
  - destruct (lo <? hi) eqn:E.
    + apply Nat.ltb_lt in E. set (mid := (lo + hi) / 2).
      assert (Hm : lo <= mid < hi) by (unfold mid; lia).
      destruct (nth_error_lt_some keys mid) as [k Hk]; [lia|]. rewrite Hk.
      destruct (k <? x) eqn:Ek.
      * apply Nat.ltb_lt in Ek. apply IH; try lia; [|assumption].
        intros i k' Hi Hk'. assert (k' <= k) by (apply (Hs i mid); [lia|assumption|assumption]). lia.
      * apply Nat.ltb_ge in Ek. apply IH; try lia; [assumption|].
        intros i k' Hi Hk'. assert (k <= k') by (apply (Hs mid i); [lia|assumption|assumption]). lia.
    + apply Nat.ltb_ge in E. assert (lo = hi) by lia; subst. exists hi; auto.
Qed.

(** On a sorted list split as (keys < x) ++ (keys >= x) the search finds the split. *)
Lemma bisect_left_split l1 l2 x :
  sorted_keys (l1 ++ l2) -> Forall (fun k => k < x) l1 -> Forall (fun k => x <= k) l2 ->
  bisect_left (length (l1 ++ l2)) (l1 ++ l2) x 0 (length (l1 ++ l2)) = Ok (length l1).
Proof.
  intros Hs H1 H2.
  destruct (bisect_left_spec (length (l1 ++ l2)) (l1 ++ l2) x 0 (length (l1 ++ l2)))
    as (n & Hn & Hlen & Ha & Hb); try lia; try assumption.
  { intros i k Hi Hk. apply nth_error_None in Hi. congruence. }
  rewrite Hn. f_equal.
  destruct (lt_eq_lt_dec n (length l1)) as [[Hlt|E]|Hgt]; [|assumption|].
  - destruct (nth_error_lt_some l1 n Hlt) as [k Hk].
    assert (x <= k) by (apply (Hb n); [lia|rewrite nth_error_app1 by assumption; assumption]).
    rewrite Forall_forall in H1. apply nth_error_In in Hk. specialize (H1 _ Hk). lia.
  - rewrite app_length in Hlen.
    destruct (nth_error_lt_some l2 0) as [k Hk]; [lia|].
    assert (k < x).
    { apply (Ha (length l1)); [lia|]. rewrite nth_error_app2 by lia. now rewrite Nat.sub_diag. }
    rewrite Forall_forall in H2. apply nth_error_In in Hk. specialize (H2 _ Hk). lia.
Qed.

Lemma insert_at_app {A} (l1 l2 : list A) x : insert_at (length l1) x (l1 ++ l2) = l1 ++ x :: l2.
Proof.
  unfold insert_at. rewrite firstn_app, firstn_all, skipn_app, skipn_all, Nat.sub_diag. simpl.
  now rewrite app_nil_r.
Qed.

Lemma sorted_keys_app l1 l2 x :
  sorted_keys l1 -> sorted_keys l2 -> Forall (fun k => k <= x) l1 -> Forall (fun k => x <= k) l2 ->
  sorted_keys (l1 ++ l2).
Proof.
  intros S1 S2 H1 H2 i j a b Hij Ha Hb.
  rewrite Forall_forall in H1, H2.
  destruct (lt_dec i (length l1)) as [Hi|Hi].
  - rewrite nth_error_app1 in Ha by assumption.
    destruct (lt_dec j (length l1)) as [Hj|Hj].
    + rewrite nth_error_app1 in Hb by assumption. eauto.
    + rewrite nth_error_app2 in Hb by lia. apply nth_error_In in Ha, Hb.
      specialize (H1 _ Ha). specialize (H2 _ Hb). lia.
  - rewrite nth_error_app2 in Ha, Hb by lia. apply (S2 (i - length l1) (j - length l1)); auto. lia.
Qed.
Lemma sorted_keys_const l x : Forall (fun k => k = x) l -> sorted_keys l.
Proof.
  intros H i j a b _ Ha Hb. rewrite Forall_forall in H. apply nth_error_In in Ha, Hb.
  rewrite (H _ Ha), (H _ Hb). lia.
Qed.

(** ** The canonical table of a set of live registrations *)
Definition item_of (r : reg) : item := mkItem (rpred r) (rfn r) (rprio r).
Definition slot (L : list reg) (op : nat) (p : priority) : list item :=
  map item_of (rev (filter (fun r => (rop r =? op) && prio_eqb (rprio r) p) L)).
Definition canon (L : list reg) (op : nat) : list item :=
  slot L op DEFAULT ++ slot L op FALLBACK ++ slot L op NOT_IMPLEMENTED_FALLBACK.

Lemma slot_prio L op p : Forall (fun i => iprio i = p) (slot L op p).
Proof.
  apply Forall_forall. intros i Hi. unfold slot in Hi. apply in_map_iff in Hi.
  destruct Hi as (r & <- & Hr). apply in_rev, filter_In in Hr. destruct Hr as [_ Hr].
  apply andb_true_iff in Hr. destruct Hr as [_ Hr]. apply Nat.eqb_eq, pnum_inj in Hr. exact Hr.
Qed.

Definition below (L : list reg) op (p : priority) : list item :=
  match p with
  | DEFAULT => []
  | FALLBACK => slot L op DEFAULT
  | NOT_IMPLEMENTED_FALLBACK => slot L op DEFAULT ++ slot L op FALLBACK
  end.
Definition above (L : list reg) op (p : priority) : list item :=
  match p with
  | DEFAULT => slot L op FALLBACK ++ slot L op NOT_IMPLEMENTED_FALLBACK
  | FALLBACK => slot L op NOT_IMPLEMENTED_FALLBACK
  | NOT_IMPLEMENTED_FALLBACK => []
  end.

Lemma canon_split L op p : canon L op = below L op p ++ slot L op p ++ above L op p.
Proof. destruct p; unfold canon; simpl; rewrite ?app_nil_r, ?app_assoc; reflexivity. Qed.

Lemma below_prio L op p : Forall (fun i => pnum (iprio i) < pnum p) (below L op p).
Proof.
  destruct p; simpl; [constructor| |apply Forall_app; split];
  (eapply Forall_impl; [|apply slot_prio]); intros i ->; simpl; lia.
Qed.
Lemma above_prio L op p : Forall (fun i => pnum p < pnum (iprio i)) (above L op p).
Proof.
  destruct p; simpl; [apply Forall_app; split| |constructor];
  (eapply Forall_impl; [|apply slot_prio]); intros i ->; simpl; lia.
Qed.

Definition keys_of (l : list item) := map (fun i => pnum (iprio i)) l.
Lemma keys_forall (P : nat -> Prop) l : Forall (fun i => P (pnum (iprio i))) l -> Forall P (keys_of l).
Proof. intros H. unfold keys_of. rewrite Forall_map. exact H. Qed.
Lemma slot_keys L op p : Forall (fun k => k = pnum p) (keys_of (slot L op p)).
Proof. apply (keys_forall (fun k => k = pnum p)). eapply Forall_impl; [|apply slot_prio]. simpl; intros i ->; reflexivity. Qed.

Lemma canon_sorted L op : sorted_keys (keys_of (canon L op)).
Proof.
  unfold canon, keys_of. rewrite !map_app. fold (keys_of (slot L op DEFAULT)).
  fold (keys_of (slot L op FALLBACK)). fold (keys_of (slot L op NOT_IMPLEMENTED_FALLBACK)).
  pose proof (slot_keys L op DEFAULT) as H0. pose proof (slot_keys L op FALLBACK) as H1.
  pose proof (slot_keys L op NOT_IMPLEMENTED_FALLBACK) as H2. simpl in *.
  apply (sorted_keys_app _ _ 0).
  - eapply sorted_keys_const; eassumption.
  - apply (sorted_keys_app _ _ 1); try (eapply sorted_keys_const; eassumption);
    (eapply Forall_impl; [|eassumption]); simpl; intros; lia.
  - eapply Forall_impl; [|eassumption]; simpl; intros; lia.
  - apply Forall_app; split; (eapply Forall_impl; [|eassumption]); simpl; intros; lia.
Qed.

(** Registering on the canonical table gives the canonical table with one more. *)
Lemma slot_snoc L r op p :
  slot (L ++ [r]) op p =
  (if (rop r =? op) && prio_eqb (rprio r) p then [item_of r] else []) ++ slot L op p.
Proof.
  unfold slot. rewrite filter_app. simpl.
  destruct ((rop r =? op) && prio_eqb (rprio r) p).
  - rewrite rev_app_distr. reflexivity.
  - rewrite app_nil_r. reflexivity.
Qed.

Lemma canon_snoc_other L r op : rop r <> op -> canon (L ++ [r]) op = canon L op.
Proof.
  intros H. unfold canon. rewrite !slot_snoc. apply Nat.eqb_neq in H. rewrite H. reflexivity.
Qed.
Lemma canon_snoc_same L r :
  canon (L ++ [r]) (rop r) = below L (rop r) (rprio r) ++ item_of r :: slot L (rop r) (rprio r) ++ above L (rop r) (rprio r).
Proof.
  unfold canon. rewrite !slot_snoc, Nat.eqb_refl. unfold prio_eqb. simpl.
  destruct (rprio r); simpl; rewrite ?app_nil_r, <- ?app_assoc; reflexivity.
Qed.

Lemma register_canon fresh t L op p kernel prio :
  lookup t op = canon L op ->
  exists t', register_functional fresh t op p kernel prio =
      Ok (t', mkHook op (mkItem (match p with Some n => UserP n | None => TrueP fresh end) kernel prio)) /\
    (forall op', lookup t' op' = if op =? op' then
       below L op prio ++ mkItem (match p with Some n => UserP n | None => TrueP fresh end) kernel prio
         :: slot L op prio ++ above L op prio else lookup t op').
Proof.
  intros E. unfold register_functional. cbv zeta.
  set (it := mkItem _ kernel prio). rewrite E, (canon_split L op prio).
  assert (B : bisect_left (length (below L op prio ++ slot L op prio ++ above L op prio))
                (keys_of (below L op prio ++ slot L op prio ++ above L op prio)) (pnum prio)
                0 (length (below L op prio ++ slot L op prio ++ above L op prio)) = Ok (length (below L op prio))).
  { assert (HL : forall l, length l = length (keys_of l)) by (intros; unfold keys_of; now rewrite map_length).
    rewrite !HL. unfold keys_of at 1 2 3. rewrite map_app.
    fold (keys_of (below L op prio)). fold (keys_of (slot L op prio ++ above L op prio)).
    apply bisect_left_split.
    - unfold keys_of. rewrite <- map_app, <- canon_split. apply canon_sorted.
    - apply keys_forall. apply below_prio.
    - apply (keys_forall (fun k => pnum prio <= k)). apply Forall_app; split.
      + eapply Forall_impl; [|apply slot_prio]. simpl; intros i ->; lia.
      + eapply Forall_impl; [|apply above_prio]. simpl; intros; lia. }
  unfold keys_of in B. rewrite B. cbn [rbind]. rewrite insert_at_app.
  eexists; split; [reflexivity|]. intros op'. apply lookup_update.
Qed.

(** ** Removing *)
Lemma remove_first_app_not {A} (eqb : A -> A -> bool) x l1 l2 :
  Forall (fun y => eqb y x = false) l1 ->
  remove_first eqb x (l1 ++ l2) = option_map (app l1) (remove_first eqb x l2).
Proof.
  induction 1 as [|y l1 Hy Hl IH]; simpl.
  - destruct (remove_first eqb x l2); reflexivity.
  - rewrite Hy, IH. now destruct (remove_first eqb x l2).
Qed.

Lemma remove_first_none {A} (eqb : A -> A -> bool) x l :
  Forall (fun y => eqb y x = false) l -> remove_first eqb x l = None.
Proof. induction 1 as [|y l Hy Hl IH]; simpl; [reflexivity|]. rewrite Hy, IH. reflexivity. Qed.

Lemma filter_all {A} (f : A -> bool) l : (forall x, In x l -> f x = true) -> filter f l = l.
Proof.
  induction l as [|x l IH]; simpl; intros H; [reflexivity|].
  rewrite (H x) by now left. f_equal. apply IH. intros; apply H; now right.
Qed.

Lemma filter_comm {A} (f g : A -> bool) l : filter f (filter g l) = filter g (filter f l).
Proof.
  induction l as [|x l IH]; simpl; [reflexivity|].
  destruct (g x) eqn:G, (f x) eqn:F; simpl; rewrite ?F, ?G, ?IH; reflexivity.
Qed.

(** Live registrations carry distinct, increasing times. *)
Definition increasing (L : list reg) : Prop :=
  forall i j x y, i < j -> nth_error L i = Some x -> nth_error L j = Some y -> time x < time y.

Lemma increasing_tail x L : increasing (x :: L) -> increasing L.
Proof. intros H i j a b Hij Ha Hb. apply (H (S i) (S j)); simpl; auto. lia. Qed.
Lemma increasing_head x L y : increasing (x :: L) -> In y L -> time x < time y.
Proof.
  intros H Hy. apply In_nth_error in Hy. destruct Hy as [n Hn].
  apply (H 0 (S n)); simpl; auto. lia.
Qed.
Lemma increasing_cons x L : increasing L -> (forall y, In y L -> time x < time y) -> increasing (x :: L).
Proof.
  intros H Hx i j a b Hij Ha Hb. destruct j; [lia|]. simpl in Hb. destruct i; simpl in Ha.
  - injection Ha as <-. apply Hx. eapply nth_error_In; eassumption.
  - apply (H i j); auto. lia.
Qed.
Lemma increasing_filter f L : increasing L -> increasing (filter f L).
Proof.
  induction L as [|x L IH]; simpl; intros H; [assumption|].
  specialize (IH (increasing_tail _ _ H)). destruct (f x); [|assumption].
  apply increasing_cons; [assumption|]. intros y Hy. apply filter_In in Hy.
  eapply increasing_head; [eassumption|tauto].
Qed.
Lemma increasing_snoc L r : increasing L -> (forall x, In x L -> time x < time r) -> increasing (L ++ [r]).
Proof.
  induction L as [|x L IH]; simpl; intros H Hr.
  - intros i j a b Hij Ha Hb. destruct j; [lia|]. destruct j; discriminate.
  - apply increasing_cons.
    + apply IH; [eapply increasing_tail; eassumption|]. intros; apply Hr; now right.
    + intros y Hy. apply in_app_or in Hy. destruct Hy as [Hy|[<-|[]]].
      * eapply increasing_head; eassumption.
      * apply Hr. now left.
Qed.
Lemma increasing_inj L x y : increasing L -> In x L -> In y L -> time x = time y -> x = y.
Proof.
  induction L as [|z L IH]; simpl; intros H Hx Hy E; [contradiction|].
  destruct Hx as [<-|Hx], Hy as [<-|Hy]; auto.
  - pose proof (increasing_head _ _ _ H Hy). lia.
  - pose proof (increasing_head _ _ _ H Hx). lia.
  - apply IH; auto. eapply increasing_tail; eassumption.
Qed.

(** The first item equal to [r0]'s in a slot read newest first, when every duplicate of
    [r0] is at most as new as [r0], is [r0] itself. *)
Lemma remove_in_slot F r0 :
  increasing F -> In r0 F ->
  (forall r, In r F -> item_of r = item_of r0 -> time r <= time r0) ->
  remove_first item_eqb (item_of r0) (map item_of (rev F)) =
  Some (map item_of (rev (filter (fun r => negb (time r =? time r0)) F))).
Proof.
  induction F as [|x F IH] using rev_ind; intros HF Hin Hd; [contradiction|].
  rewrite rev_app_distr. simpl. rewrite filter_app. simpl.
  assert (HF' : increasing F).
  { intros i j a b Hij Ha Hb. apply (HF i j); auto; rewrite nth_error_app1; auto;
    apply nth_error_Some; congruence. }
  apply in_app_or in Hin.
  assert (Hlast : forall y, In y F -> time y < time x).
  { intros y Hy. apply In_nth_error in Hy. destruct Hy as [n Hn].
    assert (n < length F) by (apply nth_error_Some; congruence).
    apply (HF n (length F)); [assumption|now rewrite nth_error_app1|].
    rewrite nth_error_app2 by lia. now rewrite Nat.sub_diag. }
  destruct (item_eqb (item_of x) (item_of r0)) eqn:E.
  - apply item_eqb_eq in E.
    assert (Hx : time x <= time r0) by (apply Hd; [apply in_or_app; right; now left|assumption]).
    assert (x = r0).
    { destruct Hin as [Hin|[->|[]]]; [|reflexivity]. specialize (Hlast _ Hin). lia. }
    subst x. rewrite Nat.eqb_refl. simpl. rewrite app_nil_r. rewrite filter_all; [reflexivity|].
    intros y Hy. specialize (Hlast _ Hy). apply negb_true_iff, Nat.eqb_neq. lia.
  - assert (Hne : x <> r0).
    { intros ->. assert (item_eqb (item_of r0) (item_of r0) = true) by now apply item_eqb_eq. congruence. }
    destruct Hin as [Hin|[->|[]]]; [|contradiction].
    rewrite IH; auto.
    + simpl. assert (time x =? time r0 = false) by (apply Nat.eqb_neq; specialize (Hlast _ Hin); lia).
      rewrite H. simpl. rewrite rev_app_distr. reflexivity.
    + intros r Hr Er. apply Hd; [apply in_or_app; now left|assumption].
Qed.

Lemma item_of_same r r0 : same_registration r r0 <-> (rop r = rop r0 /\ item_of r = item_of r0).
Proof.
  unfold same_registration, item_of. split.
  - intros (? & -> & -> & ->). auto.
  - intros [? H]. injection H. auto.
Qed.

Lemma canon_filter_other L op p k :
  (forall r, In r L -> time r = k -> rop r = op -> rprio r = p -> False) ->
  slot (filter (fun r => negb (time r =? k)) L) op p = slot L op p.
Proof.
  intros H. unfold slot. rewrite filter_comm. f_equal. f_equal. apply filter_all.
  intros r Hr. apply filter_In in Hr. destruct Hr as [Hr Hc]. apply andb_true_iff in Hc.
  destruct Hc as [Ho Hp]. apply Nat.eqb_eq in Ho. apply Nat.eqb_eq, pnum_inj in Hp.
  apply negb_true_iff, Nat.eqb_neq. intros E. apply (H r); auto.
Qed.

Lemma below_filter_other L op p k :
  (forall r, In r L -> time r = k -> rop r = op -> rprio r = p) ->
  below (filter (fun r => negb (time r =? k)) L) op p = below L op p.
Proof.
  intros H. destruct p; simpl; rewrite ?canon_filter_other; try reflexivity;
  intros r Hr E1 E2 E3; specialize (H r Hr E1 E2); congruence.
Qed.
Lemma above_filter_other L op p k :
  (forall r, In r L -> time r = k -> rop r = op -> rprio r = p) ->
  above (filter (fun r => negb (time r =? k)) L) op p = above L op p.
Proof.
  intros H. destruct p; simpl; rewrite ?canon_filter_other; try reflexivity;
  intros r Hr E1 E2 E3; specialize (H r Hr E1 E2); congruence.
Qed.

Definition reg_eq_dec (r r' : reg) : {r = r'} + {r <> r'}.
Proof.
  assert (P : forall p q : priority, {p = q} + {p <> q}) by decide equality.
  assert (O : forall p q : pobj, {p = q} + {p <> q}) by (decide equality; apply Nat.eq_dec).
  decide equality; apply Nat.eq_dec.
Defined.

(** ** Refinement invariant *)
Record Inv (s : dstate) (l : live_state) : Prop := {
  inv_count : count l = length (hooks s);
  inv_all : length (all_regs l) = count l;
  inv_hooks : forall k r, nth_error (all_regs l) k = Some r ->
                time r = k /\ nth_error (hooks s) k = Some (mkHook (rop r) (item_of r));
  inv_live : forall r, In r (live l) -> nth_error (all_regs l) (time r) = Some r;
  inv_inc : increasing (live l);
  inv_tbl : forall op, lookup (tbl s) op = canon (live l) op }.

Lemma Inv_init : Inv dinit (mkL 0 [] []).
Proof.
  constructor; simpl; auto.
  - intros [|k] r H; discriminate.
  - intros r [].
  - intros i j x y _ H. destruct i; discriminate.
Qed.

Lemma Inv_register s l op p kernel prio :
  Inv s l -> exists s', dstep s (DRegister op p kernel prio) = Ok s' /\
    Inv s' (live_step l (DRegister op p kernel prio)).
Proof.
  intros I. destruct (register_canon (length (hooks s)) (tbl s) (live l) op p kernel prio (inv_tbl _ _ I op))
    as (t' & E & Ht). simpl. rewrite E. cbn [rbind].
  eexists; split; [reflexivity|]. destruct I as [Ic Ia Ih Il Ii It].
  rewrite Ic in *.
  set (pr := match p with Some n => UserP n | None => TrueP (length (hooks s)) end) in *.
  assert (Hold : forall r, In r (live l) -> time r < length (hooks s)).
  { intros r Hr. apply Il in Hr. rewrite <- Ia. apply nth_error_Some. congruence. }
  constructor; simpl.
  - rewrite app_length. simpl. lia.
  - rewrite app_length, Ia. simpl. lia.
  - intros k r Hk. destruct (lt_dec k (length (all_regs l))) as [Hlt|Hge].
    + rewrite nth_error_app1 in Hk by assumption. destruct (Ih _ _ Hk) as [? Hh].
      split; [assumption|]. rewrite nth_error_app1; [assumption|]. lia.
    + rewrite nth_error_app2 in Hk by lia. destruct (k - length (all_regs l)) eqn:Ek; [|destruct n; discriminate].
      simpl in Hk. injection Hk as <-. simpl. split; [lia|].
      rewrite nth_error_app2 by lia. replace (k - length (hooks s)) with 0 by lia. reflexivity.
  - intros r Hr. apply in_app_or in Hr. destruct Hr as [Hr|[<-|[]]].
    + rewrite nth_error_app1; [now apply Il|]. specialize (Hold _ Hr). lia.
    + simpl. rewrite nth_error_app2 by lia. rewrite Ia, Nat.sub_diag. reflexivity.
  - apply increasing_snoc; [assumption|]. intros x Hx. simpl. now apply Hold.
  - intros op'. rewrite Ht. destruct (op =? op') eqn:Eo.
    + apply Nat.eqb_eq in Eo; subst op'.
      symmetry. apply (canon_snoc_same (live l) (mkReg (length (hooks s)) op pr kernel prio)).
    + rewrite canon_snoc_other; [apply It|]. simpl. now apply Nat.eqb_neq.
Qed.

Lemma canon_filter_noop L k op : (forall r, In r L -> time r <> k) ->
  canon (filter (fun r => negb (time r =? k)) L) op = canon L op.
Proof.
  intros H. f_equal. apply filter_all. intros r Hr. apply negb_true_iff, Nat.eqb_neq. now apply H.
Qed.

Lemma Inv_exit s l k :
  Inv s l -> exit_unambiguous l k ->
  exists s', dstep s (DExit k) = Ok s' /\ Inv s' (live_step l (DExit k)).
Proof.
  intros I Hu. destruct I as [Ic Ia Ih Il Ii It]. simpl.
  assert (Hinc : increasing (filter (fun r => negb (time r =? k)) (live l))) by now apply increasing_filter.
  assert (Hliv : forall r, In r (filter (fun r => negb (time r =? k)) (live l)) -> nth_error (all_regs l) (time r) = Some r).
  { intros r Hr. apply filter_In in Hr. apply Il. tauto. }
  destruct (nth_error (hooks s) k) as [h|] eqn:Eh.
  2: { eexists; split; [reflexivity|].
       assert (Hno : forall r, In r (live l) -> time r <> k).
       { intros r Hr E. apply Il in Hr. rewrite E in Hr. destruct (Ih _ _ Hr) as [_ H']. congruence. }
       constructor; simpl; auto. intros op. rewrite canon_filter_noop by assumption. apply It. }
  eexists; split; [reflexivity|].
  assert (exists r0, nth_error (all_regs l) k = Some r0) as [r0 Hr0].
  { apply nth_error_lt_some. rewrite Ia, Ic. apply nth_error_Some. congruence. }
  destruct (Ih _ _ Hr0) as [Ht0 Hh0]. rewrite Eh in Hh0. injection Hh0 as ->.
  constructor; simpl; auto. intros op. unfold hook_exit. simpl. rewrite It.
  set (p := rprio r0). set (op0 := rop r0).
  rewrite (canon_split (live l) op0 p).
  rewrite remove_first_app_not.
  2: { eapply Forall_impl; [|apply below_prio]. simpl. intros i Hi.
       destruct (item_eqb i (item_of r0)) eqn:E; [|reflexivity]. apply item_eqb_eq in E. subst i.
       unfold item_of, p in Hi. simpl in Hi. lia. }
  set (F := filter (fun r => (rop r =? op0) && prio_eqb (rprio r) p) (live l)).
  assert (Hsame : forall r, In r F -> item_of r = item_of r0 -> same_registration r r0 /\ In r (live l)).
  { intros r Hr E. unfold F in Hr. apply filter_In in Hr. destruct Hr as [Hr Hc].
    apply andb_true_iff in Hc. destruct Hc as [Ho _]. apply Nat.eqb_eq in Ho.
    split; [|assumption]. apply item_of_same. auto. }
  assert (Hunique : forall r, In r (live l) -> time r = k -> r = r0).
  { intros r Hr E. apply Il in Hr. rewrite E in Hr. congruence. }
  destruct (in_dec reg_eq_dec r0 (live l)) as [Hin|Hnin].
  - assert (HinF : In r0 F).
    { unfold F. apply filter_In. split; [assumption|]. apply andb_true_iff. split; [apply Nat.eqb_refl|apply Nat.eqb_refl]. }
    assert (Hrem : remove_first item_eqb (item_of r0) (slot (live l) op0 p ++ above (live l) op0 p) =
                   Some (slot (filter (fun r => negb (time r =? k)) (live l)) op0 p ++ above (live l) op0 p)).
    { assert (H1 : remove_first item_eqb (item_of r0) (slot (live l) op0 p) =
                   Some (slot (filter (fun r => negb (time r =? k)) (live l)) op0 p)).
      { unfold slot. rewrite filter_comm. fold F. rewrite <- Ht0. apply remove_in_slot.
        - now apply increasing_filter.
        - assumption.
        - intros r Hr E. destruct (Hsame r Hr E) as [Hs Hl].
          destruct (Hu r0 r Hr0 Hl Hs) as [Ek|[Hlt _]]; lia. }
      revert H1. generalize (slot (filter (fun r => negb (time r =? k)) (live l)) op0 p).
      generalize (slot (live l) op0 p). intros a; induction a as [|y a IHa]; simpl; intros b Hb; [discriminate|].
      destruct (item_eqb y (item_of r0)); [injection Hb as <-; reflexivity|].
      destruct (remove_first item_eqb (item_of r0) a); [|discriminate]. simpl in Hb. injection Hb as <-.
      rewrite (IHa _ eq_refl). reflexivity. }
    rewrite Hrem. simpl. rewrite lookup_update.
    destruct (op0 =? op) eqn:Eop.
    + apply Nat.eqb_eq in Eop. subst op. rewrite (canon_split (filter _ _) op0 p).
      rewrite below_filter_other, above_filter_other; [reflexivity| |];
      intros r Hr E1 E2; rewrite (Hunique r Hr E1); reflexivity.
    + apply Nat.eqb_neq in Eop. rewrite It. unfold canon. rewrite !canon_filter_other; [reflexivity| | |];
      intros r Hr E1 E2 _; rewrite (Hunique r Hr E1) in E2; contradiction.
  - assert (Hnone : remove_first item_eqb (item_of r0) (slot (live l) op0 p ++ above (live l) op0 p) = None).
    { apply remove_first_none. apply Forall_app; split.
      - apply Forall_forall. intros i Hi. unfold slot in Hi. apply in_map_iff in Hi.
        destruct Hi as (r & <- & Hr). apply in_rev in Hr. fold F in Hr.
        destruct (item_eqb (item_of r) (item_of r0)) eqn:E; [|reflexivity].
        apply item_eqb_eq in E. destruct (Hsame r Hr E) as [Hs Hl]. exfalso.
        destruct (Hu r0 r Hr0 Hl Hs) as [Ek|[_ Hbad]]; [|contradiction].
        apply Hnin. rewrite <- (Hunique r Hl Ek). assumption.
      - eapply Forall_impl; [|apply above_prio]. simpl. intros i Hi.
        destruct (item_eqb i (item_of r0)) eqn:E; [|reflexivity]. apply item_eqb_eq in E. subst i.
        unfold item_of, p in Hi. simpl in Hi. lia. }
    rewrite Hnone. simpl. rewrite canon_filter_noop; [apply It|].
    intros r Hr E. apply Hnin. rewrite <- (Hunique r Hr E). assumption.
Qed.

Lemma drun_inv h : forall s l, Inv s l -> unambiguous_from l h ->
  exists s', drun s h = Ok s' /\ Inv s' (fold_left live_step h l).
Proof.
  induction h as [|o h IH]; intros s l I Hu; simpl; [eauto|].
  destruct Hu as [Ho Hu].
  assert (exists s', dstep s o = Ok s' /\ Inv s' (live_step l o)) as (s' & E & I').
  { destruct o; [now apply Inv_register|now apply Inv_exit]. }
  rewrite E. cbn [rbind]. now apply IH.
Qed.

(** ** Dispatch on the canonical table *)
Lemma dispatch_items_split {Args} (heap : nat -> pexpr Args) l a :
  match dispatch_items heap l a with
  | Ok None => forall i, In i l -> pcall heap (ipred i) a = Ok false
  | Ok (Some k) => exists l1 i l2, l = l1 ++ i :: l2 /\ ifn i = k /\ pcall heap (ipred i) a = Ok true /\
                     forall j, In j l1 -> pcall heap (ipred j) a = Ok false
  | Err e => exists l1 i l2, l = l1 ++ i :: l2 /\ pcall heap (ipred i) a = Err e /\
                     forall j, In j l1 -> pcall heap (ipred j) a = Ok false
  end.
Proof.
  induction l as [|i l IH]; simpl; [intros i []|].
  destruct (pcall heap (ipred i) a) as [[|]|e] eqn:E; cbn [rbind].
  - exists [], i, l. simpl. repeat split; auto. intros j [].
  - destruct (dispatch_items heap l a) as [[k|]|e].
    + destruct IH as (l1 & j & l2 & -> & Hk & Hj & Hr). exists (i :: l1), j, l2. simpl.
      repeat split; auto. intros j' [<-|H]; auto.
    + intros j [<-|H]; auto.
    + destruct IH as (l1 & j & l2 & -> & Hk & Hr). exists (i :: l1), j, l2. simpl.
      repeat split; auto. intros j' [<-|H]; auto.
  - exists [], i, l. simpl. repeat split; auto. intros j [].
Qed.

(** The registrations behind the canonical table, in table order. *)
Definition rslot (L : list reg) (op : nat) (p : priority) : list reg :=
  rev (filter (fun r => (rop r =? op) && prio_eqb (rprio r) p) L).
Definition rcanon (L : list reg) (op : nat) : list reg :=
  rslot L op DEFAULT ++ rslot L op FALLBACK ++ rslot L op NOT_IMPLEMENTED_FALLBACK.
Lemma canon_rcanon L op : canon L op = map item_of (rcanon L op).
Proof. unfold canon, rcanon, slot, rslot. now rewrite !map_app. Qed.
Lemma in_rslot L op p r : In r (rslot L op p) <-> In r L /\ rop r = op /\ rprio r = p.
Proof.
  unfold rslot. rewrite <- in_rev, filter_In, andb_true_iff, Nat.eqb_eq. unfold prio_eqb.
  rewrite Nat.eqb_eq. split; intros (H1 & H2 & H3); repeat split; auto; [now apply pnum_inj|now rewrite H3].
Qed.
Lemma in_rcanon L op r : In r (rcanon L op) <-> In r L /\ rop r = op.
Proof.
  unfold rcanon. rewrite !in_app_iff, !in_rslot. split; [tauto|].
  intros [H1 H2]. destruct (rprio r); tauto.
Qed.

Definition ordered (l : list reg) : Prop :=
  forall i j x y, i < j -> nth_error l i = Some x -> nth_error l j = Some y -> preferred x y.
Lemma ordered_app l1 l2 : ordered l1 -> ordered l2 ->
  (forall x y, In x l1 -> In y l2 -> preferred x y) -> ordered (l1 ++ l2).
Proof.
  intros O1 O2 H i j x y Hij Hx Hy.
  destruct (lt_dec i (length l1)) as [Hi|Hi].
  - rewrite nth_error_app1 in Hx by assumption.
    destruct (lt_dec j (length l1)) as [Hj|Hj].
    + rewrite nth_error_app1 in Hy by assumption. eauto.
    + rewrite nth_error_app2 in Hy by lia. apply H; eapply nth_error_In; eassumption.
  - rewrite nth_error_app2 in Hx, Hy by lia. apply (O2 (i - length l1) (j - length l1)); auto. lia.
Qed.
Lemma ordered_rslot L op p : increasing L -> ordered (rslot L op p).
Proof.
  intros H. unfold rslot.
  assert (Hp : Forall (fun r => rprio r = p) (filter (fun r => (rop r =? op) && prio_eqb (rprio r) p) L)).
  { apply Forall_forall. intros r Hr. apply in_rev in Hr. fold (rslot L op p) in Hr. apply in_rslot in Hr. tauto. }
  pose proof (increasing_filter (fun r => (rop r =? op) && prio_eqb (rprio r) p) L H) as HF.
  revert Hp HF. generalize (filter (fun r => (rop r =? op) && prio_eqb (rprio r) p) L). intros F Hp HF.
  induction F as [|r F IH]; simpl; [intros i j x y _ E; destruct i; discriminate|].
  apply ordered_app.
  - apply IH; [now inversion Hp|eapply increasing_tail; eassumption].
  - intros i j x y Hij _ E. destruct j; [lia|]. destruct j; discriminate.
  - intros x y Hx [<-|[]]. right. apply in_rev in Hx. inversion Hp as [|? ? E1 E2]; subst.
    rewrite Forall_forall in E2. rewrite (E2 _ Hx). split; [reflexivity|].
    pose proof (increasing_head _ _ _ HF Hx). lia.
Qed.
Lemma ordered_rcanon L op : increasing L -> ordered (rcanon L op).
Proof.
  intros H. unfold rcanon. apply ordered_app; [now apply ordered_rslot| |].
  - apply ordered_app; try now apply ordered_rslot.
    intros x y Hx Hy. apply in_rslot in Hx, Hy. left. destruct Hx as (_ & _ & ->), Hy as (_ & _ & ->). simpl; lia.
  - intros x y Hx Hy. apply in_app_or in Hy. left.
    destruct Hy as [Hy|Hy]; apply in_rslot in Hx, Hy;
    destruct Hx as (_ & _ & ->), Hy as (_ & _ & ->); simpl; lia.
Qed.

Lemma dispatch_canon {Args} (heap : nat -> pexpr Args) L op a :
  increasing L -> right_answer heap L op a (dispatch_items heap (canon L op) a).
Proof.
  intros HL. pose proof (dispatch_items_split heap (canon L op) a) as H.
  pose proof (ordered_rcanon L op HL) as HO.
  assert (Hsplit : forall l1 i l2, canon L op = l1 ++ i :: l2 ->
            exists R1 r R2, rcanon L op = R1 ++ r :: R2 /\ l1 = map item_of R1 /\ i = item_of r /\ l2 = map item_of R2).
  { intros l1 i l2 E. rewrite canon_rcanon in E. revert E. generalize (rcanon L op). intros R E.
    revert R E. induction l1 as [|x l1 IH]; intros [|r R] E; simpl in E; try discriminate.
    - injection E as <- <-. exists [], r, R. auto.
    - injection E as <- E. destruct (IH _ E) as (R1 & r' & R2 & -> & -> & -> & ->).
      exists (r :: R1), r', R2. auto. }
  assert (Hpref : forall R1 r R2, rcanon L op = R1 ++ r :: R2 ->
            (forall j, In j (map item_of R1) -> pcall heap (ipred j) a = Ok false) ->
            forall r', In r' L -> rop r' = op -> pcall heap (rpred r') a = Ok true -> preferred r r').
  { intros R1 r R2 ER Hno r' Hr' Ho Hc.
    assert (Hin : In r' (R1 ++ r :: R2)) by (rewrite <- ER; now apply in_rcanon).
    apply in_app_or in Hin. destruct Hin as [Hin|[<-|Hin]].
    - exfalso. assert (pcall heap (rpred r') a = Ok false); [|congruence].
      apply (Hno (item_of r')). now apply in_map.
    - right. auto.
    - apply In_nth_error in Hin. destruct Hin as [n Hn]. rewrite ER in HO.
      apply (HO (length R1) (length R1 + S n)); [lia| |].
      + rewrite nth_error_app2 by lia. now rewrite Nat.sub_diag.
      + rewrite nth_error_app2 by lia. replace (length R1 + S n - length R1) with (S n) by lia. assumption. }
  destruct (dispatch_items heap (canon L op) a) as [[k|]|e]; simpl.
  - destruct H as (l1 & i & l2 & E & Hk & Hc & Hno).
    destruct (Hsplit _ _ _ E) as (R1 & r & R2 & ER & -> & -> & ->).
    assert (Hr : In r L /\ rop r = op) by (apply in_rcanon; rewrite ER; apply in_or_app; right; now left).
    exists r. repeat split; try tauto. intros. eapply Hpref; eassumption.
  - intros r Hr Ho. apply (H (item_of r)). rewrite canon_rcanon. apply in_map, in_rcanon. auto.
  - destruct H as (l1 & i & l2 & E & Hc & Hno).
    destruct (Hsplit _ _ _ E) as (R1 & r & R2 & ER & -> & -> & ->).
    assert (Hr : In r L /\ rop r = op) by (apply in_rcanon; rewrite ER; apply in_or_app; right; now left).
    exists r. repeat split; try tauto. intros. eapply Hpref; eassumption.
Qed.

(** ** C16 *)
Lemma dispatch_history {Args} (heap : nat -> pexpr Args) h op a :
  unambiguous h ->
  exists s, drun dinit h = Ok s /\ right_answer heap (live (live_after h)) op a (dispatch heap (tbl s) op a).
Proof.
  intros Hu. destruct (drun_inv h dinit _ Inv_init Hu) as (s & E & I).
  exists s. split; [assumption|]. unfold dispatch. rewrite (inv_tbl _ _ I). apply dispatch_canon. apply (inv_inc _ _ I).
Qed.

Lemma live_step_all l o : exists x, all_regs (live_step l o) = all_regs l ++ x.
Proof. destruct o; simpl; eexists; [reflexivity|]. symmetry; apply app_nil_r. Qed.
Lemma fold_all h : forall l, exists x, all_regs (fold_left live_step h l) = all_regs l ++ x.
Proof.
  induction h as [|o h IH]; intros l; simpl; [exists []; symmetry; apply app_nil_r|].
  destruct (IH (live_step l o)) as [x Hx]. destruct (live_step_all l o) as [y Hy].
  exists (y ++ x). now rewrite Hx, Hy, app_assoc.
Qed.

(** live states as histories produce them *)
Definition lwf (l : live_state) : Prop :=
  length (all_regs l) = count l /\
  (forall k r, nth_error (all_regs l) k = Some r -> time r = k) /\
  (forall r, In r (live l) -> nth_error (all_regs l) (time r) = Some r).
Lemma lwf_step l o : lwf l -> lwf (live_step l o).
Proof.
  intros (Ha & Ht & Hl). destruct o; simpl; repeat split; simpl.
  - rewrite app_length, Ha. simpl; lia.
  - intros k r Hk. destruct (lt_dec k (length (all_regs l))).
    + rewrite nth_error_app1 in Hk by assumption. auto.
    + rewrite nth_error_app2 in Hk by lia. destruct (k - length (all_regs l)) eqn:E; [|destruct n0; discriminate].
      injection Hk as <-. simpl. lia.
  - intros r Hr. apply in_app_or in Hr. destruct Hr as [Hr|[<-|[]]].
    + pose proof (Hl _ Hr) as Hn. rewrite nth_error_app1; [assumption|]. apply nth_error_Some. congruence.
    + simpl. rewrite nth_error_app2 by lia. replace (count l - length (all_regs l)) with 0 by lia. reflexivity.
  - assumption.
  - assumption.
  - intros r Hr. apply filter_In in Hr. apply Hl. tauto.
Qed.

Lemma no_duplicates_unambiguous h : no_duplicates h -> unambiguous h.
Proof.
  unfold no_duplicates, unambiguous, live_after.
  assert (G : forall h l, lwf l ->
    (forall r r', In r (all_regs (fold_left live_step h l)) -> In r' (all_regs (fold_left live_step h l)) ->
       same_registration r r' -> r = r') -> unambiguous_from l h).
  { clear h. induction h as [|o h IH]; intros l W H; simpl; [exact I|]. split.
    - destruct o; [exact I|]. intros r0 r Hk Hr Hs. left. destruct W as (Ha & Ht & Hl).
      assert (r = r0); [|subst; now apply Ht].
      destruct (fold_all (DExit k :: h) l) as [x Hx]. simpl in Hx. simpl in H.
      rewrite Hx in H. apply H; [| |assumption]; apply in_or_app; left.
      + eapply nth_error_In. apply Hl. eassumption.
      + eapply nth_error_In; eassumption.
    - apply IH; [now apply lwf_step|exact H]. }
  intros H. apply G; [|exact H].
  repeat split; simpl; auto. - intros [|]; discriminate. - intros r [].
Qed.

Definition no_exit (o : dop) : Prop := match o with DExit _ => False | _ => True end.
Lemma no_exit_unambiguous h : Forall no_exit h -> unambiguous h.
Proof.
  unfold unambiguous. generalize (mkL 0 [] []). induction h as [|o h IH]; intros l H; simpl; [exact I|].
  inversion H; subst. destruct o; simpl in *; [|contradiction]. split; [exact I|]. now apply IH.
Qed.

(** ** C17 *)
Lemma sorted_table_keys t op : sorted_table t -> sorted_keys (keys_of (lookup t op)).
Proof.
  intros H i j x y Hij Hx Hy. unfold keys_of in *. rewrite nth_error_map in Hx, Hy.
  destruct (nth_error (lookup t op) i) eqn:Ei; [|discriminate].
  destruct (nth_error (lookup t op) j) eqn:Ej; [|discriminate].
  injection Hx as <-. injection Hy as <-.
  destruct (Nat.eq_dec i j) as [->|]; [rewrite Ei in Ej; injection Ej as ->; lia|].
  apply (H op i j); auto. lia.
Qed.

(** Splitting a sorted list of items at a priority. *)
Lemma split_sorted l x : sorted_keys (keys_of l) ->
  exists l1 l2, l = l1 ++ l2 /\ Forall (fun i => pnum (iprio i) < x) l1 /\ Forall (fun i => x <= pnum (iprio i)) l2.
Proof.
  induction l as [|i l IH]; intros H; [exists [], []; auto|].
  assert (Hs : sorted_keys (keys_of l)) by (intros a b u v Hab Hu Hv; apply (H (S a) (S b)); simpl; auto; lia).
  destruct (lt_dec (pnum (iprio i)) x) as [Hlt|Hge].
  - destruct (IH Hs) as (l1 & l2 & -> & H1 & H2). exists (i :: l1), l2. simpl. auto.
  - exists [], (i :: l). split; [reflexivity|]. split; [constructor|]. constructor; [lia|].
    apply Forall_forall. intros j Hj. apply In_nth_error in Hj. destruct Hj as [n Hn].
    assert (pnum (iprio i) <= pnum (iprio j)); [|lia].
    apply (H 0 (S n)); [lia|reflexivity|]. simpl. unfold keys_of. rewrite nth_error_map, Hn. reflexivity.
Qed.

Lemma register_sorted fresh t op p kernel prio :
  sorted_table t ->
  exists t' h l1 l2, register_functional fresh t op p kernel prio = Ok (t', h) /\ hop h = op /\
    lookup t op = l1 ++ l2 /\ lookup t' op = l1 ++ hitem h :: l2 /\
    Forall (fun i => item_eqb i (hitem h) = false) l1 /\
    (forall op', op <> op' -> lookup t' op' = lookup t op') /\ sorted_table t'.
Proof.
  intros Hs. pose proof (sorted_table_keys t op Hs) as Hk.
  destruct (split_sorted _ (pnum prio) Hk) as (l1 & l2 & E & H1 & H2).
  unfold register_functional. cbv zeta. set (it := mkItem _ kernel prio).
  assert (B : bisect_left (length (lookup t op)) (keys_of (lookup t op)) (pnum prio) 0 (length (lookup t op)) = Ok (length l1)).
  { rewrite E in Hk |- *.
    assert (HL : forall l, length l = length (keys_of l)) by (intros; unfold keys_of; now rewrite map_length).
    rewrite !HL. unfold keys_of in *. rewrite map_app in *. apply bisect_left_split; try assumption;
    apply Forall_map; assumption. }
  unfold keys_of in B. rewrite B. cbn [rbind].
  assert (EL : forall op', lookup (update t op (insert_at (length l1) it (lookup t op))) op' =
               if op =? op' then l1 ++ it :: l2 else lookup t op').
  { intros op'. rewrite lookup_update, E, insert_at_app. reflexivity. }
  eexists _, _, l1, l2. split; [reflexivity|]. split; [reflexivity|]. split; [assumption|].
  split; [rewrite EL, Nat.eqb_refl; reflexivity|]. split.
  { eapply Forall_impl; [|exact H1]. simpl. intros i Hi.
    destruct (item_eqb i it) eqn:Ei; [|reflexivity]. apply item_eqb_eq in Ei. subst i. simpl in Hi. lia. }
  split.
  { intros op' Hne. rewrite EL. apply Nat.eqb_neq in Hne. now rewrite Hne. }
  intros op' i j x y Hij Hx Hy. rewrite EL in Hx, Hy. destruct (op =? op') eqn:Eo.
  2: { apply (Hs op' i j); assumption. }
  assert (HK : sorted_keys (keys_of (l1 ++ it :: l2))).
  { unfold keys_of. rewrite E in Hk. unfold keys_of in Hk. rewrite map_app in *. simpl.
    assert (S1 : sorted_keys (map (fun i => pnum (iprio i)) l1)).
    { intros a b u v Hab Hu Hv. apply (Hk a b); auto; rewrite nth_error_app1; auto; apply nth_error_Some; congruence. }
    assert (S2 : sorted_keys (map (fun i => pnum (iprio i)) l2)).
    { intros a b u v Hab Hu Hv. apply (Hk (length (map (fun i => pnum (iprio i)) l1) + a) (length (map (fun i => pnum (iprio i)) l1) + b)); [lia| |];
      rewrite nth_error_app2 by lia; rewrite Nat.add_comm, Nat.add_sub; assumption. }
    apply (sorted_keys_app _ _ (pnum prio)); auto.
    - apply (sorted_keys_app [pnum prio] _ (pnum prio)); auto.
      + intros a b u v _ Hu Hv. destruct a as [|[|a]]; try discriminate. destruct b as [|[|b]]; try discriminate.
        simpl in *. injection Hu as <-. injection Hv as <-. lia.
      + apply Forall_map. eapply Forall_impl; [|exact H2]. simpl; intros; lia.
    - apply Forall_map. eapply Forall_impl; [|exact H1]. simpl; intros; lia.
    - constructor; [lia|]. apply Forall_map. eapply Forall_impl; [|exact H2]. simpl; intros; lia. }
  apply (HK i j); [lia| |]; unfold keys_of; rewrite nth_error_map; [rewrite Hx|rewrite Hy]; reflexivity.
Qed.

(** Same kernels for every operator. *)
Definition same_table (t t' : table) : Prop := forall op, lookup t op = lookup t' op.

Lemma wexec_restores {Args} (heap : nat -> pexpr Args) p : forall fresh t,
  sorted_table t -> same_table (wtbl (wexec heap fresh t p)) t.
Proof.
  induction p as [| |op a rest IH|op pr k prio body IHb rest IHr]; intros fresh t Hs; simpl;
    try (intros op'; reflexivity).
  - destruct (dispatch heap t op a); simpl; [now apply IH|intros op'; reflexivity].
  - destruct (register_sorted fresh t op pr k prio Hs) as (t1 & h & l1 & l2 & E & Hop & El & El1 & Hne & Hoth & Hs1).
    rewrite E. specialize (IHb (S fresh) t1 Hs1).
    set (r1 := wexec heap (S fresh) t1 body) in *.
    assert (Hback : same_table (hook_exit (wtbl r1) h) t).
    { intros op'. unfold hook_exit. rewrite (IHb (hop h)), Hop, El1.
      rewrite remove_first_app_not by assumption. simpl.
      assert (item_eqb (hitem h) (hitem h) = true) as -> by now apply item_eqb_eq.
      simpl. rewrite lookup_update. destruct (op =? op') eqn:Eo.
      - apply Nat.eqb_eq in Eo; subst. now rewrite El.
      - rewrite IHb. apply Hoth. now apply Nat.eqb_neq. }
    assert (Hs2 : sorted_table (hook_exit (wtbl r1) h)).
    { intros op' i j x y Hij Hx Hy. rewrite (Hback op') in Hx, Hy. apply (Hs op' i j); assumption. }
    destruct (wexc r1); simpl; [assumption|].
    intros op'. rewrite (IHr _ _ Hs2). apply Hback.
Qed.

Lemma same_table_dispatch {Args} (heap : nat -> pexpr Args) t t' : same_table t t' -> same_dispatch heap t t'.
Proof. intros H op a. unfold dispatch. now rewrite H. Qed.

Lemma history_table_sorted h : unambiguous h ->
  exists s, drun dinit h = Ok s /\ sorted_table (tbl s).
Proof.
  intros Hu. destruct (drun_inv h dinit _ Inv_init Hu) as (s & E & I). exists s. split; [assumption|].
  intros op i j x y Hij Hx Hy. rewrite (inv_tbl _ _ I) in Hx, Hy.
  apply (canon_sorted (live (fold_left live_step h (mkL 0 [] []))) op i j); [lia| |];
  unfold keys_of; rewrite nth_error_map; [rewrite Hx|rewrite Hy]; reflexivity.
Qed.

(** Inside the block the dispatcher prefers the new kernel among equal priorities: the
    body starts in a table in which the new registration is live and newest. *)
Lemma with_body_sees_kernel {Args} (heap : nat -> pexpr Args) fresh t op p k prio t1 h a :
  sorted_table t -> register_functional fresh t op p k prio = Ok (t1, h) ->
  pcall heap (match p with Some n => UserP n | None => TrueP fresh end) a = Ok true ->
  (forall i, In i (lookup t op) -> pnum (iprio i) < pnum prio -> pcall heap (ipred i) a = Ok false) ->
  dispatch heap t1 op a = Ok (Some k).
Proof.
  intros Hs E Hp Hlow.
  assert (Hit : hitem h = mkItem (match p with Some n => UserP n | None => TrueP fresh end) k prio).
  { unfold register_functional in E. cbv zeta in E. destruct (bisect_left _ _ _ _ _); [|discriminate].
    cbn [rbind] in E. injection E as _ <-. reflexivity. }
  destruct (register_sorted fresh t op p k prio Hs) as (t1' & h' & l1 & l2 & E' & Hop & El & El1 & Hne & Hoth & Hs1).
  rewrite E in E'. injection E' as <- <-. unfold dispatch. rewrite El1.
  assert (Hl1 : forall i, In i l1 -> pcall heap (ipred i) a = Ok false).
  { intros i Hi. apply Hlow; [rewrite El; apply in_or_app; now left|].
    pose proof (sorted_table_keys t1 op Hs1) as HK. rewrite El1 in HK.
    apply In_nth_error in Hi as Hi'. destruct Hi' as [n Hn].
    assert (Hn' : n < length l1) by (apply nth_error_Some; congruence).
    assert (pnum (iprio i) <= pnum (iprio (hitem h))) as Hle.
    { apply (HK n (length l1)); [lia| |]; unfold keys_of; rewrite nth_error_map.
      - rewrite nth_error_app1 by assumption. now rewrite Hn.
      - rewrite nth_error_app2 by lia. now rewrite Nat.sub_diag. }
    rewrite Hit in Hle. simpl in Hle.
    (* an item of the same priority is never before the insertion point *)
    destruct (Nat.eq_dec (pnum (iprio i)) (pnum prio)) as [Ep|]; [|lia]. exfalso.
    destruct (split_sorted _ (pnum prio) (sorted_table_keys t op Hs)) as (m1 & m2 & Em & M1 & M2).
    unfold register_functional in E. cbv zeta in E.
    assert (B : bisect_left (length (lookup t op)) (keys_of (lookup t op)) (pnum prio) 0 (length (lookup t op)) = Ok (length m1)).
    { pose proof (sorted_table_keys t op Hs) as Hk. rewrite Em in Hk |- *.
      assert (HL : forall l, length l = length (keys_of l)) by (intros; unfold keys_of; now rewrite map_length).
      rewrite !HL. unfold keys_of in *. rewrite map_app in *. apply bisect_left_split; try assumption;
      apply Forall_map; assumption. }
    unfold keys_of in B. rewrite B in E. cbn [rbind] in E. injection E as E1 _.
    assert (E2 : l1 ++ hitem h :: l2 = m1 ++ hitem h :: m2).
    { rewrite <- El1, <- E1, lookup_update, Nat.eqb_refl, Em, insert_at_app, Hit. reflexivity. }
    assert (E3 : l1 ++ l2 = m1 ++ m2) by (rewrite <- El, <- Em; reflexivity).
    (* position n: in l1 it is i; if n < length m1 then prio < *)
    destruct (lt_dec n (length m1)) as [Hm|Hm].
    - assert (nth_error m1 n = Some i).
      { transitivity (nth_error (m1 ++ m2) n); [now rewrite nth_error_app1|].
        rewrite <- E3, nth_error_app1 by assumption. assumption. }
      rewrite Forall_forall in M1. apply nth_error_In in H. specialize (M1 _ H). lia.
    - (* length m1 <= n < length l1: the item at position length m1 in l1 is the new one *)
      assert (Hx : nth_error l1 (length m1) = Some (hitem h)).
      { transitivity (nth_error (l1 ++ hitem h :: l2) (length m1)); [rewrite nth_error_app1 by lia; reflexivity|].
        rewrite E2, nth_error_app2 by lia. now rewrite Nat.sub_diag. }
      apply nth_error_In in Hx. rewrite Forall_forall in Hne. specialize (Hne _ Hx).
      assert (item_eqb (hitem h) (hitem h) = true) by now apply item_eqb_eq. congruence. }
  assert (G : forall m, (forall i, In i m -> pcall heap (ipred i) a = Ok false) ->
     dispatch_items heap (m ++ hitem h :: l2) a = Ok (Some k)).
  { induction m as [|i m IH]; intros Hm; simpl.
    - rewrite Hit. simpl. rewrite Hp. reflexivity.
    - rewrite (Hm i) by now left. cbn [rbind]. apply IH. intros; apply Hm; now right. }
  now apply G.
Qed.

(** Leaving an ambiguous hook removes the wrong registration: kernel 1 registered twice
    under the same predicate with kernel 2 in between, then the *first* hook is left. *)
Definition ambiguous_history : list dop :=
  [DRegister 0 (Some 0) 1 DEFAULT; DRegister 0 (Some 1) 2 DEFAULT; DRegister 0 (Some 0) 1 DEFAULT; DExit 0].
Definition always : nat -> pexpr unit := fun _ => PFun (fun _ => Ok true).
Lemma ambiguous_exit_witness :
  exists s, drun dinit ambiguous_history = Ok s /\
    ~ right_answer always (live (live_after ambiguous_history)) 0 tt (dispatch always (tbl s) 0 tt).
Proof.
  eexists. split; [vm_compute; reflexivity|]. vm_compute.
  intros (r & Hr & _ & Hf & _ & Hall).
  assert (Hc : rfn r = 2) by assumption.
  destruct Hr as [<-|[<-|[]]]; simpl in Hc; try discriminate.
  specialize (Hall (mkReg 2 0 (UserP 0) 1 DEFAULT)). simpl in Hall.
  destruct Hall as [H|[_ H]]; auto; lia.
Qed.

(** ** Predicate combinators *)
Lemma peval_holds {Args} (p : pexpr Args) a :
  never_raises p a -> exists b, peval p a = Ok b /\ (b = true <-> holds p a).
Proof.
  induction p as [f|p IH|p IHp q IHq|p IHp q IHq]; simpl; intros H.
  - destruct H as [b ->]. exists b. split; [reflexivity|]. split; [now intros ->|intros E; now injection E].
  - destruct (IH H) as (b & -> & Hb). exists (negb b). split; [reflexivity|].
    rewrite <- Hb. destruct b; simpl; split; easy.
  - destruct H as [Hp Hq]. destruct (IHp Hp) as (b & -> & Hb), (IHq Hq) as (c & Ec & Hc).
    cbn [rbind]. destruct b.
    + exists c. split; [assumption|]. tauto.
    + exists false. split; [reflexivity|]. split; [easy|]. intros [Hx _]. now apply Hb in Hx.
  - destruct H as [Hp Hq]. destruct (IHp Hp) as (b & -> & Hb), (IHq Hq) as (c & Ec & Hc).
    cbn [rbind]. destruct b.
    + exists true. split; [reflexivity|]. tauto.
    + exists c. split; [assumption|]. split; [tauto|]. intros [Hx|Hx]; [now apply Hb in Hx|tauto].
Qed.

(** ** C15 *)
Section ArgInd.
  Context {V : Type} (P : arg V -> Prop)
    (Hq : forall r, P (AQuant r)) (Hp : forall v, P (APlain v))
    (Ho : forall i, P (AOpaque i)) (Hn : forall l, Forall P l -> P (ANode l)).
  Fixpoint arg_ind' (a : arg V) : P a :=
    match a with
    | AQuant r => Hq r
    | APlain v => Hp v
    | AOpaque i => Ho i
    | ANode l => Hn l ((fix go l := match l return Forall P l with
                                    | [] => Forall_nil _
                                    | x :: l' => Forall_cons _ (arg_ind' x) (go l')
                                    end) l)
    end.
End ArgInd.

Lemma dequantize_tree_spec {V} (deq : V -> V) a : dequantized_as deq a (dequantize_tree deq a).
Proof.
  induction a as [r|v|i|l IH] using arg_ind'; simpl; try constructor.
  induction IH; simpl; constructor; auto.
Qed.
Lemma dequantized_no_quantized {V} (deq : V -> V) a : ~ contains_quantized (dequantize_tree deq a).
Proof.
  induction a as [r|v|i|l IH] using arg_ind'; simpl; intros H; inversion H; subst.
  apply in_map_iff in H1. destruct H1 as (y & <- & Hy). rewrite Forall_forall in IH. exact (IH y Hy H2).
Qed.

Lemma strict_never_dequantizes {V} (heap : nat -> pexpr (list (arg V))) t excluded name deq func args :
  excluded func = false ->
  match torch_function heap t true excluded name deq func args with
  | CalledPlain _ _ => False
  | CalledKernel k a => a = args /\ exists op, name func = Some op /\ dispatch heap t op args = Ok (Some k)
  | Raised e => (e = QuantizationError /\ forall op, name func = Some op -> dispatch heap t op args = Ok None) \/
                (exists op, name func = Some op /\ dispatch heap t op args = Err e)
  end.
Proof.
  intros Hx. unfold torch_function, dequantization_fallback. rewrite Hx.
  destruct (name func) as [op|]; [|left; split; [reflexivity|discriminate]].
  destruct (dispatch heap t op args) as [[k|]|e] eqn:E.
  - split; [reflexivity|]. eauto.
  - left. split; [reflexivity|]. intros op' H; injection H as <-; assumption.
  - right. eauto.
Qed.

Lemma Forall2_map_r {A B} (R : A -> B -> Prop) (f : A -> B) l : (forall a, R a (f a)) -> Forall2 R l (map f l).
Proof. intros H. induction l; simpl; constructor; auto. Qed.

Lemma lenient_dequantizes_all {V} (heap : nat -> pexpr (list (arg V))) t excluded name deq func args :
  excluded func = false -> (forall op, name func = Some op -> dispatch heap t op args = Ok None) ->
  exists args', torch_function heap t false excluded name deq func args = CalledPlain func args' /\
    Forall2 (dequantized_as deq) args args' /\ forall a, In a args' -> ~ contains_quantized a.
Proof.
  intros Hx Hd. exists (map (dequantize_tree deq) args). split; [|split].
  - unfold torch_function, dequantization_fallback. rewrite Hx.
    destruct (name func) as [op|]; [|reflexivity]. now rewrite (Hd op eq_refl).
  - apply Forall2_map_r. apply dequantize_tree_spec.
  - intros a Ha. apply in_map_iff in Ha. destruct Ha as (x & <- & _). apply dequantized_no_quantized.
Qed.
