From Verif Require Import Prelude OverrideModel OverrideSpec.

(** ** Decorator semantics *)
Section Deco.
  Context {V S : Type} (base : V -> S -> result V * S).
  Notation override := (V -> beh V S).

  Lemma run_zero inv (next : V -> S -> result V * S) (b : beh V S) : calls_at_most 0 b -> forall st s,
    fst (run_beh inv b st s) = interp next b s.
  Proof.
    induction b as [r|a k IH|k IH|s' b IH]; simpl; intros H st s; auto; contradiction.
  Qed.

  Lemma run_once inv next (rest : list override) (b : beh V S) : calls_at_most 1 b ->
    (forall a s, fst (inv rest a s) = next a s) -> forall s,
    fst (run_beh inv b rest s) = interp next b s.
  Proof.
    intros H Hinv. induction b as [r|a k IH|k IH|s' b IH]; simpl in *; intros s; auto.
    specialize (Hinv a s). destruct (inv rest a s) as [[r s'] st']. simpl in Hinv. rewrite <- Hinv.
    apply run_zero. apply H.
  Qed.

  Lemma invoke_decorated st : forall fuel a s, length st <= fuel ->
    (forall o, In o st -> forall a, calls_at_most 1 (o a)) ->
    fst (invoke base fuel st a s) = decorated (rev st) base a s.
  Proof.
    induction st as [|top rest IH]; intros fuel a s Hf Ho; destruct fuel as [|fuel]; simpl in *; try lia.
    - destruct (base a s). reflexivity.
    - destruct (base a s). reflexivity.
    - unfold decorated. rewrite fold_left_app. simpl.
      apply run_once; [apply Ho; now left|]. intros a' s'. apply IH; [lia|]. intros; apply Ho; now right.
  Qed.

  (** Fuel beyond the stack depth is irrelevant, and stacks never grow. *)
  Lemma run_beh_len inv (n : nat) (b : beh V S) :
    (forall (st : list override) a s, length st <= n -> length (snd (inv st a s)) <= length st) ->
    forall st s, length st <= n -> length (snd (run_beh inv b st s)) <= length st.
  Proof.
    intros H. induction b as [r|a k IH|k IH|s' b IH]; simpl; intros st s Hst; auto.
    specialize (H st a s Hst). destruct (inv st a s) as [[r s'] st']. simpl in H.
    specialize (IH r st' s' ltac:(lia)). lia.
  Qed.
  Lemma invoke_len fuel : forall st a s, length (snd (invoke base fuel st a s)) <= length st.
  Proof.
    induction fuel as [|fuel IH]; intros [|top rest] a s; simpl; auto; try (destruct (base a s); simpl; lia).
    pose proof (run_beh_len (invoke base fuel) (length rest) (top a) (fun st a s _ => IH st a s) rest s). lia.
  Qed.
  Lemma run_beh_ext inv inv' n (b : beh V S) :
    (forall (st : list override) a s, length st <= n -> inv st a s = inv' st a s) ->
    (forall (st : list override) a s, length st <= n -> length (snd (inv st a s)) <= length st) ->
    forall st s, length st <= n -> run_beh inv b st s = run_beh inv' b st s.
  Proof.
    intros H Hl. induction b as [r|a k IH|k IH|s' b IH]; simpl; intros st s Hst; auto.
    rewrite <- (H st a s Hst). specialize (Hl st a s Hst). destruct (inv st a s) as [[r s'] st'].
    simpl in Hl. apply IH. lia.
  Qed.
  Lemma invoke_fuel fuel : forall fuel' st a s, length st <= fuel -> length st <= fuel' ->
    invoke base fuel st a s = invoke base fuel' st a s.
  Proof.
    induction fuel as [|fuel IH]; intros [|fuel'] [|top rest] a s H H'; simpl in *; try lia; try reflexivity.
    apply (run_beh_ext _ _ (length rest)); auto.
    - intros st a' s' Hst. apply IH; lia.
    - intros st a' s' _. apply invoke_len.
  Qed.
End Deco.

(** ** Sorting an increasing map is the identity *)
Definition inc_ids {O} (l : list (nat * O)) : Prop :=
  forall a b x y, a < b -> nth_error (map fst l) a = Some x -> nth_error (map fst l) b = Some y -> x < y.
Lemma inc_tail {O} (x : nat * O) l : inc_ids (x :: l) -> inc_ids l.
Proof. intros H a b u v Hab Ha Hb. apply (H (S a) (S b)); simpl; auto. lia. Qed.
Lemma inc_head {O} (x : nat * O) l y : inc_ids (x :: l) -> In y l -> fst x < fst y.
Proof.
  intros H Hy. apply (in_map fst) in Hy. apply In_nth_error in Hy. destruct Hy as [n Hn].
  apply (H 0 (S n)); simpl; auto. lia.
Qed.
Lemma inc_cons {O} (x : nat * O) l : inc_ids l -> (forall y, In y l -> fst x < fst y) -> inc_ids (x :: l).
Proof.
  intros H Hx a b u v Hab Ha Hb. destruct b; [lia|]. simpl in Hb. destruct a; simpl in Ha.
  - injection Ha as <-. apply nth_error_In, in_map_iff in Hb. destruct Hb as (y & <- & Hy). now apply Hx.
  - apply (H a b); auto. lia.
Qed.
Lemma inc_filter {O} (f : nat * O -> bool) l : inc_ids l -> inc_ids (filter f l).
Proof.
  induction l as [|x l IH]; simpl; intros H; [assumption|].
  specialize (IH (inc_tail _ _ H)). destruct (f x); [|assumption].
  apply inc_cons; [assumption|]. intros y Hy. apply filter_In in Hy. eapply inc_head; [eassumption|tauto].
Qed.
Lemma inc_snoc {O} (l : list (nat * O)) x : inc_ids l -> (forall y, In y l -> fst y < fst x) -> inc_ids (l ++ [x]).
Proof.
  induction l as [|z l IH]; simpl; intros H Hx.
  - apply inc_cons; [|intros y []]. intros a b u v Hab _ Hb. destruct b; discriminate.
  - apply inc_cons.
    + apply IH; [eapply inc_tail; eassumption|]. intros; apply Hx; now right.
    + intros y Hy. apply in_app_or in Hy. destruct Hy as [Hy|[<-|[]]]; [eapply inc_head; eassumption|].
      apply Hx. now left.
Qed.
Lemma inc_nil {O} : inc_ids (@nil (nat * O)).
Proof. intros a b u v _ Ha. destruct a; discriminate. Qed.

Lemma sort_inc {O} (l : list (nat * O)) : inc_ids l -> sort_items l = l.
Proof.
  induction l as [|x l IH]; intros H; simpl; [reflexivity|].
  rewrite IH by (eapply inc_tail; eassumption).
  destruct l as [|y l]; simpl; [reflexivity|].
  pose proof (inc_head _ _ y H (or_introl eq_refl)) as Hlt.
  assert (fst x <=? fst y = true) as -> by (apply Nat.leb_le; lia). reflexivity.
Qed.

(** ** Histories *)
Record HInv {O} (st : oworld O * list handle) (l : olive O) : Prop := {
  hi_len : length (snd st) = ocount l;
  hi_ctr : octr (fst st) = ocount l;
  hi_handle : forall k h, nth_error (snd st) k = Some h -> hid h = k;
  hi_q : forall k h t, nth_error (snd st) k = Some h -> In t (olist l) -> fst (fst t) = k -> snd (fst t) = hq h;
  hi_lt : forall t, In t (olist l) -> fst (fst t) < ocount l;
  hi_inc : inc_ids (map (fun t => (fst (fst t), snd t)) (olist l));
  hi_map : forall q, omap (fst st) q =
             map (fun t => (fst (fst t), snd t)) (filter (fun t => snd (fst t) =? q) (olist l)) }.

Lemma filter_filter {A} (f g : A -> bool) l : filter f (filter g l) = filter (fun x => g x && f x) l.
Proof.
  induction l as [|x l IH]; simpl; [reflexivity|].
  destruct (g x); simpl; rewrite <- IH; reflexivity.
Qed.
Lemma filter_map_comm {A B} (f : A -> B) (g : B -> bool) l : filter g (map f l) = map f (filter (fun x => g (f x)) l).
Proof. induction l as [|x l IH]; simpl; [reflexivity|]. destruct (g (f x)); simpl; now rewrite IH. Qed.
Lemma filter_ext_in' {A} (f g : A -> bool) l : (forall x, In x l -> f x = g x) -> filter f l = filter g l.
Proof.
  induction l as [|x l IH]; simpl; intros H; [reflexivity|].
  rewrite (H x) by now left. rewrite IH; [reflexivity|]. intros; apply H; now right.
Qed.

Lemma hstep_inv {O} (st : oworld O * list handle) l o : HInv st l -> HInv (hstep st o) (olive_step l o).
Proof.
  intros [Hlen Hctr Hh Hq Hlt Hinc Hmap]. destruct st as [w hs]; simpl in *. destruct o as [q o|k]; simpl.
  - constructor; simpl.
    + rewrite app_length, Hlen. simpl; lia.
    + now rewrite Hctr.
    + intros k h Hk. destruct (lt_dec k (length hs)).
      * rewrite nth_error_app1 in Hk by assumption. eauto.
      * rewrite nth_error_app2 in Hk by lia. destruct (k - length hs) as [|j] eqn:E; [|destruct j; discriminate].
        injection Hk as <-. simpl. lia.
    + intros k h t Hk Ht Et. apply in_app_or in Ht. destruct Ht as [Ht|[<-|[]]].
      * assert (k < length hs) by (rewrite <- Et, Hlen; now apply Hlt).
        rewrite nth_error_app1 in Hk by assumption. eauto.
      * simpl in Et. subst k. rewrite nth_error_app2 in Hk by lia. rewrite Hlen, Nat.sub_diag in Hk.
        injection Hk as <-. reflexivity.
    + intros t Ht. apply in_app_or in Ht. destruct Ht as [Ht|[<-|[]]]; [specialize (Hlt _ Ht); lia|simpl; lia].
    + rewrite map_app. simpl. apply inc_snoc; [assumption|]. intros y Hy. simpl.
      apply in_map_iff in Hy. destruct Hy as (t & <- & Ht). simpl. now apply Hlt.
    + intros q'. rewrite filter_app, map_app. simpl. unfold upd. rewrite Hctr.
      rewrite (Nat.eqb_sym q q'). destruct (q' =? q) eqn:E.
      * apply Nat.eqb_eq in E; subst. rewrite Hmap. reflexivity.
      * rewrite Hmap. simpl. now rewrite app_nil_r.
  - destruct (nth_error hs k) as [h|] eqn:Ek.
    + unfold handle_remove, pop_id. simpl. constructor; simpl; auto.
      * intros k' h' t Hk' Ht. apply filter_In in Ht. eapply Hq; [eassumption|tauto].
      * intros t Ht. apply filter_In in Ht. apply Hlt. tauto.
      * rewrite <- (filter_map_comm (fun t : nat * nat * O => (fst (fst t), snd t)) (fun it => negb (fst it =? k))).
        now apply inc_filter.
      * intros q'. unfold upd. rewrite (Hh _ _ Ek). destruct (q' =? hq h) eqn:E.
        -- apply Nat.eqb_eq in E; subst q'. rewrite Hmap, filter_map_comm. simpl. f_equal.
           rewrite !filter_filter. apply filter_ext_in'. intros; apply andb_comm.
        -- rewrite Hmap. f_equal. rewrite filter_filter. apply filter_ext_in'.
           intros t Ht. destruct (fst (fst t) =? k) eqn:Et; simpl; [|reflexivity].
           apply Nat.eqb_eq in Et. rewrite (Hq _ _ _ Ek Ht Et). now rewrite Nat.eqb_sym.
    + constructor; simpl; auto.
      * intros k' h' t Hk' Ht. apply filter_In in Ht. eapply Hq; [eassumption|tauto].
      * intros t Ht. apply filter_In in Ht. apply Hlt. tauto.
      * rewrite <- (filter_map_comm (fun t : nat * nat * O => (fst (fst t), snd t)) (fun it => negb (fst it =? k))).
        now apply inc_filter.
      * intros q'. rewrite Hmap. f_equal. rewrite filter_filter. apply filter_ext_in'.
        intros t Ht. assert (fst (fst t) =? k = false) as ->; [|reflexivity].
        apply Nat.eqb_neq. intros E. apply nth_error_None in Ek. specialize (Hlt _ Ht). lia.
Qed.

Lemma hrun_inv {O} (h : list (hop_ O)) : HInv (hrun h) (olive_after h).
Proof.
  unfold hrun, olive_after.
  assert (H0 : HInv (@hinit O) (mkOL 0 [])).
  { constructor; simpl; auto; try (intros; contradiction); try (intros [|k] h'; discriminate). }
  revert H0. generalize (@hinit O) (@mkOL O 0 []). induction h as [|o h IH]; intros st l H; simpl; [assumption|].
  apply IH. now apply hstep_inv.
Qed.

Lemma inc_map_filter {O} (l : list (nat * nat * O)) f :
  inc_ids (map (fun t => (fst (fst t), snd t)) l) -> inc_ids (map (fun t => (fst (fst t), snd t)) (filter f l)).
Proof.
  induction l as [|x l IH]; simpl; intros H; [assumption|].
  specialize (IH (inc_tail _ _ H)). destruct (f x); [|assumption]. simpl.
  apply inc_cons; [assumption|]. intros y Hy. apply in_map_iff in Hy. destruct Hy as (t & <- & Ht).
  apply filter_In in Ht. eapply (inc_head (fst (fst x), snd x)); [eassumption|].
  apply (in_map (fun t : nat * nat * O => (fst (fst t), snd t))). tauto.
Qed.

Lemma history_overrides {O} (h : list (hop_ O)) q : map snd (omap (fst (hrun h)) q) = live_overrides h q.
Proof.
  pose proof (hrun_inv h) as I. rewrite (hi_map _ _ I). unfold live_overrides. rewrite map_map.
  apply map_ext. intros; reflexivity.
Qed.

Lemma history_inc {O} (h : list (hop_ O)) q : inc_ids (omap (fst (hrun h)) q).
Proof.
  pose proof (hrun_inv h) as I. rewrite (hi_map _ _ I). apply inc_map_filter. apply (hi_inc _ _ I).
Qed.

(** C19 *)
Lemma forward_stack {V S O} (sem : O -> V -> beh V S) base l a s :
  inc_ids l ->
  forward sem base l a s = fst (invoke base (length l) (rev (map sem (map snd l))) a s).
Proof.
  intros H. unfold forward. rewrite (sort_inc l H). cbv zeta.
  rewrite rev_length, map_length. now rewrite map_map.
Qed.

Lemma forward_decorated {V S O} (sem : O -> V -> beh V S) base (h : list (hop_ O)) q a s :
  (forall o, In o (live_overrides h q) -> forall x, calls_at_most 1 (sem o x)) ->
  forward sem base (omap (fst (hrun h)) q) a s = decorated (map sem (live_overrides h q)) base a s.
Proof.
  intros H. rewrite forward_stack by apply history_inc. rewrite history_overrides.
  rewrite invoke_decorated.
  - now rewrite rev_involutive.
  - rewrite rev_length, map_length. rewrite <- history_overrides, map_length. lia.
  - intros o Ho. apply in_rev in Ho. apply in_map_iff in Ho. destruct Ho as (o' & <- & Ho'). auto.
Qed.

(** Removal returns the removed override, and [None] on a second removal. *)
Lemma find_map {A B} (f : A -> B) (g : B -> bool) l : find g (map f l) = option_map f (find (fun x => g (f x)) l).
Proof. induction l as [|x l IH]; simpl; [reflexivity|]. destruct (g (f x)); [reflexivity|assumption]. Qed.

(** The override that calls its callback twice sees the quantizer the second time, not the
    next override. Integers: the quantizer is the identity, the inner override adds 1. *)
Definition add_one : nat -> beh nat unit := fun x => BCall x (fun r => BRet (rmap S r)).
Definition twice : nat -> beh nat unit :=
  fun x => BCall x (fun _ => BCall x BRet).
Lemma twice_witness :
  let l := [(0, add_one); (1, twice)] in
  fst (forward (fun o => o) (fun a s => (Ok a, s)) l 5 tt) = Ok 5 /\
  fst (decorated [add_one; twice] (fun a s => (Ok a, s)) 5 tt) = Ok 6.
Proof. split; reflexivity. Qed.

(** ** disable / enable *)
Section DisProofs.
  Context {V S : Type} (base : nat -> V -> S -> result V * S).
  Notation dworld := (dworld V S).

  Definition restored (w0 w : dworld) : Prop :=
    (forall q, omap (dw w) q = omap (dw w0) q) /\ dstrict w = dstrict w0 /\
    (forall d, d < dnext w0 -> denabled w d = denabled w0 d) /\
    octr (dw w0) <= octr (dw w) /\ dnext w0 <= dnext w.

  Lemma restored_refl w : restored w w.
  Proof. repeat split; auto. Qed.
  Lemma restored_trans w0 w1 w2 : restored w0 w1 -> restored w1 w2 -> restored w0 w2.
  Proof.
    intros (A1 & A2 & A3 & A4 & A5) (B1 & B2 & B3 & B4 & B5). split; [|split; [|split; [|split]]]; try lia.
    - intros q. now rewrite B1.
    - congruence.
    - intros d Hd. rewrite B3 by lia. now apply A3.
  Qed.
  Lemma restored_dwf w0 w : restored w0 w -> dwf w0 -> dwf w.
  Proof.
    intros (A1 & A2 & A3 & A4 & A5) H q. specialize (H q). destruct H as (H1 & H2 & H3). rewrite A1.
    repeat split; auto.
    - intros i o Hi. specialize (H1 i o Hi). lia.
    - intros i d Hi. specialize (H2 i d Hi). lia.
  Qed.

  (** registering fresh disable-objects *)
  Lemma disable_all_spec model : forall (w w1 : dworld) hs, disable_all w model = (w1, hs) -> dwf w ->
    dwf w1 /\ dstrict w1 = dstrict w /\ dst w1 = dst w /\
    octr (dw w) <= octr (dw w1) /\ dnext w <= dnext w1 /\
    (forall d, d < dnext w -> denabled w1 d = denabled w d) /\
    (forall q, exists ds : list (nat * nat),
        omap (dw w1) q = omap (dw w) q ++ map (fun x => (fst x, Dis (snd x))) ds /\
        (forall i d, In (i, d) ds -> octr (dw w) <= i < octr (dw w1) /\ dnext w <= d < dnext w1 /\ denabled w1 d = false /\ In (mkHandle q i) hs) /\
        (In q model <-> ds <> [])) /\
    (forall h, In h hs -> octr (dw w) <= hid h) /\
    (forall q q' i i' d, In (i, Dis d) (omap (dw w1) q) -> In (i', Dis d) (omap (dw w1) q') -> dnext w <= d -> q = q').
  Proof.
    induction model as [|q0 model IH]; intros w w1 hs E Hwf; simpl in E.
    - injection E as <- <-. split; [assumption|]. do 4 (split; [reflexivity || lia|]).
      split; [auto|]. split; [|split].
      + intros q. exists []. simpl. rewrite app_nil_r. split; [reflexivity|]. split; [intros i d []|]. split; [intros []|congruence].
      + intros h [].
      + intros q q' i i' d Hi Hi' Hd. destruct (Hwf q) as (_ & H2 & _). specialize (H2 _ _ Hi). lia.
    - destruct (disable_all _ model) as [w2 hs'] eqn:E2. injection E as <- <-.
      set (w0 := mkDW (mkOW (Datatypes.S (octr (dw w))) (upd (omap (dw w)) q0 (omap (dw w) q0 ++ [(octr (dw w), Dis (dnext w))])))
                      (upd (denabled w) (dnext w) false) (Datatypes.S (dnext w)) (dstrict w) (dst w)) in *.
      assert (Hmap0 : forall q, omap (dw w0) q = omap (dw w) q ++ (if q =? q0 then [(octr (dw w), Dis (dnext w))] else [])).
      { intros q. unfold w0. simpl. unfold upd. destruct (q =? q0) eqn:Eq; [apply Nat.eqb_eq in Eq; now subst|now rewrite app_nil_r]. }
      assert (Hwf0 : dwf w0).
      { intros q. destruct (Hwf q) as (H1 & H2 & H3). rewrite Hmap0. split; [|split].
        - intros i o Hi. apply in_app_or in Hi. destruct Hi as [Hi|Hi].
          + specialize (H1 _ _ Hi). unfold w0; simpl; lia.
          + destruct (q =? q0); [|contradiction]. destruct Hi as [Hi|[]]. injection Hi as <- <-. unfold w0; simpl; lia.
        - intros i d Hi. apply in_app_or in Hi. destruct Hi as [Hi|Hi].
          + specialize (H2 _ _ Hi). unfold w0; simpl; lia.
          + destruct (q =? q0); [|contradiction]. destruct Hi as [Hi|[]]. injection Hi as <- <-. unfold w0; simpl; lia.
        - destruct (q =? q0); [|rewrite app_nil_r; exact H3].
          apply (inc_snoc (omap (dw w) q) (octr (dw w), Dis (dnext w))); [exact H3|].
          intros [i o] Hi. simpl. eapply H1. eassumption. }
      destruct (IH _ _ _ E2 Hwf0) as (K1 & K2 & K3 & K4 & K5 & K6 & K7 & K8 & K9).
      unfold w0 in K2, K3, K4, K5, K6, K8. simpl in K2, K3, K4, K5, K6, K8.
      split; [assumption|]. split; [assumption|]. split; [assumption|]. split; [lia|]. split; [lia|].
      split.
      { intros d Hd. rewrite K6 by lia. unfold upd. assert (d =? dnext w = false) as -> by (apply Nat.eqb_neq; lia). reflexivity. }
      assert (Hnew : denabled w2 (dnext w) = false).
      { rewrite K6 by lia. unfold upd. now rewrite Nat.eqb_refl. }
      split; [|split].
      + intros q. destruct (K7 q) as (ds & D1 & D2 & D3). rewrite Hmap0 in D1. unfold w0 in D2. simpl in D2.
        exists ((if q =? q0 then [(octr (dw w), dnext w)] else []) ++ ds). split; [|split].
        * rewrite D1, map_app, app_assoc. f_equal. f_equal. destruct (q =? q0); reflexivity.
        * intros i d Hi. apply in_app_or in Hi. destruct Hi as [Hi|Hi].
          -- destruct (q =? q0) eqn:Eq; [|contradiction]. destruct Hi as [Hi|[]]. injection Hi as <- <-.
             apply Nat.eqb_eq in Eq. subst q. repeat split; try lia; auto. now left.
          -- destruct (D2 i d Hi) as (L1 & L2 & L3 & L4). repeat split; try lia; auto. now right.
        * simpl. destruct (q =? q0) eqn:Eq; simpl.
          -- apply Nat.eqb_eq in Eq. split; [discriminate|]. intros _. now left.
          -- rewrite <- D3. apply Nat.eqb_neq in Eq. split; [intros [->|H]; [congruence|assumption]|tauto].
      + intros h [<-|Hh]; simpl; [lia|]. specialize (K8 _ Hh). lia.
      + intros q q' i i' d Hi Hi' Hd.
        destruct (Nat.eq_dec d (dnext w)) as [->|Hne].
        * (* the object created in this step sits on q0 only *)
          assert (Hin : forall q i, In (i, Dis (dnext w)) (omap (dw w2) q) -> q = q0).
          { intros r j Hj. destruct (K7 r) as (ds & D1 & D2 & D3). rewrite D1 in Hj. apply in_app_or in Hj. destruct Hj as [Hj|Hj].
            - rewrite Hmap0 in Hj. apply in_app_or in Hj. destruct Hj as [Hj|Hj].
              + destruct (Hwf r) as (_ & H2 & _). specialize (H2 _ _ Hj). lia.
              + destruct (r =? q0) eqn:Er; [now apply Nat.eqb_eq|contradiction].
            - apply in_map_iff in Hj. destruct Hj as ([j' d'] & Ej & Hj). simpl in Ej. injection Ej as Ei Ed. subst j' d'.
              destruct (D2 _ _ Hj) as (_ & L2 & _). unfold w0 in L2. simpl in L2. lia. }
          rewrite (Hin _ _ Hi), (Hin _ _ Hi'). reflexivity.
        * eapply K9; try eassumption. unfold w0; simpl. lia.
  Qed.

  Lemma fold_remove {O} (hs : list handle) : forall (ow : oworld O) q,
    omap (fold_left (fun ow h => snd (handle_remove ow h)) hs ow) q =
    filter (fun it => negb (existsb (fun h => (hq h =? q) && (hid h =? fst it)) hs)) (omap ow q).
  Proof.
    induction hs as [|h hs IH]; intros ow q; simpl.
    - induction (omap ow q) as [|x l IHl]; simpl; [reflexivity|]. now rewrite <- IHl at 1.
    - rewrite IH. simpl. unfold upd. destruct (q =? hq h) eqn:E.
      + apply Nat.eqb_eq in E. subst q. rewrite filter_filter. apply filter_ext_in'. intros x Hx.
        rewrite Nat.eqb_refl. simpl. rewrite (Nat.eqb_sym (fst x)). now rewrite negb_orb.
      + apply filter_ext_in'. intros x Hx. rewrite (Nat.eqb_sym (hq h)), E. reflexivity.
  Qed.
  Lemma fold_remove_ctr {O} (hs : list handle) : forall (ow : oworld O),
    octr (fold_left (fun ow h => snd (handle_remove ow h)) hs ow) = octr ow.
  Proof. induction hs as [|h hs IH]; intros ow; simpl; [reflexivity|]. now rewrite IH. Qed.

  Lemma filter_true {A} (f : A -> bool) l : (forall x, In x l -> f x = true) -> filter f l = l.
  Proof.
    induction l as [|x l IH]; simpl; intros H; [reflexivity|].
    rewrite (H x) by now left. f_equal. apply IH. intros; apply H; now right.
  Qed.
  Lemma filter_false {A} (f : A -> bool) l : (forall x, In x l -> f x = false) -> filter f l = [].
  Proof.
    induction l as [|x l IH]; simpl; intros H; [reflexivity|].
    rewrite (H x) by now left. apply IH. intros; apply H; now right.
  Qed.

  Lemma disable_then_remove (w w1 : dworld) hs model w2 strict : disable_all w model = (w1, hs) -> dwf w ->
    restored (mkDW (dw w1) (denabled w1) (dnext w1) strict (dst w1)) w2 ->
    restored w (remove_all (mkDW (dw w2) (denabled w2) (dnext w2) (dstrict w) (dst w2)) hs).
  Proof.
    intros E Hwf (R1 & R2 & R3 & R4 & R5). simpl in *.
    destruct (disable_all_spec model w w1 hs E Hwf) as (K1 & K2 & K3 & K4 & K5 & K6 & K7 & K8 & K9).
    unfold remove_all, restored; cbn [dw denabled dnext dstrict].
    split; [|split; [|split; [|split]]].
    - intros q. rewrite fold_remove, R1. destruct (K7 q) as (ds & D1 & D2 & _). rewrite D1, filter_app.
      rewrite filter_true, filter_false; [apply app_nil_r| |].
      + intros x Hx. apply in_map_iff in Hx. destruct Hx as ([i d] & <- & Hi).
        destruct (D2 _ _ Hi) as (_ & _ & _ & Hh). apply negb_false_iff. apply existsb_exists.
        exists (mkHandle q i). split; [assumption|]. simpl. now rewrite !Nat.eqb_refl.
      + intros [i o] Hx. apply negb_true_iff. destruct (existsb _ hs) eqn:Ex; [|reflexivity].
        apply existsb_exists in Ex. destruct Ex as (h & Hh & Hc). apply andb_true_iff in Hc. destruct Hc as [_ Hc].
        apply Nat.eqb_eq in Hc. simpl in Hc. specialize (K8 _ Hh). destruct (Hwf q) as (H1 & _ & _).
        specialize (H1 _ _ Hx). lia.
    - reflexivity.
    - intros d Hd. rewrite R3 by lia. now apply K6.
    - rewrite fold_remove_ctr. lia.
    - lia.
  Qed.

  (** enabling *)
  Lemma enable_ovrs_spec l : forall (w w1 : dworld) stack stack1 N, enable_ovrs w l stack = (w1, stack1) ->
    (forall i d, In (i, Dis d) l -> d < N) ->
    dw w1 = dw w /\ dnext w1 = dnext w /\ dstrict w1 = dstrict w /\ dst w1 = dst w /\
    (forall d, denabled w1 d = true \/ denabled w1 d = denabled w d) /\
    (forall i d, In (i, Dis d) l -> denabled w1 d = true) /\
    (forall d, (forall i, ~ In (i, Dis d) l) -> denabled w1 d = denabled w d) /\
    exists pushes, stack1 = pushes ++ stack /\ (forall (w2 : dworld), (forall d, d < N -> denabled w2 d = denabled w1 d) ->
       dw (restore_all w2 pushes) = dw w2 /\ dnext (restore_all w2 pushes) = dnext w2 /\ dstrict (restore_all w2 pushes) = dstrict w2 /\
       forall d, d < N -> denabled (restore_all w2 pushes) d = denabled w d).
  Proof.
    induction l as [|[i o] l IH]; intros w w1 stack stack1 N E HN; simpl in E.
    - injection E as <- <-. do 4 (split; [reflexivity|]). split; [auto|]. split; [intros i d []|]. split; [auto|].
      exists []. split; [reflexivity|]. intros w2 H. simpl. repeat split; auto.
    - destruct o as [d|f].
      + destruct (IH _ _ _ _ N E) as (A1 & A2 & A3 & A4 & A5 & A6 & A7 & pushes & P1 & P2).
        { intros; eapply HN; right; eassumption. }
        split; [exact A1|]. split; [exact A2|]. split; [exact A3|]. split; [exact A4|].
        assert (Hd : denabled w1 d = true).
        { destruct (A5 d) as [H|H]; [assumption|]. rewrite H. simpl. unfold upd. now rewrite Nat.eqb_refl. }
        split; [|split; [|split]].
        * intros d'. destruct (A5 d') as [H|H]; [now left|]. simpl in H. unfold upd in H.
          destruct (d' =? d) eqn:Ed; auto.
        * intros i' d' [Hi|Hi]; [injection Hi as <- <-; assumption|]. eauto.
        * intros d' H. rewrite A7 by (intros i' Hi'; apply (H i'); now right). simpl. unfold upd.
          assert (d' =? d = false) as ->; [|reflexivity]. apply Nat.eqb_neq. intros ->. apply (H i). now left.
        * exists (pushes ++ [(d, denabled w d)]). split; [now rewrite P1, <- app_assoc|].
          intros w2 H. destruct (P2 w2 H) as (Q1 & Q2 & Q3 & Q4). unfold restore_all in *. rewrite fold_left_app. simpl.
          split; [assumption|]. split; [assumption|]. split; [assumption|].
          intros d' Hd'. unfold upd. destruct (d' =? d) eqn:Ed; [apply Nat.eqb_eq in Ed; now subst|].
          rewrite Q4 by assumption. simpl. unfold upd. now rewrite Ed.
      + destruct (IH _ _ _ _ N E) as (A1 & A2 & A3 & A4 & A5 & A6 & A7 & pushes & P1 & P2).
        { intros; eapply HN; right; eassumption. }
        repeat (split; [assumption|]). split; [|split].
        * intros i' d' [Hi|Hi]; [discriminate|]. eauto.
        * intros d' H. apply A7. intros i' Hi'. apply (H i'). now right.
        * exists pushes. auto.
  Qed.

  Lemma enable_all_spec model : forall (w w1 : dworld) stack stack1, enable_all w model stack = (w1, stack1) -> dwf w ->
    dw w1 = dw w /\ dnext w1 = dnext w /\ dstrict w1 = dstrict w /\ dst w1 = dst w /\
    (forall d, denabled w1 d = true \/ denabled w1 d = denabled w d) /\
    (forall q i d, In q model -> In (i, Dis d) (omap (dw w) q) -> denabled w1 d = true) /\
    (forall d, (forall q i, In q model -> ~ In (i, Dis d) (omap (dw w) q)) -> denabled w1 d = denabled w d) /\
    exists pushes, stack1 = pushes ++ stack /\ (forall (w2 : dworld), (forall d, d < dnext w -> denabled w2 d = denabled w1 d) ->
       dw (restore_all w2 pushes) = dw w2 /\ dnext (restore_all w2 pushes) = dnext w2 /\ dstrict (restore_all w2 pushes) = dstrict w2 /\
       forall d, d < dnext w -> denabled (restore_all w2 pushes) d = denabled w d).
  Proof.
    induction model as [|q model IH]; intros w w1 stack stack1 E Hwf; simpl in E.
    - injection E as <- <-. do 4 (split; [reflexivity|]). split; [auto|]. split; [intros q i d []|]. split; [auto|].
      exists []. split; [reflexivity|]. intros w2 H. simpl. repeat split; auto.
    - destruct (enable_ovrs w (omap (dw w) q) stack) as [w0 stack0] eqn:E0.
      destruct (enable_ovrs_spec _ _ _ _ _ (dnext w) E0) as (A1 & A2 & A3 & A4 & A5 & A6 & A7 & pu & P1 & P2).
      { intros i d Hi. destruct (Hwf q) as (_ & H2 & _). eauto. }
      assert (Hwf0 : dwf w0) by (intros r; rewrite A1, A2; apply Hwf).
      destruct (IH _ _ _ _ E Hwf0) as (B1 & B2 & B3 & B4 & B5 & B6 & B7 & pv & R1 & R2).
      split; [congruence|]. split; [congruence|]. split; [congruence|]. split; [congruence|].
      split; [|split; [|split]].
      + intros d. destruct (B5 d) as [H|H]; [now left|]. destruct (A5 d) as [H'|H']; rewrite H; auto.
      + intros r i d [->|Hr] Hi.
        * destruct (B5 d) as [H|H]; [assumption|]. rewrite H. eauto.
        * eapply B6; [eassumption|]. rewrite A1. eassumption.
      + intros d H. rewrite B7.
        * apply A7. intros i Hi. apply (H q i); [now left|assumption].
        * intros r i Hr. rewrite A1. apply H. now right.
      + exists (pv ++ pu). split; [now rewrite R1, P1, app_assoc|].
        intros w2 H. rewrite A2 in R2. destruct (R2 w2 H) as (Q1 & Q2 & Q3 & Q4).
        unfold restore_all in *. rewrite fold_left_app.
        destruct (P2 _ Q4) as (T1 & T2 & T3 & T4). rewrite T1, T2, T3. repeat split; auto.
  Qed.

  Lemma enable_then_restore (w w1 : dworld) stack model w2 : enable_all w model [] = (w1, stack) -> dwf w ->
    restored w1 w2 -> restored w (restore_all w2 stack).
  Proof.
    intros E Hwf (R1 & R2 & R3 & R4 & R5).
    destruct (enable_all_spec _ _ _ _ _ E Hwf) as (A1 & A2 & A3 & A4 & A5 & A6 & A7 & pu & P1 & P2).
    rewrite app_nil_r in P1. subst pu. rewrite A2 in R3.
    destruct (P2 w2 R3) as (Q1 & Q2 & Q3 & Q4).
    split; [|split; [|split; [|split]]].
    - intros q. now rewrite Q1, R1, A1.
    - congruence.
    - assumption.
    - rewrite Q1. rewrite A1 in R4. assumption.
    - rewrite Q2. rewrite A2 in R5. assumption.
  Qed.

  Lemma oexec_restores p : forall w, dwf w -> restored w (owd (oexec base w p)).
  Proof.
    induction p as [| |q x rest IH|model body IHb rest IHr|model body IHb rest IHr]; intros w Hwf; simpl.
    - apply restored_refl.
    - apply restored_refl.
    - destruct (dforward base w q x) as [r s].
      assert (R : restored w (set_st w s)) by (repeat split; auto).
      destruct r; simpl; [|assumption].
      eapply restored_trans; [exact R|]. apply IH. eapply restored_dwf; eassumption.
    - destruct (disable_all w model) as [w1 hs] eqn:E.
      destruct (disable_all_spec _ _ _ _ E Hwf) as (K1 & _).
      assert (K1' : dwf (mkDW (dw w1) (denabled w1) (dnext w1) false (dst w1))) by exact K1.
      specialize (IHb _ K1'). set (r1 := oexec base _ body) in *.
      pose proof (disable_then_remove _ _ _ _ _ _ E Hwf IHb) as R.
      destruct (oexc r1); simpl; [assumption|].
      eapply restored_trans; [exact R|]. apply IHr. eapply restored_dwf; eassumption.
    - destruct (enable_all w model []) as [w1 stack] eqn:E.
      destruct (enable_all_spec _ _ _ _ _ E Hwf) as (A1 & A2 & _).
      assert (K1' : dwf w1) by (intros r; rewrite A1, A2; apply Hwf).
      specialize (IHb _ K1'). set (r1 := oexec base w1 body) in *.
      pose proof (enable_then_restore _ _ _ _ _ E Hwf IHb) as R.
      destruct (oexc r1); simpl; [assumption|].
      eapply restored_trans; [exact R|]. apply IHr. eapply restored_dwf; eassumption.
  Qed.

  Lemma restored_alike w w' : dwf w -> restored w w' -> behaves_alike base w' w.
  Proof.
    intros Hwf (R1 & R2 & R3 & R4 & R5) q x s. unfold dforward. simpl. rewrite R1.
    destruct (Hwf q) as (_ & H2 & H3). rewrite !forward_stack by exact H3.
    f_equal. f_equal. f_equal. apply map_ext_in. intros o Ho. apply in_map_iff in Ho.
    destruct Ho as ([i o'] & <- & Hi). simpl. destruct o' as [d|f]; [|reflexivity].
    unfold osem. rewrite R3; [reflexivity|]. eauto.
  Qed.

  (** ** Lexical reading *)
  Definition uf (U : nat -> list (nat * (V -> beh V S))) (q : nat) : V -> S -> result V * S :=
    forward (fun o => o) (base q) (U q).

  Lemma invoke_dis enabled q (ds : list (nat * nat)) : forall st fuel x s, length ds + length st <= fuel ->
    fst (invoke (base q) fuel (map (fun d => osem enabled (Dis (snd d))) ds ++ st) x s) =
    if existsb (fun d => negb (enabled (snd d))) ds then (Ok x, s) else fst (invoke (base q) (length st) st x s).
  Proof.
    induction ds as [|[i d] ds IH]; intros st fuel x s Hf; simpl in *.
    - f_equal. apply invoke_fuel; lia.
    - destruct fuel as [|fuel]; [lia|]. cbn [invoke]. destruct (enabled d) eqn:Ed; simpl.
      + specialize (IH st fuel x s ltac:(lia)).
        destruct (invoke (base q) fuel _ x s) as [[r s'] st']. exact IH.
      + reflexivity.
  Qed.

  Definition Lex (U : nat -> list (nat * (V -> beh V S))) (w : dworld) (dis : nat -> bool) : Prop :=
    dwf w /\
    (forall q, exists ds : list (nat * nat),
       omap (dw w) q = map (fun x => (fst x, User (snd x))) (U q) ++ map (fun x => (fst x, Dis (snd x))) ds /\
       dis q = existsb (fun d => negb (denabled w (snd d))) ds) /\
    (forall q q' i i' d, In (i, Dis d) (omap (dw w) q) -> In (i', Dis d) (omap (dw w) q') -> q = q').

  Lemma Lex_restored U w w' dis : Lex U w dis -> restored w w' -> Lex U w' dis.
  Proof.
    intros (L1 & L2 & L3) R. split; [eapply restored_dwf; eassumption|].
    destruct R as (R1 & R2 & R3 & R4 & R5). split.
    - intros q. destruct (L2 q) as (ds & D1 & D2). exists ds. rewrite R1. split; [assumption|].
      rewrite D2. assert (Hlt : forall i d, In (i, d) ds -> d < dnext w).
      { intros i d Hi. destruct (L1 q) as (_ & H2 & _). apply (H2 i). rewrite D1. apply in_or_app. right.
        apply in_map_iff. exists (i, d). auto. }
      clear -Hlt R3. induction ds as [|[i d] ds IH]; simpl; [reflexivity|].
      rewrite (R3 d) by (eapply Hlt; now left). f_equal. apply IH. intros; eapply Hlt; right; eassumption.
    - intros q q' i i' d. rewrite !R1. apply L3.
  Qed.

  Lemma existsb_rev_eq {A} (f : A -> bool) l : existsb f (rev l) = existsb f l.
  Proof.
    destruct (existsb f l) eqn:E.
    - apply existsb_exists in E. destruct E as (x & Hx & Hf). apply existsb_exists. exists x. split; [now apply -> in_rev|assumption].
    - destruct (existsb f (rev l)) eqn:E'; [|reflexivity]. apply existsb_exists in E'. destruct E' as (x & Hx & Hf).
      apply in_rev in Hx. assert (existsb f l = true) by (apply existsb_exists; eauto). congruence.
  Qed.

  Lemma Lex_forward U w dis q x : Lex U w dis ->
    dforward base w q x = if dis q then (Ok x, dst w) else uf U q x (dst w).
  Proof.
    intros (L1 & L2 & L3). destruct (L1 q) as (_ & _ & H3). unfold dforward. rewrite forward_stack by exact H3.
    destruct (L2 q) as (ds & D1 & D2).
    assert (Hinc : inc_ids (U q)).
    { rewrite D1 in H3. rewrite map_app, !map_map in H3. simpl in H3.
      intros a b u v Hab Ha Hb.
      assert (Hl : forall n z, nth_error (map fst (U q)) n = Some z -> n < length (map (fun x : nat * (V -> beh V S) => fst x) (U q))).
      { intros n z Hz. rewrite map_length. rewrite <- (map_length fst). apply nth_error_Some. now rewrite Hz. }
      apply (H3 a b); auto; rewrite nth_error_app1; eauto. }
    rewrite D1. rewrite !map_app, rev_app_distr.
    replace (map (osem (denabled w)) (map snd (map (fun x => (fst x, Dis (snd x))) ds)))
      with (map (fun d : nat * nat => osem (V:=V) (S:=S) (denabled w) (Dis (snd d))) ds) by (now rewrite !map_map).
    replace (map (osem (denabled w)) (map snd (map (fun x : nat * (V -> beh V S) => (fst x, User (snd x))) (U q))))
      with (map (fun o : V -> beh V S => o) (map snd (U q))) by (rewrite !map_map; reflexivity).
    rewrite <- map_rev. rewrite invoke_dis.
    - rewrite D2, existsb_rev_eq. destruct (existsb _ ds); [reflexivity|].
      unfold uf. rewrite forward_stack by exact Hinc. rewrite rev_length, !map_length. reflexivity.
    - rewrite !rev_length, !app_length, !map_length. lia.
  Qed.

  Lemma existsb_app' {A} (f : A -> bool) l l' : existsb f (l ++ l') = existsb f l || existsb f l'.
  Proof. apply existsb_app. Qed.

  Lemma Lex_disable U (w : dworld) dis model w1 hs strict : Lex U w dis -> disable_all w model = (w1, hs) ->
    Lex U (mkDW (dw w1) (denabled w1) (dnext w1) strict (dst w1)) (fun q => existsb (Nat.eqb q) model || dis q).
  Proof.
    intros (L1 & L2 & L3) E.
    destruct (disable_all_spec _ _ _ _ E L1) as (K1 & K2 & K3 & K4 & K5 & K6 & K7 & K8 & K9).
    split; [exact K1|]. simpl. split.
    - intros q. destruct (L2 q) as (ds & D1 & D2). destruct (K7 q) as (ds' & D1' & D2' & D3').
      exists (ds ++ ds'). split; [rewrite D1', D1, map_app, app_assoc; reflexivity|].
      rewrite existsb_app'. rewrite orb_comm. f_equal.
      + rewrite D2. assert (Hlt : forall i d, In (i, d) ds -> d < dnext w).
        { intros i d Hi. destruct (L1 q) as (_ & H2 & _). apply (H2 i). rewrite D1. apply in_or_app. right.
          apply in_map_iff. exists (i, d). auto. }
        clear -Hlt K6. induction ds as [|[i d] ds IH]; simpl; [reflexivity|].
        rewrite (K6 d) by (eapply Hlt; now left). f_equal. apply IH. intros; eapply Hlt; right; eassumption.
      + destruct (existsb (Nat.eqb q) model) eqn:Em.
        * apply existsb_exists in Em. destruct Em as (q' & Hq' & Eq). apply Nat.eqb_eq in Eq. subst q'.
          apply D3' in Hq'. destruct ds' as [|[i d] ds']; [congruence|]. simpl.
          destruct (D2' i d (or_introl eq_refl)) as (_ & _ & -> & _). reflexivity.
        * destruct ds' as [|x ds']; [reflexivity|]. exfalso.
          assert (In q model) by (apply D3'; discriminate).
          assert (existsb (Nat.eqb q) model = true) by (apply existsb_exists; exists q; split; [assumption|apply Nat.eqb_refl]).
          congruence.
    - intros q q' i i' d Hi Hi'. destruct (lt_dec d (dnext w)) as [Hd|Hd].
      + assert (Hold : forall q i, In (i, Dis d) (omap (dw w1) q) -> In (i, Dis d) (omap (dw w) q)).
        { intros r j Hj. destruct (K7 r) as (ds & D1 & D2 & _). rewrite D1 in Hj. apply in_app_or in Hj. destruct Hj as [Hj|Hj]; [assumption|].
          apply in_map_iff in Hj. destruct Hj as ([j' d'] & Ej & Hj). simpl in Ej. injection Ej as Ei Ed. subst j' d'.
          destruct (D2 _ _ Hj) as (_ & L & _). lia. }
        eapply L3; eauto.
      + eapply K9; try eassumption. lia.
  Qed.

  Lemma Lex_enable U (w : dworld) dis model w1 stack : Lex U w dis -> enable_all w model [] = (w1, stack) ->
    Lex U w1 (fun q => negb (existsb (Nat.eqb q) model) && dis q).
  Proof.
    intros (L1 & L2 & L3) E.
    destruct (enable_all_spec _ _ _ _ _ E L1) as (A1 & A2 & A3 & A4 & A5 & A6 & A7 & _).
    split; [intros r; rewrite A1, A2; apply L1|]. split.
    - intros q. destruct (L2 q) as (ds & D1 & D2). exists ds. rewrite A1. split; [assumption|].
      assert (Hin : forall i d, In (i, d) ds -> In (i, Dis d) (omap (dw w) q)).
      { intros i d Hi. rewrite D1. apply in_or_app. right. apply in_map_iff. exists (i, d). auto. }
      rewrite D2. destruct (existsb (Nat.eqb q) model) eqn:Em; simpl.
      + apply existsb_exists in Em. destruct Em as (q' & Hq' & Eq). apply Nat.eqb_eq in Eq. subst q'.
        symmetry. destruct (existsb (fun d => negb (denabled w1 (snd d))) ds) eqn:Ex; [|reflexivity].
        apply existsb_exists in Ex. destruct Ex as ([i d] & Hd & Hn). simpl in Hn.
        rewrite (A6 q i d Hq' (Hin _ _ Hd)) in Hn. discriminate.
      + assert (Hsame : forall i d, In (i, d) ds -> denabled w1 d = denabled w d).
        { intros i d Hd. apply A7. intros q' i' Hq' Hi'.
          assert (q = q') by (eapply L3; [apply Hin; eassumption|eassumption]). subst q'.
          assert (existsb (Nat.eqb q) model = true) by (apply existsb_exists; exists q; split; [assumption|apply Nat.eqb_refl]).
          congruence. }
        clear -Hsame. induction ds as [|[i d] ds IH]; simpl; [reflexivity|].
        rewrite (Hsame i d) by now left. f_equal. apply IH. intros; eapply Hsame; right; eassumption.
    - intros q q' i i' d. rewrite A1. apply L3.
  Qed.

  Lemma disable_all_st model : forall (w w1 : dworld) hs, disable_all w model = (w1, hs) -> dst (V:=V) (S:=S) w1 = dst w.
  Proof.
    induction model as [|q model IH]; intros w w1 hs E; simpl in E; [now injection E as <- <-|].
    destruct (disable_all _ model) as [w2 hs'] eqn:E2. injection E as <- <-. now rewrite (IH _ _ _ E2).
  Qed.
  Lemma restore_st stack : forall w : dworld, dst (restore_all w stack) = dst w.
  Proof. induction stack as [|x st IH]; intros w; simpl; [reflexivity|]. unfold restore_all in *. simpl. now rewrite IH. Qed.

  Lemma oexec_lexical U p : forall w dis, Lex U w dis ->
    let r := oexec base w p in
    (olog r, oexc r, dst (owd r)) = olexical (uf U) dis (dstrict w) (dst w) p.
  Proof.
    induction p as [| |q x rest IH|model body IHb rest IHr|model body IHb rest IHr]; intros w dis L; cbn zeta; simpl.
    - reflexivity.
    - reflexivity.
    - rewrite (Lex_forward _ _ _ _ x L).
      destruct (if dis q then (Ok x, dst w) else uf U q x (dst w)) as [r s] eqn:Er.
      destruct r as [y|e]; simpl; [|reflexivity].
      assert (L' : Lex U (set_st w s) dis) by exact L.
      specialize (IH _ _ L'). simpl in IH. rewrite <- IH. reflexivity.
    - destruct (disable_all w model) as [w1 hs] eqn:E.
      pose proof (Lex_disable _ _ _ _ _ _ false L E) as L1.
      pose proof (IHb _ _ L1) as Hb. cbn zeta in Hb. simpl in Hb.
      rewrite (disable_all_st _ _ _ _ E) in Hb.
      assert (R : restored w (remove_all (mkDW (dw (owd (oexec base (mkDW (dw w1) (denabled w1) (dnext w1) false (dst w1)) body)))
                 (denabled (owd (oexec base (mkDW (dw w1) (denabled w1) (dnext w1) false (dst w1)) body)))
                 (dnext (owd (oexec base (mkDW (dw w1) (denabled w1) (dnext w1) false (dst w1)) body))) (dstrict w)
                 (dst (owd (oexec base (mkDW (dw w1) (denabled w1) (dnext w1) false (dst w1)) body)))) hs)).
      { eapply disable_then_remove; [eassumption|apply L|]. apply oexec_restores. apply L1. }
      rewrite (disable_all_st _ _ _ _ E) in *.
      set (r1 := oexec base (mkDW (dw w1) (denabled w1) (dnext w1) false (dst w)) body) in *.
      rewrite <- Hb. destruct (oexc r1); simpl; [reflexivity|].
      pose proof (IHr _ _ (Lex_restored _ _ _ _ L R)) as Hr. cbn zeta in Hr. simpl in Hr.
      rewrite <- Hr. reflexivity.
    - destruct (enable_all w model []) as [w1 stack] eqn:E.
      pose proof (Lex_enable _ _ _ _ _ _ L E) as L1.
      destruct (enable_all_spec _ _ _ _ _ E (proj1 L)) as (A1 & A2 & A3 & A4 & _).
      pose proof (IHb _ _ L1) as Hb. cbn zeta in Hb. rewrite A3, A4 in Hb.
      assert (R : restored w (restore_all (owd (oexec base w1 body)) stack)).
      { eapply enable_then_restore; [eassumption|apply L|]. apply oexec_restores. apply L1. }
      set (r1 := oexec base w1 body) in *.
      rewrite <- Hb. destruct (oexc r1); simpl; [now rewrite restore_st|].
      pose proof (IHr _ _ (Lex_restored _ _ _ _ L R)) as Hr. cbn zeta in Hr.
      rewrite restore_st in Hr. destruct R as (_ & R2 & _). rewrite R2 in Hr. rewrite <- Hr. reflexivity.
  Qed.

  Lemma user_overrides_all (l : list (nat * ovr V S)) : (forall i d, ~ In (i, Dis d) l) ->
    l = map (fun x => (fst x, User (snd x))) (user_overrides l).
  Proof.
    induction l as [|[i [d|f]] l IH]; simpl; intros H; [reflexivity| |].
    - exfalso. eapply H. now left.
    - f_equal. apply IH. intros i' d Hi. apply (H i' d). now right.
  Qed.

  Lemma program_lexical w p : dwf w -> (forall q i d, ~ In (i, Dis d) (omap (dw w) q)) ->
    let r := oexec base w p in
    (olog r, oexc r, dst (owd r)) =
    olexical (fun q => forward (fun o => o) (base q) (user_overrides (omap (dw w) q))) (fun _ => false) (dstrict w) (dst w) p.
  Proof.
    intros Hwf Hno. apply (oexec_lexical (fun q => user_overrides (omap (dw w) q))).
    split; [assumption|]. split.
    - intros q. exists []. simpl. rewrite app_nil_r. split; [|reflexivity]. apply user_overrides_all. apply Hno.
    - intros q q' i i' d Hi. exfalso. eapply Hno. eassumption.
  Qed.

  (** First call in a disable block passes its input through, whatever was registered. *)
  Lemma disabled_passes_through (w : dworld) model w1 hs q x : dwf w -> disable_all w model = (w1, hs) -> In q model ->
    dforward base w1 q x = (Ok x, dst w1).
  Proof.
    intros Hwf E Hq. destruct (disable_all_spec _ _ _ _ E Hwf) as (K1 & K2 & K3 & K4 & K5 & K6 & K7 & K8 & K9).
    destruct (K7 q) as (ds & D1 & D2 & D3). destruct (K1 q) as (_ & _ & H3).
    unfold dforward. rewrite forward_stack by exact H3. rewrite D1.
    apply D3 in Hq. destruct ds as [|x0 ds] using rev_ind; [congruence|]. clear IHds.
    destruct (D2 (fst x0) (snd x0)) as (_ & _ & Hd & _); [destruct x0; apply in_or_app; right; now left|].
    rewrite !map_app, !rev_app_distr. simpl. rewrite Hd.
    rewrite app_length, app_length, !map_length. simpl. rewrite !Nat.add_succ_r. reflexivity.
  Qed.
End DisProofs.

(** ** freeze *)
Definition fbase : nat -> tv nat -> fstore nat -> result (tv nat) * fstore nat :=
  fun _ x s => (Ok (TQuantized (2 * (data_of s x / 2))), s).   (* round down to even *)
Definition fworld0 : oworld (tv nat -> beh (tv nat) (fstore nat)) := mkOW 0 (fun _ => []).
Definition fstore0 : fstore nat := mkFS (fun _ => 7) (fun _ => false).

(** After the block, a quantizer that was not called inside still freezes: calling it
    overwrites the parameter and returns the parameter instead of a quantized tensor. *)
Lemma freeze_leaks_witness :
  let (w, hooks) := freeze_enter fworld0 [0] false in
  let w' := freeze_exit w hooks in
  slot_call fbase fworld0 0 (TParam 3) fstore0 = (Ok (TQuantized 6), fstore0) /\
  fst (slot_call fbase w' 0 (TParam 3) fstore0) = Ok (TParam 3) /\
  params (snd (slot_call fbase w' 0 (TParam 3) fstore0)) 3 = 6.
Proof. unfold freeze_enter. cbv zeta. repeat split. Qed.

(** An activation quantizer called in the block is replaced by a stub although no
    parameter was frozen, and its input is passed on unquantized. *)
Lemma freeze_activation_witness :
  let (w, hooks) := freeze_enter fworld0 [0] true in
  let r := slot_call fbase w 0 (TTensor 9 7) fstore0 in
  fst r = Ok (TTensor 9 7) /\ stubbed (snd r) 0 = true /\ params (snd r) = params fstore0.
Proof. unfold freeze_enter. cbv zeta. repeat split. Qed.

(** What freezing does achieve: a parameter quantizer without other overrides, called in the
    block with removal on, leaves its quantized value in the parameter and a stub in its
    slot, so that later calls return the frozen parameter. *)
Lemma freeze_frozen {D} (base : nat -> tv D -> fstore D -> result (tv D) * fstore D) (qv : D -> D)
    w q p s n (other : nat -> list (nat * (tv D -> beh (tv D) (fstore D)))) :
  (forall s', base q (TParam p) s' = (Ok (TQuantized (qv (params s' p))), s')) ->
  w = mkOW n other -> other q = [] -> stubbed s q = false ->
  let (w1, hooks) := freeze_enter w [q] true in
  let (r, s1) := slot_call base w1 q (TParam p) s in
  r = Ok (TParam p) /\ params s1 p = qv (params s p) /\ (forall p', p' <> p -> params s1 p' = params s p') /\
  slot_call base (freeze_exit w1 hooks) q (TParam p) s1 = (Ok (TParam p), s1).
Proof.
  intros Hb -> Ho Hs. unfold freeze_enter. cbn [fold_left].
  unfold slot_call. rewrite Hs.
  assert (E : omap (fst (register_override (mkOW n other) q (freeze_override q true))) q = [(n, freeze_override q true)]).
  { simpl. unfold upd. now rewrite Nat.eqb_refl, Ho. }
  rewrite E. unfold forward at 1. simpl. rewrite Hb. simpl.
  split; [reflexivity|]. split; [unfold upd; now rewrite Nat.eqb_refl|]. split.
  - intros p' Hp. unfold upd. apply Nat.eqb_neq in Hp. now rewrite Hp.
  - unfold upd. rewrite Nat.eqb_refl. reflexivity.
Qed.
