(** Attaching loaded quantizers, the whole round trip, overwrite policies. *)
From Coq Require Import String Ascii QArith.
From Verif Require Import Prelude GgufModel GgufExportProofs SaveModel SaveSpec SaveProofs SaveQuantProofs.
Local Open Scope nat_scope.
Local Open Scope list_scope.

Definition names_cell (names : list (string * cell)) (c : cell) (e : string * nat) : bool :=
  match assoc_str (fst e) names with Some c' => cell_eqb c' c | None => false end.

Lemma names_cell_spec names c e : names_cell names c e = true <-> assoc_str (fst e) names = Some c.
Proof.
  unfold names_cell. destruct (assoc_str (fst e) names) as [c'|].
  - rewrite cell_eqb_spec. split; congruence.
  - split; discriminate.
Qed.

Definition attachable (pol : policy) (names : list (string * cell)) (base : nat) (at_ : cell -> content)
    (l : list (string * nat)) : Prop :=
  match pol with
  | POverwrite => forall n i c, In (n, i) l -> assoc_str n names = Some c -> at_ c <> NotQuantizer
  | PSkip => forall n i c, In (n, i) l -> assoc_str n names = Some c -> at_ c = Stub \/ at_ c = Concrete (base + i)
  | _ => NoDup (map (fun e => assoc_str (fst e) names) l) /\
         forall n i c, In (n, i) l -> assoc_str n names = Some c -> at_ c = Stub
  end.

Lemma attach_ok pol names base l : forall at_,
  (forall n i, In (n, i) l -> exists c, assoc_str n names = Some c) ->
  (forall n i n' i' c, In (n, i) l -> In (n', i') l -> assoc_str n names = Some c -> assoc_str n' names = Some c -> i = i') ->
  attachable pol names base at_ l ->
  exists at', attach pol names base at_ l = (at', Ok tt) /\
    (forall n i c, In (n, i) l -> assoc_str n names = Some c -> at' c = Concrete (base + i)) /\
    (forall c, (forall n i, In (n, i) l -> assoc_str n names <> Some c) -> at' c = at_ c).
Proof.
  induction l as [|[n i] l IH]; intros at_ R Co A.
  - exists at_. cbn. split; [reflexivity|]. split; [contradiction|reflexivity].
  - destruct (R n i (or_introl eq_refl)) as (c & Hc).
    assert (St : exists at1, attach_step pol names base at_ (n, i) = Ok at1 /\ at1 c = Concrete (base + i) /\
              forall c', c' <> c -> at1 c' = at_ c').
    { unfold attach_step. cbn [fst snd]. rewrite Hc.
      set (put := fun c' => if cell_eqb c' c then Concrete (base + i) else at_ c').
      assert (P1 : put c = Concrete (base + i)) by (unfold put; now rewrite (proj2 (cell_eqb_spec c c) eq_refl)).
      assert (P2 : forall c', c' <> c -> put c' = at_ c') by (intros c' N; unfold put; now rewrite (proj2 (cell_eqb_false c' c) N)).
      destruct pol; cbn in A.
      - rewrite (proj2 A n i c (or_introl eq_refl) Hc). eauto.
      - destruct (A n i c (or_introl eq_refl) Hc) as [E|E]; rewrite E; eauto.
      - destruct (at_ c) eqn:E; eauto. exfalso. exact (A n i c (or_introl eq_refl) Hc E).
      - rewrite (proj2 A n i c (or_introl eq_refl) Hc). eauto. }
    destruct St as (at1 & E1 & Hc1 & Ho1). cbn [attach]. rewrite E1.
    destruct (IH at1) as (at' & E & H1 & H2).
    + intros n' i' I. apply (R n' i'). now right.
    + intros n1 i1 n2 i2 c' I1 I2. apply Co; now right.
    + assert (Oth : forall n' i' c', In (n', i') l -> assoc_str n' names = Some c' -> c' = c -> i' = i).
      { intros n' i' c' I Hc' ->. eapply Co; [right; exact I|left; reflexivity|exact Hc'|exact Hc]. }
      destruct pol; cbn in A |- *.
      * destruct A as [A1 A2]. inversion_clear A1 as [|? ? A3 A4]. split; [exact A4|].
        intros n' i' c' I Hc'. rewrite Ho1; [eapply A2; [right; exact I|exact Hc']|].
        intros ->. apply A3. cbn. rewrite Hc, <- Hc'. change (assoc_str n' names) with (assoc_str (fst (n', i')) names).
        apply in_map_iff. exists (n', i'). auto.
      * intros n' i' c' I Hc'. destruct (cell_eqb c' c) eqn:Ec.
        -- apply cell_eqb_spec in Ec as ->. right. rewrite (Oth n' i' c I Hc' eq_refl). exact Hc1.
        -- apply cell_eqb_false in Ec. rewrite Ho1 by exact Ec. eapply A; [right; exact I|exact Hc'].
      * intros n' i' c' I Hc'. destruct (cell_eqb c' c) eqn:Ec.
        -- apply cell_eqb_spec in Ec as ->. congruence.
        -- apply cell_eqb_false in Ec. rewrite Ho1 by exact Ec. eapply A; [right; exact I|exact Hc'].
      * destruct A as [A1 A2]. inversion_clear A1 as [|? ? A3 A4]. split; [exact A4|].
        intros n' i' c' I Hc'. rewrite Ho1; [eapply A2; [right; exact I|exact Hc']|].
        intros ->. apply A3. cbn. rewrite Hc, <- Hc'. change (assoc_str n' names) with (assoc_str (fst (n', i')) names).
        apply in_map_iff. exists (n', i'). auto.
    + exists at'. split; [exact E|]. split.
      * intros n' i' c' [[= <- <-]|I] Hc'; [|eauto]. assert (c' = c) by congruence. subst c'.
        destruct (existsb (names_cell names c) l) eqn:Ex.
        -- apply existsb_exists in Ex as ([n2 i2] & I2 & N2). apply names_cell_spec in N2. cbn in N2.
           rewrite (H1 n2 i2 c I2 N2). do 2 f_equal. eapply Co; [right; exact I2|left; reflexivity|exact N2|exact Hc].
        -- rewrite H2; [exact Hc1|]. intros n2 i2 I2 N2.
           assert (existsb (names_cell names c) l = true); [|congruence].
           apply existsb_exists. exists (n2, i2). split; [exact I2|]. now apply names_cell_spec.
      * intros c' Nc. rewrite H2 by (intros n2 i2 I2; apply (Nc n2 i2); now right).
        apply Ho1. intros ->. exact (Nc n i (or_introl eq_refl) Hc).
Qed.

(** ** The round trip *)

Lemma named_in {C} (w : world C) n q : In (n, q) (named_quantizers w) <-> quantizer_at w n q.
Proof.
  unfold named_quantizers, quantizer_at. rewrite in_flat_map. split.
  - intros ([n' c] & I & J). cbn in J. destruct (w_at w c) eqn:E; cbn in J; try contradiction.
    destruct J as [[= <- <-]|[]]. eauto.
  - intros (c & I & E). exists (n, c). split; [exact I|]. cbn. rewrite E. now left.
Qed.

Section RoundTrip.
  Context {C : Type} (cast : nat -> nat -> list Q -> list Q) (rebuild : C -> list (string * slot)).
  Context (w : world C) (allow : bool).
  Hypothesis K : keeps cast.
  Hypothesis N : NoDup (map fst (w_names w)).
  Hypothesis HQ : forall n q, quantizer_at w n q -> plain n /\ describable (w_store w q) /\
    (allow = true \/ lazy_free (w_store w q)).

  Let gs := quantizer_groups (named_quantizers w).
  Lemma G : qgroups_ok gs (named_quantizers w).
  Proof. apply qgroups_spec. Qed.

  Lemma named_fun n q q' : quantizer_at w n q -> quantizer_at w n q' -> q = q'.
  Proof.
    intros (c & I & E) (c' & I' & E').
    apply (assoc_in n c _ N) in I. apply (assoc_in n c' _ N) in I'. congruence.
  Qed.

  Lemma group_names q ns n : In (q, ns) gs -> (In n ns <-> quantizer_at w n q).
  Proof. intros I. destruct (qg_names _ _ G _ _ I) as [-> _]. rewrite in_names_of. apply named_in. Qed.

  Lemma first_in q ns : In (q, ns) gs -> In (first_of ns) ns.
  Proof.
    intros I. destruct (qg_names _ _ G _ _ I) as [_ Hn]. unfold first_of.
    destruct (min_name_ok ns Hn) as (a & E). rewrite E. now apply min_name_in.
  Qed.

  Lemma state_lookup q ns p t : In (q, ns) gs -> In (p, Init t) (q_params (w_store w q)) ->
    assoc_str (dotted (first_of ns) p) (upd [] (state_entries (w_store w) gs)) = Some t.
  Proof.
    intros I J. apply upd_in.
    - assert (X : forall k v, In (k, v) (state_entries (w_store w) gs) -> exists q ns p, In (q, ns) gs /\
                In (p, Init v) (q_params (w_store w q)) /\ k = dotted (first_of ns) p).
      { intros k v H. apply in_flat_map in H as ([q0 ns0] & Hg & H). apply in_flat_map in H as ([p0 s0] & Hp & H).
        cbn in *. destruct s0; [contradiction|]. destruct H as [[= <- <-]|[]]. exists q0, ns0, p0. auto. }
      intros k v v' H H'. apply X in H as (q1 & ns1 & p1 & G1 & P1 & ->). apply X in H' as (q2 & ns2 & p2 & G2 & P2 & E).
      pose proof (first_in _ _ G1) as F1. pose proof (first_in _ _ G2) as F2.
      apply (group_names _ _ _ G1) in F1. apply (group_names _ _ _ G2) in F2.
      destruct (HQ _ _ F1) as (_ & (_ & D1 & D1') & _). destruct (HQ _ _ F2) as (_ & (_ & D2 & D2') & _).
      apply dotted_inj in E as [E1 E2].
      + rewrite E1 in F1. pose proof (named_fun _ _ _ F1 F2). subst q2 p2.
        apply (assoc_in _ _ _ D1) in P1. apply (assoc_in _ _ _ D1) in P2. congruence.
      + apply D1'. apply in_map_iff. exists (p1, Init v). auto.
      + apply D2'. apply in_map_iff. exists (p2, Init v'). auto.
    - apply in_flat_map. exists (q, ns). split; [exact I|]. apply in_flat_map. exists (p, Init t). split; [exact J|]. now left.
  Qed.

  Lemma meta_lookup q ns n : In (q, ns) gs -> In n ns ->
    assoc_str n (upd [] (meta_entries (w_store w) gs)) = Some (meta_string (first_of ns) (q_params (w_store w q))).
  Proof.
    intros I J. apply upd_in.
    - assert (X : forall k v, In (k, v) (meta_entries (w_store w) gs) -> exists q ns, In (q, ns) gs /\ In k ns /\
                v = meta_string (first_of ns) (q_params (w_store w q))).
      { intros k v H. apply in_flat_map in H as ([q0 ns0] & Hg & H). apply in_map_iff in H as (n0 & [= <- <-] & H).
        exists q0, ns0. auto. }
      intros k v v' H H'. apply X in H as (q1 & ns1 & G1 & P1 & ->). apply X in H' as (q2 & ns2 & G2 & P2 & ->).
      pose proof (proj1 (group_names _ _ _ G1) P1) as Q1. pose proof (proj1 (group_names _ _ _ G2) P2) as Q2.
      pose proof (named_fun _ _ _ Q1 Q2). subst q2.
      destruct (qg_names _ _ G _ _ G1) as [-> _]. destruct (qg_names _ _ G _ _ G2) as [-> _]. reflexivity.
    - apply in_flat_map. exists (q, ns). split; [exact I|]. apply in_map_iff. eauto.
  Qed.

  Definition config_of : list (string * nat) :=
    flat_map (fun '(i, (_, ns)) => map (fun n : string => (n, i)) ns) (number_from 0 gs).

  Lemma config_in n i : In (n, i) config_of <-> exists q ns, nth_error gs i = Some (q, ns) /\ In n ns.
  Proof.
    unfold config_of. rewrite in_flat_map. split.
    - intros ((j & q & ns) & I & J). apply number_from_nth in I as [_ I]. rewrite Nat.sub_0_r in I.
      apply in_map_iff in J as (n' & [= <- <-] & J). eauto.
    - intros (q & ns & I & J). exists (i, (q, ns)). split.
      + apply number_from_nth. rewrite Nat.sub_0_r. split; [lia|exact I].
      + apply in_map_iff. eauto.
  Qed.

  Lemma written name : exists f, write_quantizer_state w name allow = Ok f /\
    f_name f = name /\ f_config f = config_of /\ f_objs f = map (fun g => q_config (w_store w (fst g))) gs /\
    f_state f = upd [] (state_entries (w_store w) gs) /\
    (gs <> [] -> f_meta f = upd [] (meta_entries (w_store w) gs)).
  Proof.
    unfold write_quantizer_state. fold gs. rewrite collect_fold.
    - cbn [rbind]. eexists. split; [reflexivity|]. cbn. repeat split.
      intros Hg. destruct (upd [] (state_entries (w_store w) gs)); [|reflexivity].
      destruct (upd [] (meta_entries (w_store w) gs)) eqn:Em; [|reflexivity].
      exfalso. assert (Ig : exists q ns, In (q, ns) gs).
      { destruct gs as [|[q ns] gs']; [congruence|]. exists q, ns. now left. }
      destruct Ig as (q & ns & Ig).
      pose proof (meta_lookup q ns (first_of ns) Ig (first_in _ _ Ig)) as Hl.
      rewrite Em in Hl. discriminate.
    - intros [q ns] I. cbn. split; [apply (qg_names _ _ G _ _ I)|].
      pose proof (first_in _ _ I) as F. apply (group_names _ _ _ I) in F. apply (HQ _ _ F).
  Qed.

  Lemma gs_nodup i j q ns ns' : nth_error gs i = Some (q, ns) -> nth_error gs j = Some (q, ns') -> i = j.
  Proof.
    intros H H'. pose proof (qg_nodup _ _ G) as D. rewrite NoDup_nth_error in D. apply D.
    - rewrite map_length. apply nth_error_Some. congruence.
    - rewrite !nth_error_map, H, H'. reflexivity.
  Qed.

  Theorem round_trip_ (HR : forall n q, quantizer_at w n q -> rebuilds rebuild (w_store w q)) (name : string) (pol : policy) (base : nat) (w' : world C) :
    w_names w' = w_names w ->
    (pol = POverwrite /\ (forall n q c, quantizer_at w n q -> In (n, c) (w_names w) -> w_at w' c <> NotQuantizer)
     \/ (forall n q c, quantizer_at w n q -> In (n, c) (w_names w) -> w_at w' c = Stub) /\
        (pol = PSkip \/ forall n m c, In (n, c) (w_names w) -> In (m, c) (w_names w) -> n = m)) ->
    exists f w'', write_quantizer_state w name allow = Ok f /\
      load_quantizer_state cast rebuild pol allow (Some name) f base w' = (w'', Ok tt) /\
      w_names w'' = w_names w /\
      (forall n q, quantizer_at w n q -> exists q', quantizer_at w'' n q' /\ base <= q' /\
         q_config (w_store w'' q') = q_config (w_store w q) /\ q_params (w_store w'' q') = q_params (w_store w q)) /\
      (forall n m q r q' r', quantizer_at w n q -> quantizer_at w m r ->
         quantizer_at w'' n q' -> quantizer_at w'' m r' -> (q' = r' <-> q = r)) /\
      (forall c, (forall n q, quantizer_at w n q -> ~ In (n, c) (w_names w)) -> w_at w'' c = w_at w' c) /\
      (forall i, i < base -> w_store w'' i = w_store w' i).
  Proof.
    intros Wn Hp. destruct (written name) as (f & Ef & F1 & F2 & F3 & F4 & F5).
    set (qs := map (fun g => w_store w (fst g)) gs).
    set (firsts := fun i => match nth_error gs i with Some (_, ns) => first_of ns | None => EmptyString end).
    assert (Qs : forall i q0, nth_error qs i = Some q0 -> exists q ns, nth_error gs i = Some (q, ns) /\ q0 = w_store w q).
    { intros i q0 H. unfold qs in H. rewrite nth_error_map in H. destruct (nth_error gs i) as [[q ns]|]; [|discriminate].
      cbn in H. injection H as <-. eauto. }
    assert (Gq : forall i q ns, nth_error gs i = Some (q, ns) -> quantizer_at w (first_of ns) q).
    { intros i q ns H. apply nth_error_In in H. apply (group_names _ _ _ H), (first_in _ _ H). }
    destruct (load_all cast f allow rebuild qs firsts K) with (l := config_of) (objs := map rebuild (f_objs f))
      as (objs & Eo & Lo & Ho).
    - intros i q0 H. destruct (Qs i q0 H) as (q & ns & Hg & ->). pose proof (Gq _ _ _ Hg) as A.
      destruct (HQ _ _ A) as (P1 & P2 & P4). pose proof (HR _ _ A) as P3. unfold firsts. rewrite Hg.
      split; [exact P1|]. split; [exact P2|]. split; [exact P4|].
      intros p t I. rewrite F4. apply (state_lookup q ns p t); [eapply nth_error_In; exact Hg|exact I].
    - intros n i I. apply config_in in I as (q & ns & Hg & I). exists (w_store w q). split.
      + unfold qs. rewrite nth_error_map, Hg. reflexivity.
      + unfold firsts. rewrite Hg, F5 by (intros Eg; rewrite Eg in Hg; destruct i; discriminate).
        apply meta_lookup; [eapply nth_error_In; exact Hg|exact I].
    - rewrite F3, map_map. unfold qs.
      assert (X : forall l, incl l gs -> Forall2 (fun ps0 q => Forall2 (fun a b => fst a = fst b /\ takes (snd a) (snd b)) ps0 (q_params q))
                (map (fun x => rebuild (q_config (w_store w (fst x)))) l) (map (fun g => w_store w (fst g)) l)).
      { induction l as [|[q ns] l IH]; intros Hi; cbn [map]; constructor.
        - assert (I : In (q, ns) gs) by (apply Hi; now left).
          apply (HR (first_of ns) q). apply (group_names _ _ _ I), (first_in _ _ I).
        - apply IH. intros x I. apply Hi. now right. }
      apply X, incl_refl.
    - assert (Rs : forall n i, In (n, i) config_of -> exists q ns c, nth_error gs i = Some (q, ns) /\ In n ns /\ quantizer_at w n q /\
                 assoc_str n (w_names w) = Some c /\ w_at w c = Concrete q).
      { intros n i I. apply config_in in I as (q & ns & Hg & I).
        pose proof (proj1 (group_names _ _ _ (nth_error_In _ _ Hg)) I) as A. destruct A as (c & Ic & Ec).
        exists q, ns, c. split; [exact Hg|]. split; [exact I|]. split; [exists c; auto|].
        split; [now apply (assoc_in n c _ N)|exact Ec]. }
      destruct (attach_ok pol (w_names w') base config_of (w_at w')) as (at' & Ea & A1 & A2).
      + intros n i I. rewrite Wn. destruct (Rs n i I) as (q & ns & c & _ & _ & _ & H & _). eauto.
      + rewrite Wn. intros n i m j c I J Hn Hm. destruct (Rs n i I) as (q & ns & c1 & R1 & _ & _ & R2 & R3).
        destruct (Rs m j J) as (r & ms & c2 & S1 & _ & _ & S2 & S3).
        assert (q = r) by congruence. subst r. eapply gs_nodup; eassumption.
      + assert (Hs : forall n i c, In (n, i) config_of -> assoc_str n (w_names w') = Some c ->
                  exists q, quantizer_at w n q /\ In (n, c) (w_names w)).
        { rewrite Wn. intros n i c I Hc. destruct (Rs n i I) as (q & ns & c1 & _ & _ & R & _). exists q.
          split; [exact R|now apply assoc_some_in]. }
        assert (Dn : (forall n m c, In (n, c) (w_names w) -> In (m, c) (w_names w) -> n = m) ->
                 NoDup (map (fun e => assoc_str (fst e) (w_names w')) config_of)).
        { intros Dc. rewrite Wn.
          assert (Nc : NoDup (map fst config_of)).
          { unfold config_of.
            assert (X : forall l b, (forall x y i j n, nth_error l i = Some x -> nth_error l j = Some y -> In n (snd x) -> In n (snd y) -> i = j) ->
                      (forall x, In x l -> NoDup (snd x)) ->
                      NoDup (map fst (flat_map (fun '(i, (_, ns)) => map (fun n : string => (n, i)) ns) (number_from b (l : list (nat * list string)))))).
            { induction l as [|[q ns] l IH]; intros b Hd Hx; cbn [number_from flat_map]; [constructor|].
              rewrite map_app, map_map. cbn [fst]. rewrite map_id.
              assert (I1 : NoDup ns) by apply (Hx (q, ns) (or_introl eq_refl)).
              assert (I2 := IH (S b) (fun x y i j n H1 H2 H3 H4 => f_equal pred (Hd x y (S i) (S j) n H1 H2 H3 H4))
                              (fun x H => Hx x (or_intror H))).
              assert (I3 : forall n, In n ns -> ~ In n (map fst (flat_map (fun '(i, (_, ns)) => map (fun n : string => (n, i)) ns) (number_from (S b) l)))).
              { intros n In1 In2. apply in_map_iff in In2 as ([n' k] & E & In2). cbn in E. subst n'.
                apply in_flat_map in In2 as ((k' & q' & ns') & J1 & J2). apply in_map_iff in J2 as (n' & [= -> ->] & J2).
                apply number_from_nth in J1 as [_ J1].
                discriminate (Hd (q, ns) (q', ns') 0 (S (k - S b)) n eq_refl J1 In1 J2). }
              clear - I1 I2 I3. induction ns as [|n ns IHn]; [exact I2|]. cbn. inversion_clear I1 as [|? ? J1 J2]. constructor.
              - intros H. apply in_app_or in H as [H|H]; [auto|]. exact (I3 n (or_introl eq_refl) H).
              - apply IHn; [exact J2|]. intros m Hm. apply I3. now right. }
            apply X.
            - intros [q ns] [r ms] i j n H1 H2 J1 J2. cbn in J1, J2.
              assert (q = r).
              { eapply named_fun; [apply (group_names _ _ _ (nth_error_In _ _ H1)); exact J1|
                                   apply (group_names _ _ _ (nth_error_In _ _ H2)); exact J2]. }
              subst r. eapply gs_nodup; eassumption.
            - intros [q ns] I. destruct (qg_names _ _ G _ _ I) as [-> _]. cbn. unfold names_of.
              apply nodup_filter_keys. clear - N. unfold named_quantizers. induction (w_names w) as [|[n c] l IH]; [constructor|].
              cbn in N |- *. inversion_clear N as [|? ? N1 N2]. destruct (w_at w c); cbn; auto.
              constructor; [|auto]. intros H. apply N1. apply in_map_iff in H as ([n' q'] & <- & H).
              apply in_flat_map in H as ([n2 c2] & I2 & H). destruct (w_at w c2); cbn in H; try contradiction.
              destruct H as [[= <- <-]|[]]. apply in_map_iff. exists (n2, c2). auto. }
          assert (Inj : forall n i m j, In (n, i) config_of -> In (m, j) config_of -> assoc_str n (w_names w) = assoc_str m (w_names w) -> n = m).
          { intros n i m j I J E. destruct (Rs n i I) as (_ & _ & c & _ & _ & _ & R & _).
            apply (Dc n m c); apply assoc_some_in; congruence. }
          assert (X : forall l, incl l config_of -> NoDup (map fst l) -> NoDup (map (fun e : string * nat => assoc_str (fst e) (w_names w)) l)).
          { induction l as [|[n i] l IHl]; intros Hi Hl; [constructor|]. cbn in Hl |- *. inversion_clear Hl as [|? ? L1 L2]. constructor.
            - intros H. apply in_map_iff in H as ([m j] & E & H). cbn in E. apply L1.
              rewrite (Inj n i m j); [apply in_map_iff; exists (m, j); auto|apply Hi; now left|apply Hi; now right|congruence].
            - apply IHl; [|exact L2]. intros x I. apply Hi. now right. }
          apply X; [apply incl_refl|exact Nc]. }
        destruct Hp as [[-> Hp]|[Hst Hp]].
        * intros n i c I Hc. destruct (Hs n i c I Hc) as (q & H1 & H2). eauto.
        * assert (Hst' : forall n i c, In (n, i) config_of -> assoc_str n (w_names w') = Some c -> w_at w' c = Stub).
          { intros n i c I Hc. destruct (Hs n i c I Hc) as (q & H1 & H2). eauto. }
          destruct Hp as [->|Hp].
          -- intros n i c I Hc. left. eauto.
          -- destruct pol; cbn; auto.
             ++ intros n i c I Hc. left. eauto.
             ++ intros n i c I Hc. rewrite (Hst' n i c I Hc). discriminate.
      + exists f. eexists. split; [exact Ef|]. split.
        { unfold load_quantizer_state. rewrite F1, String.eqb_refl. cbn [negb]. rewrite F2, Eo, Ea. reflexivity. }
        cbn [w_names w_at w_store]. split; [exact Wn|].
        assert (Each : forall n q, quantizer_at w n q -> exists i ns c, nth_error gs i = Some (q, ns) /\ In n ns /\
                  In (n, c) (w_names w') /\ at' c = Concrete (base + i)).
        { intros n q A. pose proof (proj2 (named_in w n q) A) as I. destruct (qg_all _ _ G _ _ I) as (ns & Ig).
          destruct (In_nth_error _ _ Ig) as (i & Hi). assert (In n ns) by now apply (group_names _ _ _ Ig).
          assert (Ic : In (n, i) config_of) by (apply config_in; eauto).
          destruct A as (c & Ac & _). exists i, ns, c. rewrite Wn. repeat split; auto.
          apply (A1 n i c Ic). rewrite Wn. now apply (assoc_in n c _ N). }
        split; [|split; [|split]].
        * intros n q A. destruct (Each n q A) as (i & ns & c & Hg & I & Ic & Ec). exists (base + i).
          split; [exists c; cbn; auto|]. split; [lia|].
          replace (base + i <? base) with false by (symmetry; apply Nat.ltb_ge; lia).
          replace (base + i - base) with i by lia.
          assert (Eobj : nth_error (f_objs f) i = Some (q_config (w_store w q))) by (rewrite F3, nth_error_map, Hg; reflexivity).
          assert (Eps : nth_error objs i = Some (q_params (w_store w q))).
          { apply Ho; [unfold qs; rewrite nth_error_map, Hg; reflexivity|]. left. exists n. apply config_in. eauto. }
          rewrite Eobj, Eps. cbn. auto.
        * intros n m q r q' r' A B A' B'.
          destruct (Each n q A) as (i & ns & c & Hg & I & Ic & Ec). destruct (Each m r B) as (j & ms & d & Hh & J & Id & Ed).
          assert (q' = base + i).
          { destruct A' as (c' & Ic' & Ec'). cbn in *. rewrite Wn in *.
            apply (assoc_in n c _ N) in Ic. apply (assoc_in n c' _ N) in Ic'. congruence. }
          assert (r' = base + j).
          { destruct B' as (c' & Ic' & Ec'). cbn in *. rewrite Wn in *.
            apply (assoc_in m d _ N) in Id. apply (assoc_in m c' _ N) in Ic'. congruence. }
          subst q' r'. split.
          -- intros E. assert (i = j) by lia. subst j. congruence.
          -- intros <-. f_equal. eapply gs_nodup; eassumption.
        * intros c Nc. apply A2. intros n i I E. rewrite Wn in E. destruct (Rs n i I) as (q & _ & _ & _ & _ & R & _).
          apply (Nc n q R). now apply assoc_some_in.
        * intros i L. replace (i <? base) with true by (symmetry; apply Nat.ltb_lt; lia). reflexivity.
  Qed.

End RoundTrip.

Theorem round_trip {C} cast (rebuild : C -> list (string * slot)) (w : world C) allow :
  keeps cast -> NoDup (map fst (w_names w)) ->
  (forall n q, quantizer_at w n q -> plain n /\ describable (w_store w q) /\
     rebuilds rebuild (w_store w q) /\ (allow = true \/ lazy_free (w_store w q))) ->
  forall name pol base (w' : world C),
  w_names w' = w_names w ->
  (pol = POverwrite /\ (forall n q c, quantizer_at w n q -> In (n, c) (w_names w) -> w_at w' c <> NotQuantizer)
   \/ (forall n q c, quantizer_at w n q -> In (n, c) (w_names w) -> w_at w' c = Stub) /\
      (pol = PSkip \/ forall n m c, In (n, c) (w_names w) -> In (m, c) (w_names w) -> n = m)) ->
  exists f w'', write_quantizer_state w name allow = Ok f /\
    load_quantizer_state cast rebuild pol allow (Some name) f base w' = (w'', Ok tt) /\
    w_names w'' = w_names w /\
    (forall n q, quantizer_at w n q -> exists q', quantizer_at w'' n q' /\ base <= q' /\
       q_config (w_store w'' q') = q_config (w_store w q) /\ q_params (w_store w'' q') = q_params (w_store w q)) /\
    (forall n m q r q' r', quantizer_at w n q -> quantizer_at w m r ->
       quantizer_at w'' n q' -> quantizer_at w'' m r' -> (q' = r' <-> q = r)) /\
    (forall c, (forall n q, quantizer_at w n q -> ~ In (n, c) (w_names w)) -> w_at w'' c = w_at w' c) /\
    (forall i, i < base -> w_store w'' i = w_store w' i).
Proof.
  intros K N H. apply round_trip_; [exact K|exact N| |]; intros n q A; destruct (H n q A) as (H1 & H2 & H3 & H4); auto.
Qed.

(** ** Lazy parameters *)

Lemma lazy_rejected {C} (w : world C) name n q p d :
  quantizer_at w n q -> In (p, Uninit d) (q_params (w_store w q)) ->
  write_quantizer_state w name false = Err ValueError.
Proof.
  intros A I. unfold write_quantizer_state. set (gs := quantizer_groups (named_quantizers w)).
  pose proof (qgroups_spec (named_quantizers w)) as G. fold gs in G.
  rewrite collect_lazy; [reflexivity|reflexivity| |].
  - intros [q' ns] H. apply (qg_names _ _ G _ _ H).
  - apply named_in in A. destruct (qg_all _ _ G _ _ A) as (ns & Ig). exists (q, ns). split; [exact Ig|].
    intros L. destruct (L p (Uninit d) I) as (t & E). discriminate.
Qed.
