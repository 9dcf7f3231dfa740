(** Overwrite policies and the cache directories. *)
From Coq Require Import String Ascii QArith.
From Verif Require Import Prelude GgufModel GgufExportProofs SaveModel SaveSpec SaveProofs SaveQuantProofs SaveLoadProofs.
Local Open Scope nat_scope.
Local Open Scope list_scope.

Lemma attach_keeps pol names base l : pol <> POverwrite -> forall at_ c q,
  at_ c = Concrete q -> fst (attach pol names base at_ l) c = Concrete q.
Proof.
  intros P. induction l as [|[n i] l IH]; intros at_ c q H; cbn [attach fst]; [exact H|].
  destruct (attach_step pol names base at_ (n, i)) as [at1|x] eqn:E; [|exact H].
  apply IH. unfold attach_step in E. cbn [fst snd] in E. destruct (assoc_str n names) as [c'|]; [|discriminate].
  destruct (at_ c') eqn:E'; try discriminate.
  - injection E as <-. destruct (cell_eqb c c') eqn:Ec; [apply cell_eqb_spec in Ec; congruence|exact H].
  - destruct pol; try discriminate; try congruence. 
Qed.

(** What must hold of the names for the overwriting load to succeed. *)
Lemma attach_overwrite_inv names base l : forall at_ at',
  attach POverwrite names base at_ l = (at', Ok tt) ->
  forall n i, In (n, i) l -> exists c, assoc_str n names = Some c /\ at_ c <> NotQuantizer.
Proof.
  induction l as [|[n i] l IH]; intros at_ at' H n' i' I; [contradiction|]. cbn [attach] in H.
  unfold attach_step in H. cbn [fst snd] in H. destruct (assoc_str n names) as [c|] eqn:Ec; [|discriminate].
  assert (Hc : at_ c <> NotQuantizer) by (intros E; rewrite E in H; discriminate).
  set (put := fun c' => if cell_eqb c' c then Concrete (base + i) else at_ c') in H.
  assert (H' : attach POverwrite names base put l = (at', Ok tt)) by (destruct (at_ c); [exact H|exact H|congruence]).
  destruct I as [[= <- <-]|I]; [eauto|].
  destruct (IH _ _ H' n' i' I) as (c' & E & P). exists c'. split; [exact E|]. unfold put in P.
  destruct (cell_eqb c' c) eqn:E'; [apply cell_eqb_spec in E'; congruence|exact P].
Qed.

Lemma attach_skip names base l : forall at_,
  NoDup (map (fun e => assoc_str (fst e) names) l) ->
  (forall n i, In (n, i) l -> exists c, assoc_str n names = Some c /\ at_ c <> NotQuantizer) ->
  exists at', attach PSkip names base at_ l = (at', Ok tt) /\
    (forall n i c, In (n, i) l -> assoc_str n names = Some c ->
       at' c = match at_ c with Concrete q => Concrete q | _ => Concrete (base + i) end) /\
    (forall c, (forall n i, In (n, i) l -> assoc_str n names <> Some c) -> at' c = at_ c).
Proof.
  induction l as [|[n i] l IH]; intros at_ D R.
  - exists at_. split; [reflexivity|]. split; [contradiction|reflexivity].
  - cbn [map fst] in D. inversion_clear D as [|? ? D1 D2].
    destruct (R n i (or_introl eq_refl)) as (c & Hc & Nc).
    assert (St : exists at1, attach_step PSkip names base at_ (n, i) = Ok at1 /\
              at1 c = (match at_ c with Concrete q => Concrete q | _ => Concrete (base + i) end) /\
              forall c', c' <> c -> at1 c' = at_ c').
    { unfold attach_step. cbn [fst snd]. rewrite Hc. destruct (at_ c) eqn:E; [|eauto|congruence].
      eexists. split; [reflexivity|]. split; [cbn; now rewrite (proj2 (cell_eqb_spec c c) eq_refl)|].
      intros c' Nn. cbn. now rewrite (proj2 (cell_eqb_false c' c) Nn). }
    destruct St as (at1 & E1 & Hc1 & Ho1).
    assert (Nl : forall n' i', In (n', i') l -> assoc_str n' names <> Some c).
    { intros n' i' I E. apply D1. rewrite Hc, <- E. apply in_map_iff. exists (n', i'). auto. }
    destruct (IH at1 D2) as (at' & E & A1 & A2).
    { intros n' i' I. destruct (R n' i' (or_intror I)) as (c' & Hc' & Nc'). exists c'. split; [exact Hc'|].
      rewrite Ho1; [exact Nc'|]. intros ->. exact (Nl n' i' I Hc'). }
    exists at'. cbn [attach]. rewrite E1. split; [exact E|]. split.
    + intros n' i' c' [[= <- <-]|I] Hc'.
      * assert (c' = c) by congruence. subst c'. rewrite A2 by exact Nl. exact Hc1.
      * rewrite (A1 n' i' c' I Hc'), Ho1; [reflexivity|]. intros ->. exact (Nl n' i' I Hc').
    + intros c' H. rewrite A2 by (intros n' i' I; apply (H n' i'); now right). apply Ho1.
      intros ->. exact (H n i (or_introl eq_refl) Hc).
Qed.

Lemma attach_error names base l : forall at_,
  (forall n i, In (n, i) l -> exists c, assoc_str n names = Some c /\ at_ c <> NotQuantizer) ->
  (exists n i c q, In (n, i) l /\ assoc_str n names = Some c /\ at_ c = Concrete q) ->
  snd (attach PError names base at_ l) = Err QuantizationError.
Proof.
  induction l as [|[n i] l IH]; intros at_ R (n0 & i0 & c0 & q0 & I & H0 & E0); [contradiction|].
  destruct (R n i (or_introl eq_refl)) as (c & Hc & Nc).
  cbn [attach]. unfold attach_step. cbn [fst snd]. rewrite Hc.
  destruct (at_ c) eqn:E; [|reflexivity|congruence].
  apply IH.
  - intros n' i' I'. destruct (R n' i' (or_intror I')) as (c' & Hc' & Nc'). exists c'. split; [exact Hc'|].
    destruct (cell_eqb c' c); [discriminate|exact Nc'].
  - destruct I as [[= <- <-]|I]; [congruence|]. exists n0, i0, c0, q0. split; [exact I|]. split; [exact H0|].
    rewrite (proj2 (cell_eqb_false c0 c)); [exact E0|]. congruence.
Qed.

(** Also with several names for one place, each place gets one of the loaded quantizers. *)
Lemma attach_some pol names base l : pol = POverwrite \/ pol = PSkip -> forall at_,
  (forall n i, In (n, i) l -> exists c, assoc_str n names = Some c /\ at_ c <> NotQuantizer) ->
  exists at', attach pol names base at_ l = (at', Ok tt) /\
    (forall n i c, In (n, i) l -> assoc_str n names = Some c ->
      (pol = PSkip /\ exists q, at_ c = Concrete q /\ at' c = Concrete q) \/
      exists m j, In (m, j) l /\ assoc_str m names = Some c /\ at' c = Concrete (base + j)) /\
    (forall c, (forall n i, In (n, i) l -> assoc_str n names <> Some c) -> at' c = at_ c).
Proof.
  intros P. induction l as [|[n i] l IH]; intros at_ R.
  - exists at_. split; [reflexivity|]. split; [contradiction|reflexivity].
  - destruct (R n i (or_introl eq_refl)) as (c & Hc & Nc).
    set (put := fun c' => if cell_eqb c' c then Concrete (base + i) else at_ c').
    assert (Pc : put c = Concrete (base + i)) by (unfold put; now rewrite (proj2 (cell_eqb_spec c c) eq_refl)).
    assert (Po : forall c', c' <> c -> put c' = at_ c') by (intros c' H; unfold put; now rewrite (proj2 (cell_eqb_false c' c) H)).
    assert (St : (exists q, pol = PSkip /\ at_ c = Concrete q /\ attach_step pol names base at_ (n, i) = Ok at_) \/
                 attach_step pol names base at_ (n, i) = Ok put).
    { unfold attach_step. cbn [fst snd]. rewrite Hc. fold put. destruct (at_ c) as [|q|] eqn:E; [auto| |congruence].
      destruct P as [->| ->]; eauto. }
    cbn [attach]. destruct St as [(q & Ep & Eq & ->)| ->].
    + destruct (IH at_) as (at' & Ea & A & B). { intros n' i' I. apply (R n' i'). now right. }
      exists at'. split; [exact Ea|]. split; [|intros c' H; apply B; intros n' i' I; apply (H n' i'); now right].
      intros n' i' c' [[= <- <-]|I] Hc'.
      * assert (c' = c) by congruence. subst c'. left. split; [exact Ep|]. exists q. split; [exact Eq|].
        pose proof (attach_keeps pol names base l ltac:(subst pol; discriminate) at_ c q Eq) as K. now rewrite Ea in K.
      * destruct (A n' i' c' I Hc') as [H|(m & j & J & Hm & H)]; [auto|]. right. exists m, j. split; [now right|auto].
    + destruct (IH put) as (at' & Ea & A & B).
      { intros n' i' I. destruct (R n' i' (or_intror I)) as (c' & Hc' & Nc'). exists c'. split; [exact Hc'|].
        unfold put. destruct (cell_eqb c' c); [discriminate|exact Nc']. }
      exists at'. split; [exact Ea|]. split.
      2: { intros c' H. rewrite B by (intros n' i' I; apply (H n' i'); now right). apply Po.
           intros ->. exact (H n i (or_introl eq_refl) Hc). }
      intros n' i' c' I Hc'.
      assert (A' : forall n2 i2, In (n2, i2) l -> assoc_str n2 names = Some c' ->
                (pol = PSkip /\ exists q, at_ c' = Concrete q /\ at' c' = Concrete q) \/
                exists m j, In (m, j) ((n, i) :: l) /\ assoc_str m names = Some c' /\ at' c' = Concrete (base + j)).
      { intros n2 i2 I2 H2. destruct (A n2 i2 c' I2 H2) as [(H3 & q & H4 & H5)|(m & j & J & Hm & H)].
        - destruct (cell_eqb c' c) eqn:Ec.
          + apply cell_eqb_spec in Ec. subst c'. right. exists n, i. split; [now left|]. split; [exact Hc|]. congruence.
          + apply cell_eqb_false in Ec. rewrite Po in H4 by exact Ec. left. eauto.
        - right. exists m, j. split; [now right|auto]. }
      destruct I as [[= <- <-]|I]; [|eauto].
      assert (c' = c) by congruence. subst c'.
      destruct (existsb (names_cell names c) l) eqn:Ex.
      * apply existsb_exists in Ex as ([n2 i2] & I2 & N2). apply names_cell_spec in N2. eauto.
      * right. exists n, i. split; [now left|]. split; [exact Hc|].
        rewrite B; [exact Pc|]. intros n2 i2 I2 H2.
        assert (existsb (names_cell names c) l = true); [|congruence].
        apply existsb_exists. exists (n2, i2). split; [exact I2|]. now apply names_cell_spec.
Qed.

Section Policies.
  Context {C : Type} (cast : nat -> nat -> list Q -> list Q) (rebuild : C -> list (string * slot)).
  Context (allow : bool) (expected : option string) (f : saved C) (base : nat) (w w1 : world C).

  Let load pol := load_quantizer_state cast rebuild pol allow expected f base w.

  Lemma load_unfold : load POverwrite = (w1, Ok tt) -> forall pol,
    load pol = (mkW (w_names w) (fst (attach pol (w_names w) base (w_at w) (f_config f))) (w_store w1),
                snd (attach pol (w_names w) base (w_at w) (f_config f))) /\
    snd (attach POverwrite (w_names w) base (w_at w) (f_config f)) = Ok tt /\
    w_at w1 = fst (attach POverwrite (w_names w) base (w_at w) (f_config f)).
  Proof.
    unfold load, load_quantizer_state. intros H pol.
    destruct (match expected with Some n => negb (String.eqb (f_name f) n) | None => false end); [discriminate|].
    destruct (fold_left _ _ _) as [objs|x]; [|discriminate].
    destruct (attach POverwrite (w_names w) base (w_at w) (f_config f)) as [a r].
    injection H as <- ->. destruct (attach pol (w_names w) base (w_at w) (f_config f)) as [a' r'].
    cbn. auto.
  Qed.

  Hypothesis H : load POverwrite = (w1, Ok tt).
  Hypothesis N : NoDup (map fst (w_names w)).

  Lemma named_ok n i : In (n, i) (f_config f) -> exists c, assoc_str n (w_names w) = Some c /\ w_at w c <> NotQuantizer.
  Proof.
    destruct (load_unfold H POverwrite) as (_ & E & _).
    destruct (attach POverwrite (w_names w) base (w_at w) (f_config f)) as [a r] eqn:Ea. cbn in E. subst r.
    exact (attach_overwrite_inv _ _ _ _ _ Ea n i).
  Qed.

  Theorem policy_some pol : pol = POverwrite \/ pol = PSkip -> exists w2, load pol = (w2, Ok tt) /\
    w_names w2 = w_names w /\ w_store w2 = w_store w1 /\
    (forall n i c, In (n, i) (f_config f) -> In (n, c) (w_names w) ->
      (pol = PSkip /\ exists q, w_at w c = Concrete q /\ w_at w2 c = Concrete q) \/
      exists m j, In (m, j) (f_config f) /\ In (m, c) (w_names w) /\ w_at w2 c = Concrete (base + j)) /\
    (forall c, (forall n i, In (n, i) (f_config f) -> ~ In (n, c) (w_names w)) -> w_at w2 c = w_at w c).
  Proof.
    intros P. destruct (load_unfold H pol) as (E & _ & _).
    destruct (attach_some pol (w_names w) base (f_config f) P (w_at w)) as (a & Ea & A1 & A2).
    { intros n i I. apply (named_ok n i I). }
    rewrite Ea in E. cbn in E. eexists. split; [exact E|]. cbn. repeat split.
    - intros n i c I Ic. apply (assoc_in n c _ N) in Ic.
      destruct (A1 n i c I Ic) as [H1|(m & j & J & Hm & H1)]; [auto|]. right. exists m, j.
      split; [exact J|]. split; [now apply assoc_some_in|exact H1].
    - intros c Hc. apply A2. intros n i I E'. apply (Hc n i I). now apply assoc_some_in.
  Qed.

  Theorem policy_error_raises :
    (exists n i c q, In (n, i) (f_config f) /\ In (n, c) (w_names w) /\ w_at w c = Concrete q) ->
    snd (load PError) = Err QuantizationError.
  Proof.
    intros (n & i & c & q & I & Ic & Eq). destruct (load_unfold H PError) as (E & _ & _). rewrite E. cbn [snd].
    apply attach_error.
    - intros n' i' I'. apply (named_ok n' i' I').
    - exists n, i, c, q. split; [exact I|]. split; [now apply (assoc_in n c _ N)|exact Eq].
  Qed.

  Hypothesis Nc : NoDup (map fst (f_config f)).
  Hypothesis Dc : forall n m c, In (n, c) (w_names w) -> In (m, c) (w_names w) -> n = m.

  Lemma cells_distinct : NoDup (map (fun e => assoc_str (fst e) (w_names w)) (f_config f)).
  Proof.
    destruct (load_unfold H POverwrite) as (_ & E & _).
    destruct (attach POverwrite (w_names w) base (w_at w) (f_config f)) as [a r] eqn:Ea. cbn in E. subst r.
    pose proof (attach_overwrite_inv _ _ _ _ _ Ea) as R. clear - R N Nc Dc.
    induction (f_config f) as [|[n i] l IH]; [constructor|]. cbn in Nc |- *. inversion_clear Nc as [|? ? L1 L2]. constructor.
    - intros I. apply in_map_iff in I as ([m j] & E & I). cbn in E. apply L1.
      destruct (R n i (or_introl eq_refl)) as (c & Hc & _).
      rewrite (Dc n m c); [apply in_map_iff; exists (m, j); auto|apply assoc_some_in; congruence|apply assoc_some_in; congruence].
    - apply IH; [exact L2|]. intros n' i' I. apply (R n' i'). now right.
  Qed.

  Lemma coherent n i m j c : In (n, i) (f_config f) -> In (m, j) (f_config f) ->
    assoc_str n (w_names w) = Some c -> assoc_str m (w_names w) = Some c -> i = j.
  Proof.
    intros I J Hn Hm. assert (n = m) by (apply (Dc n m c); now apply assoc_some_in). subst m.
    apply (assoc_in n i _ Nc) in I. apply (assoc_in n j _ Nc) in J. congruence.
  Qed.

  Theorem policy_overwrite :
    (forall n i c, In (n, i) (f_config f) -> In (n, c) (w_names w) -> w_at w1 c = Concrete (base + i)) /\
    (forall c, (forall n i, In (n, i) (f_config f) -> ~ In (n, c) (w_names w)) -> w_at w1 c = w_at w c).
  Proof.
    destruct (load_unfold H POverwrite) as (_ & _ & Ew).
    destruct (attach_ok POverwrite (w_names w) base (f_config f) (w_at w)) as (a & Ea & A1 & A2).
    - intros n i I. destruct (named_ok n i I) as (c & Hc & _). eauto.
    - intros n i m j c. apply coherent.
    - intros n i c I Hc. destruct (named_ok n i I) as (c' & Hc' & Hn). congruence.
    - rewrite Ea in Ew. cbn in Ew. rewrite Ew. split.
      + intros n i c I Ic. apply (A1 n i c I). now apply (assoc_in n c _ N).
      + intros c Hc. apply A2. intros n i I E. apply (Hc n i I). now apply assoc_some_in.
  Qed.

  Theorem policy_skip : exists w2, load PSkip = (w2, Ok tt) /\ w_names w2 = w_names w /\ w_store w2 = w_store w1 /\
    (forall n i c, In (n, i) (f_config f) -> In (n, c) (w_names w) ->
       w_at w2 c = match w_at w c with Concrete q => Concrete q | _ => Concrete (base + i) end) /\
    (forall c, (forall n i, In (n, i) (f_config f) -> ~ In (n, c) (w_names w)) -> w_at w2 c = w_at w c).
  Proof.
    destruct (load_unfold H PSkip) as (E & _ & _).
    destruct (attach_skip (w_names w) base (f_config f) (w_at w) cells_distinct) as (a & Ea & A1 & A2).
    { intros n i I. apply (named_ok n i I). }
    rewrite Ea in E. cbn in E. eexists. split; [exact E|]. cbn. repeat split.
    - intros n i c I Ic. apply (A1 n i c I). now apply (assoc_in n c _ N).
    - intros c Hc. apply A2. intros n i I E'. apply (Hc n i I). now apply assoc_some_in.
  Qed.

  Theorem policy_error :
    (forall n i c, In (n, i) (f_config f) -> In (n, c) (w_names w) -> w_at w c = Stub) ->
    exists w2, load PError = (w2, Ok tt) /\ w_names w2 = w_names w /\ w_store w2 = w_store w1 /\
      forall c, w_at w2 c = w_at w1 c.
  Proof.
    destruct (load_unfold H PError) as (E & _ & Ew).
    intros St. destruct (attach_ok PError (w_names w) base (f_config f) (w_at w)) as (a & Ea & A1 & A2).
      + intros n i I. destruct (named_ok n i I) as (c & Hc & _). eauto.
      + intros n i m j c. apply coherent.
      + split; [exact cells_distinct|]. intros n i c I Hc. apply (St n i c I). now apply assoc_some_in.
      + rewrite Ea in E. cbn in E. eexists. split; [exact E|]. cbn. repeat split.
        intros c. destruct policy_overwrite as [B1 B2].
        destruct (existsb (names_cell (w_names w) c) (f_config f)) eqn:Ex.
        * apply existsb_exists in Ex as ([n i] & I & Hn). apply names_cell_spec in Hn. cbn in Hn.
          rewrite (A1 n i c I Hn). symmetry. apply (B1 n i c I). now apply assoc_some_in.
        * assert (Hno : forall n i, In (n, i) (f_config f) -> assoc_str n (w_names w) <> Some c).
          { intros n i I E'. assert (existsb (names_cell (w_names w) c) (f_config f) = true); [|congruence].
            apply existsb_exists. exists (n, i). split; [exact I|]. now apply names_cell_spec. }
          rewrite A2 by exact Hno. symmetry. apply B2. intros n i I Ic. apply (Hno n i I). now apply (assoc_in n c _ N).
  Qed.
End Policies.

(** A quantizer the model already has is never replaced unless overwriting was asked for. *)
Lemma policy_keeps {C} cast (rebuild : C -> list (string * slot)) pol allow expected f base w :
  pol <> POverwrite -> forall c q, w_at w c = Concrete q ->
  w_at (fst (load_quantizer_state cast rebuild pol allow expected f base w)) c = Concrete q.
Proof.
  intros P c q H. unfold load_quantizer_state.
  destruct (match expected with Some n => negb (String.eqb (f_name f) n) | None => false end); [exact H|].
  destruct (fold_left _ _ _) as [objs|x]; [|exact H].
  pose proof (attach_keeps pol (w_names w) base (f_config f) P (w_at w) c q H) as K.
  destruct (attach pol (w_names w) base (w_at w) (f_config f)) as [a r]. exact K.
Qed.

(** A state saved for another model is rejected and changes nothing. *)
Lemma wrong_name {C} cast (rebuild : C -> list (string * slot)) pol allow n f base w :
  f_name f <> n -> load_quantizer_state cast rebuild pol allow (Some n) f base w = (w, Err RuntimeError).
Proof. intros H. unfold load_quantizer_state. now rewrite (proj2 (String.eqb_neq _ _) H). Qed.

(** ** The cache *)

Lemma tame_inj s : forall t, tame s -> tame t -> sanitize s = sanitize t -> s = t.
Proof.
  assert (Tl : forall a r, tame (String a r) -> tame r).
  { intros a r [A B]. split; [intros c I; apply A; now right|]. destruct r as [|b r]; [exact I|]. apply B. }
  assert (Sl : forall r, sanitize (String "/" r) = String "-" (String "-" (sanitize r))) by reflexivity.
  assert (Sk : forall a r, tame (String a r) -> a <> "/"%char -> sanitize (String a r) = String a (sanitize r)).
  { intros a r [A _] Ha. cbn [sanitize]. destruct (unsafe_char a) eqn:U; [|reflexivity].
    exfalso. apply Ha, (A a (or_introl eq_refl) U). }
  assert (X : forall a s' t', tame (String "/" s') -> tame (String a t') -> a <> "/"%char ->
            sanitize (String "/" s') = sanitize (String a t') -> False).
  { intros a s' t' T1 T2 Ha. rewrite Sl, (Sk a t' T2 Ha). intros [= <- E].
    destruct t' as [|b t']; [discriminate|]. destruct (ascii_dec b "/") as [->|Hb].
    - destruct T2 as [_ [T2 _]]. apply T2. split; [now left|]. first [now right|now left].
    - rewrite (Sk b t' (Tl _ _ T2) Hb) in E. injection E as <- E. destruct T2 as [_ [T2 _]]. apply T2. split; [now left|]. first [now right|now left]. }
  induction s as [|a s IH]; intros [|b t] Ts Tt E.
  - reflexivity.
  - destruct (ascii_dec b "/") as [->|Hb]; [rewrite Sl in E; discriminate|]. rewrite (Sk b t Tt Hb) in E. discriminate.
  - destruct (ascii_dec a "/") as [->|Ha]; [rewrite Sl in E; discriminate|]. rewrite (Sk a s Ts Ha) in E. discriminate.
  - destruct (ascii_dec a "/") as [->|Ha], (ascii_dec b "/") as [->|Hb].
    + rewrite !Sl in E. injection E as E. f_equal. apply IH; eauto.
    + destruct (X b s t Ts Tt Hb E).
    + destruct (X a t s Tt Ts Ha (eq_sym E)).
    + rewrite (Sk a s Ts Ha), (Sk b t Tt Hb) in E. injection E as <- E. f_equal. apply IH; eauto.
Qed.

Lemma sanitize_app a b : sanitize (a ++ b) = (sanitize a ++ sanitize b)%string.
Proof. induction a as [|c a IH]; cbn [append sanitize]; [reflexivity|]. rewrite IH. now destruct (unsafe_char c). Qed.

Lemma sapp_cancel a b c : (a ++ b)%string = (a ++ c)%string -> b = c.
Proof. induction a as [|x a IH]; cbn; [auto|]. intros [= E]. auto. Qed.

Lemma dir_eqb_spec a b : dir_eqb a b = true <-> a = b.
Proof. unfold dir_eqb. destruct (list_eq_dec string_dec a b); split; congruence. Qed.

Lemma proper_dir n t : tame t -> proper_tag t ->
  state_dir n t = [("quantization-state--" ++ sanitize n)%string; sanitize t].
Proof.
  intros T (P1 & P2 & P3). unfold state_dir.
  assert (X : forall u, tame u -> sanitize u = u -> u <> t -> String.eqb (sanitize t) u = false).
  { intros u Tu Su Nu. apply String.eqb_neq. intros E. apply Nu. apply tame_inj; congruence. }
  assert (Td : forall u, (forall c, In c (chars u) -> c = "."%char) -> spaced u -> tame u).
  { intros u Hu Su. split; [|exact Su]. intros c I U. rewrite (Hu c I) in U. discriminate. }
  rewrite !X; try reflexivity; try congruence.
  - apply Td; cbn; [intuition|]. split; [|exact I]. intros [[H|H] _]; discriminate.
  - apply Td; cbn; [intuition|exact I].
  - apply Td; cbn; [intuition|exact I].
Qed.

Lemma state_dir_inj n t n' t' : tame n -> tame t -> tame n' -> tame t' -> proper_tag t -> proper_tag t' ->
  state_dir n t = state_dir n' t' -> n = n' /\ t = t'.
Proof.
  intros T1 T2 T3 T4 P P'. rewrite (proper_dir n t T2 P), (proper_dir n' t' T4 P').
  intros E. assert (E1 : ("quantization-state--" ++ sanitize n)%string = ("quantization-state--" ++ sanitize n')%string) by congruence.
  apply sapp_cancel in E1. split; apply tame_inj; congruence.
Qed.

Lemma cache_history {F} (h : list (string * string * F)) (n t : string) (c : cache F) :
  (forall n' t' f, In (n', t', f) h -> tame n' /\ tame t' /\ proper_tag t') -> tame n -> tame t -> proper_tag t ->
  cache_load (fold_left (fun c '(n', t', f) => cache_save c n' t' f) h c) n t =
  match last_saved n t h with Some f => Ok f | None => cache_load c n t end.
Proof.
  intros Hh Tn Tt Pt. revert c. induction h as [|[[n' t'] f] h IH]; intros c; [reflexivity|].
  cbn [fold_left last_saved]. rewrite IH by (intros n2 t2 f2 I; apply (Hh n2 t2 f2); now right).
  destruct (last_saved n t h) as [g|]; [reflexivity|].
  unfold cache_load, cache_save. destruct (Hh n' t' f (or_introl eq_refl)) as (Tn' & Tt' & Pt').
  destruct (string_dec n n') as [->|Nn]; [destruct (string_dec t t') as [->|Nt]|].
  - rewrite (proj2 (dir_eqb_spec _ _) eq_refl). reflexivity.
  - destruct (dir_eqb _ _) eqn:E; [|reflexivity]. apply dir_eqb_spec in E. apply state_dir_inj in E as [_ E]; congruence.
  - destruct (dir_eqb _ _) eqn:E; [|reflexivity]. apply dir_eqb_spec in E. apply state_dir_inj in E as [E _]; congruence.
Qed.
