(** What fusing does to the modules: forward results, stubs and rejected ties. *)
From Coq Require Import String.
From Verif Require Import Prelude TilingModel TilingSpec AffineModel FuseModel FuseSpec FuseFloatProofs FuseProofs.
From Coq Require Import QArith Permutation.
Local Open Scope nat_scope.

(** ** Rejection *)

Section Reject.
  Variable call : nat -> tensor Q -> result outcome.

  Lemma check_members_or w g : (forall t, In t g -> exists o, call (t_quant t) w = Ok o) ->
    forall r, check_members call w r g = Ok tt \/ check_members call w r g = Err QuantizationError.
  Proof.
    induction g as [|t g IH]; intros H r; cbn [check_members]; [now left|].
    destruct (H t (or_introl eq_refl)) as [o E]. rewrite E. cbn [rbind].
    assert (H' : forall t, In t g -> exists o, call (t_quant t) w = Ok o) by (intros t' I; apply H; now right).
    destruct r as [r|]; [|now apply IH]. destruct (torch_equal _ _); [now apply IH|now right].
  Qed.

  Lemma rmapM_or {A} (f : A -> result unit) l :
    (forall a, In a l -> f a = Ok tt \/ f a = Err QuantizationError) ->
    rmap (fun _ => tt) (rmapM f l) = Ok tt \/ rmap (fun _ => tt) (rmapM f l) = Err QuantizationError.
  Proof.
    induction l as [|a l IH]; intros H; cbn [rmapM]; [now left|].
    destruct (H a (or_introl eq_refl)) as [E|E]; rewrite E; cbn [rbind]; [|now right].
    destruct IH as [E'|E']; [intros b I; apply H; now right| |].
    - destruct (rmapM f l); [now left|discriminate].
    - destruct (rmapM f l); [discriminate|]. right. cbn in *. congruence.
  Qed.

  Lemma disagreement_rejected ts st stub a b oa ob :
    plain_ties ts ->
    (forall t, In t ts -> exists o, call (t_quant t) (read (mem st) (t_weight t)) = Ok o) ->
    In a ts -> In b ts -> t_weight a = t_weight b ->
    call (t_quant a) (read (mem st) (t_weight a)) = Ok oa -> call (t_quant b) (read (mem st) (t_weight b)) = Ok ob ->
    ~ teq (value (read (mem st) (t_weight a)) oa) (value (read (mem st) (t_weight b)) ob) ->
    fuse_qdq_weights call stub st ts = Err QuantizationError.
  Proof.
    intros T O Ia Ib W Ea Eb N. unfold fuse_qdq_weights.
    assert (K : check_tied call (mem st) ts = Ok tt \/ check_tied call (mem st) ts = Err QuantizationError).
    { apply rmapM_or. intros g G. apply (proj1 (groups_spec ts)) in G. destruct G as (t & It & ->).
      unfold check_group. destruct (filter (sk t) ts) as [|h [|h2 l]] eqn:E; [now left|now left|].
      rewrite <- E. apply check_members_or.
      assert (Ih : In h (filter (sk t) ts)) by (rewrite E; now left). apply filter_In in Ih. destruct Ih as [Ih Kh].
      intros u Iu. apply filter_In in Iu. destruct Iu as [Iu Ku].
      replace (t_weight h) with (t_weight u); [now apply O|]. apply (sk_weight ts T u h Iu Ih).
      rewrite sk_sym. rewrite <- (sk_trans _ _ u Kh). exact Ku. }
    destruct K as [K|K]; rewrite K; [|reflexivity]. exfalso. apply N.
    rewrite <- W in Eb. rewrite <- W. apply (tied_agree call ts T (mem st) a b oa ob K Ia Ib); [|exact Ea|exact Eb].
    unfold sk. rewrite W. apply same_key_spec. auto.
  Qed.
End Reject.

(** ** Stubs *)

(** What stubbing may change in a module's children. *)
Definition crel (ok : nat -> Prop) (c c' : string * child) : Prop :=
  fst c = fst c' /\ (snd c' = snd c \/ exists q, ok q /\ snd c = CQuant q /\ snd c' = CStub q).

Lemma crel_refl ok l : Forall2 (crel ok) l l.
Proof. induction l; constructor; [split; auto|assumption]. Qed.

Lemma crel_trans ok l1 l2 l3 : Forall2 (crel ok) l1 l2 -> Forall2 (crel ok) l2 l3 -> Forall2 (crel ok) l1 l3.
Proof.
  intros F. revert l3. induction F as [|x y l1 l2 [E C] F IH]; intros l3 G; [inversion G; constructor|].
  inversion G as [|? z ? l3' [E' C'] G']; subst. constructor; [|now apply IH].
  split; [congruence|]. destruct C as [C|(q & K & C1 & C2)], C' as [C'|(q' & K' & C1' & C2')].
  - left. congruence.
  - right. exists q'. rewrite <- C. auto.
  - right. exists q. rewrite C'. auto.
  - rewrite C2 in C1'. discriminate.
Qed.

Lemma crel_mono (P R : nat -> Prop) l l' : (forall q, P q -> R q) -> Forall2 (crel P) l l' -> Forall2 (crel R) l l'.
Proof. intros H F. induction F as [|x y l l' [E C] F IH]; constructor; [|assumption]. split; [exact E|]. destruct C as [C|(q & K & C)]; [auto|]. right. exists q. auto. Qed.

Lemma stub_child_crel q l : Forall2 (crel (eq q)) l (stub_child q l).
Proof.
  induction l as [|[n c] l IH]; cbn [stub_child]; [constructor|].
  destruct c as [q'| |]; try (constructor; [split; auto|assumption]).
  destruct (Nat.eqb_spec q' q) as [->|N].
  - constructor; [|apply crel_refl]. split; [reflexivity|]. right. exists q. auto.
  - constructor; [split; auto|assumption].
Qed.

Lemma nth_error_indexed {A} (l : list A) s i : nth_error (combine (seq s (length l)) l) i = option_map (fun x => (s + i, x)) (nth_error l i).
Proof.
  revert s i. induction l as [|a l IH]; intros s i; cbn [length seq combine].
  - now destruct i.
  - destruct i; cbn [nth_error option_map]; [now rewrite Nat.add_0_r|]. rewrite IH. destruct (nth_error l i); cbn; [|reflexivity].
    do 2 f_equal. lia.
Qed.

Lemma stub_target_nth ms p q i :
  nth_error (stub_target ms p q) i =
  option_map (fun m => if i =? p then mkMod (weight m) (stub_child q (children m)) else m) (nth_error ms i).
Proof.
  unfold stub_target. rewrite nth_error_map, nth_error_indexed. destruct (nth_error ms i); reflexivity.
Qed.

Lemma fuse_all_mods call stub ts : forall st st', fuse_all call stub st ts = Ok st' ->
  forall i m, nth_error (mods st) i = Some m ->
    exists m', nth_error (mods st') i = Some m' /\ weight m' = weight m /\
      Forall2 (crel (fun q => stub = true /\ exists t, In t ts /\ t_mod t = i /\ t_quant t = q)) (children m) (children m').
Proof.
  induction ts as [|t ts IH]; intros st st' H i m Hm; cbn [fuse_all] in H.
  - injection H as <-. exists m. split; [assumption|]. split; [reflexivity|apply crel_refl].
  - unfold fuse_target in H. destruct (call (t_quant t) (read (mem st) (t_weight t))) as [o|] eqn:C; [|discriminate].
    cbn [rbind] in H.
    set (st1 := match o with Same => st | New v => mkState (write (mem st) (t_weight t) v)
              (if stub then stub_target (mods st) (t_mod t) (t_quant t) else mods st) end).
    assert (H1 : fuse_all call stub st1 ts = Ok st') by (unfold st1; destruct o; exact H). clear H.
    assert (K : exists m1, nth_error (mods st1) i = Some m1 /\ weight m1 = weight m /\
              Forall2 (crel (fun q => stub = true /\ t_mod t = i /\ t_quant t = q)) (children m) (children m1)).
    { assert (Same_case : exists m1, nth_error (mods st) i = Some m1 /\ weight m1 = weight m /\
              Forall2 (crel (fun q => stub = true /\ t_mod t = i /\ t_quant t = q)) (children m) (children m1))
        by (exists m; split; [assumption|]; split; [reflexivity|apply crel_refl]).
      unfold st1. destruct o as [|v]; [exact Same_case|]. cbn [mods]. destruct stub; [|exact Same_case].
      rewrite stub_target_nth, Hm. cbn [option_map]. destruct (Nat.eqb_spec i (t_mod t)) as [->|N].
      - eexists. split; [reflexivity|]. split; [reflexivity|]. cbn [children].
        eapply crel_mono; [|apply stub_child_crel]. intros q <-. auto.
      - exists m. split; [reflexivity|]. split; [reflexivity|apply crel_refl]. }
    destruct K as (m1 & Hm1 & W1 & C1). destruct (IH st1 st' H1 i m1 Hm1) as (m' & Hm' & W' & C').
    exists m'. split; [assumption|]. split; [congruence|].
    eapply crel_trans.
    + eapply crel_mono; [|exact C1]. intros q (A & B & D). split; [exact A|]. exists t. split; [now left|auto].
    + eapply crel_mono; [|exact C']. intros q (A & u & Iu & B). split; [exact A|]. exists u. split; [now right|assumption].
Qed.

Lemma find_crel ok name l l' : Forall2 (crel ok) l l' ->
  forall c, find (fun c => String.eqb (fst c) name) l = Some c ->
    exists c', find (fun c => String.eqb (fst c) name) l' = Some c' /\ crel ok c c'.
Proof.
  intros F. induction F as [|x y l l' R F IH]; intros c H; cbn [find] in *; [discriminate|].
  pose proof R as [E _]. rewrite <- E. destruct (String.eqb (fst x) name); [injection H as <-; eauto|now apply IH].
Qed.

Lemma find_named m name c : child_named m name c -> find (fun c => String.eqb (fst c) name) (children m) = Some (name, c).
Proof.
  intros (pre & post & E & N). rewrite E. clear E. induction pre as [|[n x] pre IH]; cbn [app find fst].
  - now rewrite String.eqb_refl.
  - destruct (String.eqb_spec n name) as [->|D]; [exfalso; apply N; now left|]. apply IH. intros I. apply N. now right.
Qed.

(** A module whose weight quantizer is a target computes with the same weight. *)
Lemma forward_same call ts stub st st' t m name :
  plain_ties ts -> (forall t, In t ts -> stable_on (vshape (t_weight t)) (call (t_quant t))) ->
  fuse_qdq_weights call stub st ts = Ok st' -> In t ts ->
  nth_error (mods st) (t_mod t) = Some m -> weight m = Some (t_weight t) -> child_named m name (CQuant (t_quant t)) ->
  exists m' v v', nth_error (mods st') (t_mod t) = Some m' /\
    forward_weight call st m name = Ok v /\ forward_weight call st' m' name = Ok v' /\ teq v v'.
Proof.
  intros T S H It Hm Wm Cm.
  destruct (fused call ts T S stub st st' t H It) as (o & o' & E & Tq & E' & Tq').
  pose proof (proj2 (fuse_ok call ts stub st st' H)) as Fa.
  destruct (fuse_all_mods call stub ts st st' Fa _ _ Hm) as (m' & Hm' & Wm' & Cr).
  exists m'. unfold forward_weight. rewrite Wm', Wm. apply find_named in Cm. rewrite Cm.
  destruct (find_crel _ _ _ _ Cr _ Cm) as ([n' c'] & F' & [En Rc]). rewrite F'. cbn [snd fst] in *.
  rewrite E. cbn [rmap].
  destruct Rc as [->|(q & _ & _ & ->)].
  - rewrite E'. cbn [rmap]. do 2 eexists. split; [exact Hm'|]. split; [reflexivity|]. split; [reflexivity|].
    apply teq_sym. eapply teq_trans; eassumption.
  - do 2 eexists. split; [exact Hm'|]. split; [reflexivity|]. split; [reflexivity|]. now apply teq_sym.
Qed.

(** A module that is no target and whose weight overlaps no fused weight is not affected. *)
Lemma forward_other call ts stub st st' i m w name :
  plain_ties ts -> (forall t, In t ts -> stable_on (vshape (t_weight t)) (call (t_quant t))) ->
  fuse_qdq_weights call stub st ts = Ok st' ->
  nth_error (mods st) i = Some m -> weight m = Some w ->
  (forall t, In t ts -> t_mod t <> i /\ disjoint (t_weight t) w) ->
  nth_error (mods st') i = Some m /\ forward_weight call st' m name = forward_weight call st m name.
Proof.
  intros T S H Hm Wm D.
  pose proof (proj2 (fuse_ok call ts stub st st' H)) as Fa.
  destruct (fuse_all_mods call stub ts st st' Fa _ _ Hm) as (m' & Hm' & Wm' & Cr).
  assert (E : m' = m).
  { destruct m as [wm cm], m' as [wm' cm']. cbn [weight children] in *. f_equal; [assumption|].
    clear - Cr D. induction Cr as [|[n x] [n' y] l l' [E C] F IH]; [reflexivity|]. cbn [fst snd] in *. subst n'. rewrite IH.
    destruct C as [->|(q & (_ & t & It & Et & _) & _)]; [reflexivity|]. exfalso. exact (proj1 (D t It) Et). }
  subst m'. split; [exact Hm'|]. unfold forward_weight. rewrite Wm.
  assert (R : read (mem st') w = read (mem st) w).
  { apply read_ext. intros a Ha. apply (fuse_frame call ts T S stub st st' a H). intros t It Ia. exact (proj2 (D t It) a Ia Ha). }
  now rewrite R.
Qed.

(** ** Stubbing *)

Definition count_quant (q : nat) (cs : list (string * child)) : nat :=
  length (filter (fun c => match snd c with CQuant q' => q' =? q | _ => false end) cs).

Lemma stub_child_count q cs : count_quant q (stub_child q cs) = count_quant q cs - 1.
Proof.
  unfold count_quant. induction cs as [|[n c] cs IH]; cbn [stub_child filter snd]; [reflexivity|].
  destruct c as [q'| |]; try exact IH.
  destruct (Nat.eqb_spec q' q) as [->|N].
  - cbn [filter snd length]. lia.
  - cbn [filter snd]. rewrite (proj2 (Nat.eqb_neq q' q) N). exact IH.
Qed.

Lemma crel_count ok q l l' : Forall2 (crel ok) l l' -> count_quant q l' <= count_quant q l.
Proof.
  unfold count_quant. intros F. induction F as [|[n x] [n' y] l l' [E C] F IH]; [cbn; lia|]. cbn [filter snd] in *.
  destruct C as [->|(q0 & _ & -> & ->)].
  - destruct (match x with CQuant q' => q' =? q | _ => false end); cbn [length]; lia.
  - destruct (q0 =? q); cbn [length]; lia.
Qed.

Lemma count_zero q cs : count_quant q cs = 0 <-> forall n, ~ In (n, CQuant q) cs.
Proof.
  unfold count_quant. induction cs as [|[n c] cs IH]; cbn [filter snd length].
  - split; [intros _ n []|reflexivity].
  - destruct c as [q'| |].
    + destruct (Nat.eqb_spec q' q) as [->|N]; cbn [length].
      * split; [discriminate|]. intros H. exfalso. apply (H n). now left.
      * rewrite IH. split; intros H n' ; [intros [X|X]; [congruence|now apply (H n')]|intros X; apply (H n'); now right].
    + rewrite IH. split; intros H n'; [intros [X|X]; [congruence|now apply (H n')]|intros X; apply (H n'); now right].
    + rewrite IH. split; intros H n'; [intros [X|X]; [congruence|now apply (H n')]|intros X; apply (H n'); now right].
Qed.

(** A fused quantizer registered once in its module is gone afterwards. *)
Lemma stubbed call ts st st' t m :
  plain_ties ts -> (forall t, In t ts -> stable_on (vshape (t_weight t)) (call (t_quant t))) ->
  fuse_qdq_weights call true st ts = Ok st' -> In t ts ->
  call (t_quant t) (read (mem st) (t_weight t)) <> Ok Same ->
  nth_error (mods st) (t_mod t) = Some m -> count_quant (t_quant t) (children m) <= 1 ->
  exists m', nth_error (mods st') (t_mod t) = Some m' /\ weight m' = weight m /\
    map fst (children m') = map fst (children m) /\
    (forall n, ~ In (n, CQuant (t_quant t)) (children m')) /\
    (forall n, In (n, CQuant (t_quant t)) (children m) -> In (n, CStub (t_quant t)) (children m')).
Proof.
  intros T S H It Ns Hm Cm. destruct (fuse_ok call ts true st st' H) as [Ck Fa].
  destruct (fuse_all_mods call true ts st st' Fa _ _ Hm) as (m' & Hm' & Wm' & Cr).
  assert (Z : count_quant (t_quant t) (children m') = 0).
  { destruct (in_split t ts It) as (pre & post & Ets).
    assert (Gen : forall l done s s', ts = done ++ l ++ t :: post -> inv call (mem st) done (mem s) ->
              fuse_all call true s (l ++ t :: post) = Ok s' ->
              forall x x', nth_error (mods s) (t_mod t) = Some x -> nth_error (mods s') (t_mod t) = Some x' ->
              count_quant (t_quant t) (children x) <= 1 -> count_quant (t_quant t) (children x') = 0).
    { induction l as [|u l IH]; intros done s s' E I Hf x x' Hx Hx' Cx; cbn [app] in *; cbn [fuse_all] in Hf; unfold fuse_target in Hf.
      - destruct (call (t_quant t) (read (mem s) (t_weight t))) as [o|] eqn:C; [|discriminate]. cbn [rbind] in Hf.
        destruct o as [|v].
        + exfalso. apply Ns.
          pose proof (step_inv call ts T S (mem st) Ck done t post (mem s) Same E I C) as [_ V].
          destruct (V t) as (o & Eo & To); [apply in_or_app; right; now left|].
          destruct (step_call call ts T S (mem st) (mem s) t o It Eo To) as (o' & E' & _ & Q & _).
          rewrite C in E'. injection E' as <-. rewrite Eo. f_equal. now apply Q.
        + cbn [rbind] in Hf.
          assert (Hx1 : nth_error (stub_target (mods s) (t_mod t) (t_quant t)) (t_mod t) =
                    Some (mkMod (weight x) (stub_child (t_quant t) (children x)))).
          { rewrite stub_target_nth, Hx. cbn [option_map]. now rewrite Nat.eqb_refl. }
          destruct (fuse_all_mods call true post _ _ Hf _ _ Hx1) as (x2 & Hx2 & _ & Cr2).
          rewrite Hx' in Hx2. injection Hx2 as <-. apply (crel_count _ (t_quant t)) in Cr2. cbn [children] in Cr2.
          rewrite stub_child_count in Cr2. lia.
      - destruct (call (t_quant u) (read (mem s) (t_weight u))) as [o|] eqn:C; [|discriminate]. cbn [rbind] in Hf.
        pose proof (step_inv call ts T S (mem st) Ck done u (l ++ t :: post) (mem s) o E I C) as I'.
        assert (E' : ts = (done ++ [u]) ++ l ++ t :: post) by (rewrite <- app_assoc; exact E).
        destruct o as [|v]; cbn [rbind] in Hf.
        + exact (IH _ s s' E' I' Hf x x' Hx Hx' Cx).
        + set (s1 := mkState (write (mem s) (t_weight u) v) (stub_target (mods s) (t_mod u) (t_quant u))) in *.
          assert (Hx1 : nth_error (mods s1) (t_mod t) =
                    Some (if t_mod t =? t_mod u then mkMod (weight x) (stub_child (t_quant u) (children x)) else x)).
          { unfold s1. cbn [mods]. rewrite stub_target_nth, Hx. reflexivity. }
          eapply (IH _ s1 s' E' I' Hf); [exact Hx1|exact Hx'|].
          destruct (_ =? _); [|exact Cx]. cbn [children].
          pose proof (crel_count _ (t_quant t) _ _ (stub_child_crel (t_quant u) (children x))). lia. }
    rewrite Ets in Fa. apply (Gen pre [] st st' Ets (inv_start call (mem st)) Fa m m' Hm Hm' Cm). }
  exists m'. split; [exact Hm'|]. split; [exact Wm'|]. split.
  { clear - Cr. induction Cr as [|x y l l' [E C] F IH]; [reflexivity|]. cbn [map]. congruence. }
  split; [now apply count_zero|].
  intros n I.
  pose proof (proj1 (count_zero _ _) Z) as Zn. clear - Cr I Zn.
  induction Cr as [|[nx x] [ny y] l l' [E C] F IH]; [destruct I|]. cbn [fst snd] in *. subst ny.
  destruct I as [X|I].
  - injection X as -> ->. destruct C as [->|(q & _ & Eq & ->)]; [exfalso; apply (Zn n); now left|]. injection Eq as <-. now left.
  - right. apply IH; [exact I|]. intros n' X. apply (Zn n'). now right.
Qed.

Lemma count_once q cs : NoDup (map fst cs) ->
  (forall n n', In (n, CQuant q) cs -> In (n', CQuant q) cs -> n = n') -> count_quant q cs <= 1.
Proof.
  intros N U. unfold count_quant.
  assert (N' : NoDup (map fst (filter (fun c => match snd c with CQuant q' => q' =? q | _ => false end) cs))).
  { clear U. induction cs as [|[n c] cs IH]; cbn; [constructor|]. inversion N as [|? ? A B]; subst.
    destruct (match c with CQuant q' => q' =? q | _ => false end); [|now apply IH]. cbn. constructor; [|now apply IH].
    intros I. apply A. apply in_map_iff in I. destruct I as (x & E & I). apply filter_In in I. apply in_map_iff. exists x. tauto. }
  assert (U' : forall c c', In c (filter (fun c => match snd c with CQuant q' => q' =? q | _ => false end) cs) ->
                In c' (filter (fun c => match snd c with CQuant q' => q' =? q | _ => false end) cs) -> fst c = fst c').
  { intros [n c] [n' c'] I I'. apply filter_In in I. apply filter_In in I'. cbn [snd fst] in *.
    destruct I as [I E], I' as [I' E']. destruct c as [q1| |]; try discriminate. destruct c' as [q2| |]; try discriminate.
    apply Nat.eqb_eq in E, E'. subst. eapply U; eassumption. }
  destruct (filter _ cs) as [|x [|y l]]; cbn [length]; [lia|lia|]. exfalso.
  cbn [map] in N'. inversion N' as [|? ? A _]. apply A. left. apply U'; [right; left; reflexivity|left; reflexivity].
Qed.

Lemma stubbed_once call ts st st' t m :
  plain_ties ts -> (forall t, In t ts -> stable_on (vshape (t_weight t)) (call (t_quant t))) ->
  fuse_qdq_weights call true st ts = Ok st' -> In t ts ->
  call (t_quant t) (read (mem st) (t_weight t)) <> Ok Same ->
  nth_error (mods st) (t_mod t) = Some m -> NoDup (map fst (children m)) ->
  (forall n n', In (n, CQuant (t_quant t)) (children m) -> In (n', CQuant (t_quant t)) (children m) -> n = n') ->
  exists m', nth_error (mods st') (t_mod t) = Some m' /\ weight m' = weight m /\
    map fst (children m') = map fst (children m) /\
    (forall n, ~ In (n, CQuant (t_quant t)) (children m')) /\
    (forall n, In (n, CQuant (t_quant t)) (children m) -> In (n, CStub (t_quant t)) (children m')).
Proof. intros T S H It Ns Hm N U. apply (stubbed call ts st st' t m); auto. now apply count_once. Qed.

(** ** Linear quantizers *)

Lemma linear_fused d params stub st ts :
  plain_ties ts ->
  (forall t, In t ts -> fits (vshape (t_weight t)) (params (t_quant t)) /\ precise d (params (t_quant t))) ->
  (forall a b va vb, In a ts -> In b ts -> t_weight a = t_weight b ->
     affine_qdq d (params (t_quant a)) (read (mem st) (t_weight a)) = Ok va ->
     affine_qdq d (params (t_quant b)) (read (mem st) (t_weight b)) = Ok vb -> teq va vb) ->
  exists st', fuse_qdq_weights (fun q w => rmap New (affine_qdq d (params q) w)) stub st ts = Ok st' /\
    forall t, In t ts -> exists v,
      affine_qdq d (params (t_quant t)) (read (mem st) (t_weight t)) = Ok v /\
      teq (read (mem st') (t_weight t)) v /\
      affine_qdq d (params (t_quant t)) (read (mem st') (t_weight t)) = Ok v.
Proof.
  intros T P A. set (call := fun q w => rmap New (affine_qdq d (params q) w)).
  assert (S : forall t, In t ts -> stable_on (vshape (t_weight t)) (call (t_quant t))).
  { intros t It. destruct (P t It). now apply affine_stable. }
  assert (O : forall t, In t ts -> exists v, affine_qdq d (params (t_quant t)) (read (mem st) (t_weight t)) = Ok v /\
     shape v = vshape (t_weight t) /\ length (data v) = prod (vshape (t_weight t))).
  { intros t It. destruct (P t It) as [F _]. apply affine_qdq_total; [exact F|reflexivity|].
    cbn. rewrite map_length. apply (proj1 T t It). }
  destruct (fuse_total call ts T S stub st) as [st' H].
  - intros t It. destruct (O t It) as (v & E & _). unfold call. rewrite E. cbn. eauto.
  - intros a b oa ob Ia Ib W Ea Eb. unfold call in Ea, Eb.
    destruct (O a Ia) as (va & Va & _). destruct (O b Ib) as (vb & Vb & _). rewrite Va in Ea. rewrite Vb in Eb. cbn in Ea, Eb.
    injection Ea as <-. injection Eb as <-. cbn [value]. apply (A a b); assumption.
  - exists st'. split; [exact H|]. intros t It. destruct (O t It) as (v & E & Sv & Lv). exists v. split; [exact E|].
    destruct (fused call ts T S stub st st' t H It) as (o & o' & Eo & To & _ & _).
    unfold call in Eo. rewrite E in Eo. cbn in Eo. injection Eo as <-. cbn [value] in To. split; [exact To|].
    destruct (P t It) as [F Pr].
    rewrite <- (affine_qdq_proper d _ _ v _ F Sv Lv (teq_sym _ _ To)).
    apply (affine_qdq_idem d (vshape (t_weight t)) _ (read (mem st) (t_weight t)) v F Pr); [reflexivity| |exact E].
    cbn. rewrite map_length. apply (proj1 T t It).
Qed.

(** [stub_weight_quantizers] leaves all weights alone. *)
Lemma stub_only_mem st ts : mem (stub_weight_quantizers st ts) = mem st.
Proof. reflexivity. Qed.

Lemma stub_child_names q l : map fst (stub_child q l) = map fst l.
Proof.
  generalize (stub_child_crel q l). generalize (stub_child q l). induction l as [|x l IH]; intros l' F; inversion F as [|? y ? l2 [E _] F2]; subst;
  [reflexivity|]. cbn [map]. rewrite (IH _ F2). congruence.
Qed.

Lemma stub_only_weights st ts i m : nth_error (mods st) i = Some m ->
  exists m', nth_error (mods (stub_weight_quantizers st ts)) i = Some m' /\ weight m' = weight m /\
    map fst (children m') = map fst (children m).
Proof.
  unfold stub_weight_quantizers. cbn [mods]. generalize (mods st). clear st. revert m.
  induction ts as [|t ts IH]; intros m ms H; cbn [fold_left]; [eauto|].
  assert (H1 : nth_error (stub_target ms (t_mod t) (t_quant t)) i =
      Some (if i =? t_mod t then mkMod (weight m) (stub_child (t_quant t) (children m)) else m))
    by (rewrite stub_target_nth, H; reflexivity).
  destruct (IH _ _ H1) as (m' & A & B & C). exists m'. split; [exact A|].
  destruct (i =? t_mod t); [|auto]. cbn [weight children] in *. split; [exact B|]. now rewrite C, stub_child_names.
Qed.

Lemma stub_fold_crel ts ms i m : nth_error ms i = Some m ->
  exists m', nth_error (fold_left (fun ms t => stub_target ms (t_mod t) (t_quant t)) ts ms) i = Some m' /\
    Forall2 (crel (fun _ => True)) (children m) (children m').
Proof.
  revert ms m. induction ts as [|t ts IH]; intros ms m H; cbn [fold_left]; [exists m; split; [exact H|apply crel_refl]|].
  assert (H1 : nth_error (stub_target ms (t_mod t) (t_quant t)) i =
      Some (if i =? t_mod t then mkMod (weight m) (stub_child (t_quant t) (children m)) else m))
    by (rewrite stub_target_nth, H; reflexivity).
  destruct (IH _ _ H1) as (m' & A & C). exists m'. split; [exact A|].
  destruct (i =? t_mod t); [|exact C]. cbn [children] in C. eapply crel_trans; [|exact C].
  eapply crel_mono; [|apply stub_child_crel]. trivial.
Qed.

Lemma stub_only_stubs st ts t m : In t ts -> nth_error (mods st) (t_mod t) = Some m -> NoDup (map fst (children m)) ->
  (forall n n', In (n, CQuant (t_quant t)) (children m) -> In (n', CQuant (t_quant t)) (children m) -> n = n') ->
  exists m', nth_error (mods (stub_weight_quantizers st ts)) (t_mod t) = Some m' /\
    (forall n, ~ In (n, CQuant (t_quant t)) (children m')) /\
    (forall n, In (n, CQuant (t_quant t)) (children m) -> In (n, CStub (t_quant t)) (children m')).
Proof.
  intros It Hm N U. unfold stub_weight_quantizers. cbn [mods].
  pose proof (count_once _ _ N U) as Cm. clear N U.
  destruct (in_split t ts It) as (pre & post & ->). clear It. rewrite fold_left_app. cbn [fold_left].
  destruct (stub_fold_crel pre _ _ _ Hm) as (m1 & H1 & C1).
  set (ms1 := fold_left _ pre (mods st)) in *.
  assert (H2 : nth_error (stub_target ms1 (t_mod t) (t_quant t)) (t_mod t) =
      Some (mkMod (weight m1) (stub_child (t_quant t) (children m1)))) by (rewrite stub_target_nth, H1; cbn; now rewrite Nat.eqb_refl).
  destruct (stub_fold_crel post _ _ _ H2) as (m' & H3 & C3). exists m'. split; [exact H3|].
  cbn [children] in C3.
  assert (Z : count_quant (t_quant t) (children m') = 0).
  { apply (crel_count _ (t_quant t)) in C1. apply (crel_count _ (t_quant t)) in C3. rewrite stub_child_count in C3. lia. }
  split; [now apply count_zero|].
  assert (Cr : Forall2 (crel (fun _ => True)) (children m) (children m')).
  { eapply crel_trans; [exact C1|]. eapply crel_trans; [|exact C3]. eapply crel_mono; [|apply stub_child_crel]. trivial. }
  intros n I. pose proof (proj1 (count_zero _ _) Z) as Zn. clear - Cr I Zn.
  induction Cr as [|[nx x] [ny y] l l' [E C] F IH]; [destruct I|]. cbn [fst snd] in *. subst ny.
  destruct I as [X|I].
  - injection X as -> ->. destruct C as [->|(q & _ & Eq & ->)]; [exfalso; apply (Zn n); now left|]. injection Eq as <-. now left.
  - right. apply IH; [exact I|]. intros n' X. apply (Zn n'). now right.
Qed.

Lemma convention_spec ms found p w q : In (mkTarget p w q) (convention ms found) <->
  In (p, CQuant q) found /\ exists m, nth_error ms p = Some m /\ weight m = Some w.
Proof.
  unfold convention. rewrite in_flat_map. split.
  - intros ([p' c] & I & H). destruct c as [q'| |]; try contradiction. destruct (nth_error ms p') as [m|] eqn:E; [|contradiction].
    destruct (weight m) as [w'|] eqn:W; [|contradiction]. destruct H as [H|[]]. injection H as <- <- <-. eauto.
  - intros (I & m & E & W). exists (p, CQuant q). split; [exact I|]. rewrite E, W. now left.
Qed.

Lemma fuse_keeps_mods call ts st st' : fuse_qdq_weights call false st ts = Ok st' -> mods st' = mods st.
Proof.
  intros H. destruct (fuse_ok call ts false st st' H) as [_ Fa]. clear H. revert st Fa.
  induction ts as [|t ts IH]; intros st Fa; cbn [fuse_all] in Fa; [now injection Fa as <-|].
  unfold fuse_target in Fa. destruct (call (t_quant t) _) as [[|v]|]; cbn [rbind] in Fa; try discriminate;
  apply IH in Fa; exact Fa.
Qed.

Lemma disabled_untouched call ts stub st st' i :
  plain_ties ts -> (forall t, In t ts -> stable_on (vshape (t_weight t)) (call (t_quant t))) ->
  fuse_qdq_weights call stub st ts = Ok st' ->
  (forall t, In t ts -> t_mod t = i -> call (t_quant t) (read (mem st) (t_weight t)) = Ok Same) ->
  nth_error (mods st') i = nth_error (mods st) i.
Proof.
  intros T S H D. destruct (fuse_ok call ts stub st st' H) as [Ck Fa].
  assert (Gen : forall l done s, ts = done ++ l -> inv call (mem st) done (mem s) ->
            fuse_all call stub s l = Ok st' -> nth_error (mods st') i = nth_error (mods s) i).
  { induction l as [|u l IH]; intros done s E I Hf; cbn [fuse_all] in Hf; [now injection Hf as <-|].
    unfold fuse_target in Hf.
    destruct (call (t_quant u) (read (mem s) (t_weight u))) as [o|] eqn:C; [|discriminate]. cbn [rbind] in Hf.
    pose proof (step_inv call ts T S (mem st) Ck done u l (mem s) o E I C) as I'.
    assert (E' : ts = (done ++ [u]) ++ l) by (rewrite <- app_assoc; exact E).
    assert (Iu : In u ts) by (rewrite E; apply in_or_app; right; now left).
    destruct o as [|v]; cbn [rbind] in Hf.
    - exact (IH _ s E' I' Hf).
    - rewrite (IH (done ++ [u]) (mkState (write (mem s) (t_weight u) v) (if stub then stub_target (mods s) (t_mod u) (t_quant u) else mods s)) E' I' Hf).
      cbn [mods]. destruct stub; [|reflexivity]. rewrite stub_target_nth.
      destruct (Nat.eqb_spec i (t_mod u)) as [->|N]; [|now destruct (nth_error (mods s) i)]. exfalso.
      destruct (step_before call ts T (mem st) Ck done u l (mem s) (New v) E I C) as (o & Eo & K).
      rewrite (D u Iu eq_refl) in Eo. injection Eo as <-. destruct K as [K|K].
      + rewrite K, (D u Iu eq_refl) in C. discriminate.
      + destruct (step_call call ts T S (mem st) (mem s) u Same Iu (D u Iu eq_refl) K) as (o' & E1 & _ & Q & _).
        rewrite C in E1. injection E1 as <-. discriminate (proj2 Q eq_refl). }
  exact (Gen ts [] st eq_refl (inv_start call (mem st)) Fa).
Qed.
