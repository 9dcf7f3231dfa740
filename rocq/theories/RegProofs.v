(** Proofs about the algorithm registry and flow declarations. *)
From Coq Require Import String.
From Verif Require Import Prelude RegModel RegSpec.
From Coq Require Import Permutation.
Local Open Scope nat_scope.
Local Open Scope list_scope.

(** ** Dictionaries *)
Lemma lookup_assign r k s k' : lookup (assign r k s) k' = if k =? k' then Some s else lookup r k'.
Proof.
  induction r as [|[k0 s0] r IH]; cbn [assign lookup]; [reflexivity|].
  destruct (Nat.eqb_spec k0 k) as [->|N].
  - cbn [lookup]. destruct (Nat.eqb_spec k k'); reflexivity.
  - cbn [lookup]. rewrite IH. destruct (Nat.eqb_spec k0 k'), (Nat.eqb_spec k k'); congruence.
Qed.

Lemma nin_In x l : nin x l = true <-> In x l.
Proof. unfold nin. rewrite existsb_exists. split; [intros (y & I & E); apply Nat.eqb_eq in E; now subst|intros I; exists x; split; [exact I|apply Nat.eqb_refl]]. Qed.

(** ** Override *)
Section Order.
  Variable order : list nat -> list nat.

  Lemma enter_ok r a t r1 saved : enter r a t = Ok (r1, saved) ->
    exists prev s, lookup r (algorithm_key a) = Some prev /\ normalize t = Ok s /\ saved = (algorithm_key a, prev) /\
      r1 = assign r (algorithm_key a) (mkSpec a s (sp_flows prev)).
  Proof.
    unfold enter, register. destruct (lookup r (algorithm_key a)) as [prev|] eqn:E; [|discriminate].
    destruct (normalize t) as [s|] eqn:N; [|discriminate]. cbn [rbind]. intros H. injection H as <- <-. exists prev, s. repeat split.
  Qed.

  Lemma exec_lookup p : forall r k, ~ rebinds k p -> lookup (fst (fst (exec order p r))) k = lookup r k.
  Proof.
    induction p as [|p IHp q IHq|a t f|a t body IH|a m|body IH|]; intros r k N; cbn [exec].
    - reflexivity.
    - assert (Np : ~ rebinds k p) by (intros X; apply N; now constructor).
      assert (Nq : ~ rebinds k q) by (intros X; apply N; now apply rb_second).
      specialize (IHp r k Np). destruct (exec order p r) as [[r1 o1] [e|]]; cbn [fst] in *; [exact IHp|].
      specialize (IHq r1 k Nq). destruct (exec order q r1) as [[r2 o2] e]. cbn [fst] in *. congruence.
    - unfold register. destruct (normalize t) as [s|]; cbn [rbind fst]; [|reflexivity]. rewrite lookup_assign.
      destruct (Nat.eqb_spec (algorithm_key a) k) as [E|]; [|reflexivity]. exfalso. apply N. now constructor.
    - destruct t as [t|].
      + destruct (enter r a t) as [[r1 saved]|] eqn:E; [|reflexivity]. apply enter_ok in E. destruct E as (prev & s & L & _ & -> & ->).
        destruct (exec order body _) as [[r2 o] e] eqn:B. cbn [fst]. unfold leave. cbn [fst snd]. rewrite lookup_assign.
        destruct (Nat.eqb_spec (algorithm_key a) k) as [<-|D]; [now rewrite L|].
        specialize (IH (assign r (algorithm_key a) (mkSpec a s (sp_flows prev))) k). rewrite B in IH. cbn [fst] in IH. rewrite IH.
        * rewrite lookup_assign. destruct (Nat.eqb_spec (algorithm_key a) k); [contradiction|reflexivity].
        * intros X. apply N. now constructor.
      + apply IH. intros X. apply N. now constructor.
    - destruct (resolve order r m (Some a) None); reflexivity.
    - assert (Nb : ~ rebinds k body) by (intros X; apply N; now constructor). specialize (IH r k Nb).
      destruct (exec order body r) as [[r' o] e]. exact IH.
    - reflexivity.
  Qed.

  (** Resolution depends on the entry of the algorithm only. *)
  Lemma resolve_lookup r r' m a : lookup r (algorithm_key a) = lookup r' (algorithm_key a) ->
    resolve order r m (Some a) None = resolve order r' m (Some a) None.
  Proof. intros E. unfold resolve. now rewrite E. Qed.

  Lemma override_inside r a t prev s p : lookup r (algorithm_key a) = Some prev -> normalize t = Ok s ->
    exists r1, lookup r1 (algorithm_key a) = Some (mkSpec a s (sp_flows prev)) /\
      (forall k, k <> algorithm_key a -> lookup r1 k = lookup r k) /\
      snd (fst (exec order (POverride a (Some t) p) r)) = snd (fst (exec order p r1)) /\
      snd (exec order (POverride a (Some t) p) r) = snd (exec order p r1) /\
      forall k, k <> algorithm_key a ->
        lookup (fst (fst (exec order (POverride a (Some t) p) r))) k = lookup (fst (fst (exec order p r1))) k.
  Proof.
    intros L N. exists (assign r (algorithm_key a) (mkSpec a s (sp_flows prev))). rewrite lookup_assign, Nat.eqb_refl. split; [reflexivity|].
    split. { intros k D. rewrite lookup_assign. destruct (Nat.eqb_spec (algorithm_key a) k); [congruence|reflexivity]. }
    cbn [exec]. unfold enter. rewrite L. unfold register. rewrite N. cbn [rbind].
    destruct (exec order p _) as [[r2 o] e]. cbn [fst snd]. split; [reflexivity|]. split; [reflexivity|]. intros k D. unfold leave. cbn [fst snd].
    rewrite lookup_assign. destruct (Nat.eqb_spec (algorithm_key a) k); [congruence|reflexivity].
  Qed.

  Lemma override_unregistered r a t p : lookup r (algorithm_key a) = None ->
    exec order (POverride a (Some t) p) r = (r, [], Some ValueError).
  Proof. intros L. cbn [exec]. unfold enter. now rewrite L. Qed.

  (** ** Normalisation *)
  Section TargetInd.
    Variable P : target -> Prop.
    Hypothesis Hs : forall s, P (TSelector s).
    Hypothesis Ht : forall t b, P (TType t b).
    Hypothesis Hq : forall q, P (TQuery q).
    Hypothesis Hm : forall m, P (TModule m).
    Hypothesis Hi : forall l, (forall t, In t l -> P t) -> P (TIter l).
    Hypothesis Hstr : P TString.
    Hypothesis Ho : P TOther.
    Fixpoint target_ind' (t : target) : P t :=
      match t with
      | TSelector s => Hs s | TType t b => Ht t b | TQuery q => Hq q | TModule m => Hm m
      | TIter l => Hi l ((fix go (l : list target) : forall t, In t l -> P t :=
          match l with
          | [] => fun t (H : In t []) => match H with end
          | x :: l' => fun t (H : In t (x :: l')) =>
              match H with
              | or_introl E => match E in _ = y return P y with eq_refl => target_ind' x end
              | or_intror H' => go l' t H'
              end
          end) l)
      | TString => Hstr | TOther => Ho
      end.
  End TargetInd.

  Section SelectorInd.
    Variable P : selector -> Prop.
    Hypothesis Ht : forall ts, P (STypes ts).
    Hypothesis Hm : forall ms, P (SModules ms).
    Hypothesis Hq : forall q, P (SQuery q).
    Hypothesis Hc : forall l, (forall s, In s l -> P s) -> P (SComposite l).
    Hypothesis Hk : forall k, P (SCustom k).
    Fixpoint selector_ind' (s : selector) : P s :=
      match s with
      | STypes ts => Ht ts | SModules ms => Hm ms | SQuery q => Hq q | SCustom k => Hk k
      | SComposite l => Hc l ((fix go (l : list selector) : forall t, In t l -> P t :=
          match l with
          | [] => fun t (H : In t []) => match H with end
          | x :: l' => fun t (H : In t (x :: l')) =>
              match H with
              | or_introl E => match E in _ = y return P y with eq_refl => selector_ind' x end
              | or_intror H' => go l' t H'
              end
          end) l)
      end.
  End SelectorInd.

  Lemma rseq_ok {A B} (f : A -> result B) l bs : rseq (map f l) = Ok bs -> Forall2 (fun a b => f a = Ok b) l bs.
  Proof.
    revert bs. induction l as [|a l IH]; intros bs H; cbn [map rseq] in H; [injection H as <-; constructor|].
    destruct (f a) as [b|] eqn:E; [|discriminate]. cbn [rbind] in H. destruct (rseq (map f l)) as [bs'|]; [|discriminate].
    injection H as <-. constructor; [exact E|now apply IH].
  Qed.

  Lemma rseq_total {A B} (f : A -> result B) l : (forall a, In a l -> exists b, f a = Ok b) -> exists bs, rseq (map f l) = Ok bs.
  Proof.
    induction l as [|a l IH]; intros H; [exists []; reflexivity|]. destruct (H a (or_introl eq_refl)) as [b E].
    destruct IH as [bs E']. { intros x I. apply H. now right. } exists (b :: bs). cbn [map rseq]. now rewrite E, E'.
  Qed.

  Lemma rseq_err {A B} (f : A -> result B) l e : rseq (map f l) = Err e -> exists a, In a l /\ f a = Err e.
  Proof.
    induction l as [|a l IH]; intros H; [discriminate|]. cbn [map rseq] in H. destruct (f a) as [b|e'] eqn:E.
    - cbn [rbind] in H. destruct (rseq (map f l)); [discriminate|]. injection H as <-. destruct (IH eq_refl) as (x & I & X). exists x. split; [now right|exact X].
    - injection H as <-. exists a. split; [now left|exact E].
  Qed.

  Lemma Forall2_In_l {A B} (R : A -> B -> Prop) l l' a : Forall2 R l l' -> In a l -> exists b, In b l' /\ R a b.
  Proof. induction 1 as [|x y l l' H _ IH]; intros []; [subst; exists y; split; [now left|exact H]|destruct (IH H0) as (b & I & X); exists b; split; [now right|exact X]]. Qed.
  Lemma Forall2_In_r {A B} (R : A -> B -> Prop) l l' b : Forall2 R l l' -> In b l' -> exists a, In a l /\ R a b.
  Proof. induction 1 as [|x y l l' H _ IH]; intros []; [subst; exists x; split; [now left|exact H]|destruct (IH H0) as (a & I & X); exists a; split; [now right|exact X]]. Qed.

  Lemma normalize_iter l s : normalize (TIter l) = Ok s -> l <> [] /\
    ((exists ts, Forall2 (fun t i => t = TType i true) l ts /\ s = STypes ts) \/
     (exists ss, Forall2 (fun t s => normalize t = Ok s) l ss /\ s = SComposite ss)).
  Proof.
    cbn [normalize]. destruct l as [|x l]; [discriminate|]. intros H. split; [discriminate|].
    destruct (rseq (map _ (x :: l))) as [ts|] eqn:E in H.
    - left. exists ts. injection H as <-. split; [|reflexivity]. apply rseq_ok in E.
      clear -E. revert E. generalize (x :: l). intros l0 E. induction E as [|t i l1 l2 H _ IH]; constructor; [|exact IH]. destruct t as [|? []| | | | |]; congruence.
    - right. destruct (rseq (map normalize (x :: l))) as [ss|] eqn:E'; [|discriminate]. injection H as <-. exists ss. split; [|reflexivity].
      now apply rseq_ok.
  Qed.

  Lemma normalize_types ts : ts <> [] -> normalize (TIter (map (fun t => TType t true) ts)) = Ok (STypes ts).
  Proof.
    intros N. cbn [normalize]. destruct ts as [|t ts]; [congruence|]. clear N. cbn [map].
    set (f := fun t => match t with TType i true => Ok i | _ => Err TypeError end).
    assert (E : forall ts, rseq (map f (map (fun t => TType t true) ts)) = Ok ts).
    { intros l. induction l as [|i l IH]; [reflexivity|]. cbn [map rseq]. rewrite IH. reflexivity. }
    cbn [rseq]. rewrite (E ts). reflexivity.
  Qed.

  Lemma normalize_valid t : (exists s, normalize t = Ok s) <-> valid t.
  Proof.
    induction t as [s|i b|q|m|l IH| |] using target_ind'.
    - split; [constructor|]. intros _. eexists. reflexivity.
    - destruct b; split; [constructor| |intros [s H]; discriminate|inversion 1]. intros _. eexists. reflexivity.
    - split; [constructor|]. intros _. eexists. reflexivity.
    - split; [constructor|]. intros _. eexists. reflexivity.
    - split.
      + intros [s H]. apply normalize_iter in H. destruct H as [N [(ts & F & _)|(ss & F & _)]]; constructor; try exact N; intros t I; apply IH; try exact I.
        * destruct (Forall2_In_l _ _ _ _ F I) as (i & _ & ->). eexists. reflexivity.
        * destruct (Forall2_In_l _ _ _ _ F I) as (s' & _ & X). eexists. exact X.
      + intros V. inversion V as [| | | |? N A]; subst. cbn [normalize]. destruct l as [|x l]; [congruence|].
        destruct (rseq (map _ (x :: l))) as [ts|]; [eexists; reflexivity|].
        destruct (rseq_total normalize (x :: l)) as [ss ->]. { intros t I. now apply IH, A. } eexists. reflexivity.
    - split; [intros [s H]; discriminate|inversion 1].
    - split; [intros [s H]; discriminate|inversion 1].
  Qed.

  Lemma normalize_error t e : normalize t = Err e -> e = TypeError.
  Proof.
    induction t as [s|i b|q|m|l IH| |] using target_ind'; cbn [normalize]; try discriminate; try congruence.
    - destruct b; congruence.
    - destruct l as [|x l]; [congruence|]. destruct (rseq (map _ (x :: l))) as [ts|] in |- *; [discriminate|].
      destruct (rseq (map normalize (x :: l))) as [ss|e'] eqn:E; [discriminate|]. cbn [rbind]. intros H. injection H as <-.
      apply rseq_err in E. destruct E as (t & I & X). exact (IH t I X).
  Qed.

  (** ** Selection *)
  Lemma unique_spec l : forall seen x, In x (unique seen l) <-> In x l /\ ~ In x seen.
  Proof.
    induction l as [|y l IH]; intros seen x; cbn [unique]; [cbn; tauto|].
    destruct (nin y seen) eqn:E.
    - apply nin_In in E. rewrite IH. cbn. split; [tauto|]. intros [[->|I] N]; [contradiction|tauto].
    - assert (N : ~ In y seen) by (rewrite <- nin_In, E; discriminate). cbn. rewrite IH. cbn.
      destruct (Nat.eq_dec y x) as [->|D]; tauto.
  Qed.

  Lemma unique_nodup l : forall seen, NoDup (unique seen l).
  Proof.
    induction l as [|y l IH]; intros seen; cbn [unique]; [constructor|]. destruct (nin y seen); [apply IH|].
    constructor; [|apply IH]. rewrite unique_spec. cbn. tauto.
  Qed.

  Hypothesis order_perm : forall l, Permutation (order l) l.

  Lemma select_spec s m : forall l, select order s m = Ok l -> forall x, In x l <-> selects m s x.
  Proof.
    induction s as [ts|ms|q|ss IH|k] using selector_ind'; intros l H x; cbn [select] in H.
    - injection H as <-. rewrite filter_In, existsb_exists. split.
      + intros (I & t & It & E). econstructor; eassumption.
      + inversion 1; subst. split; [assumption|]. eexists. split; eassumption.
    - destruct (forallb _ ms); [|discriminate]. injection H as <-. split.
      + intros I. constructor. exact (Permutation_in _ (order_perm ms) I).
      + inversion 1; subst. apply (Permutation_in _ (Permutation_sym (order_perm ms))). assumption.
    - split; [intros I; econstructor; eassumption|]. inversion 1; subst. congruence.
    - destruct (rseq _) as [ls|] eqn:E; [|discriminate]. cbn [rbind] in H. injection H as <-. apply rseq_ok in E.
      rewrite unique_spec. split.
      + intros [I _]. apply in_concat in I. destruct I as (l & Il & Ix). destruct (Forall2_In_r _ _ _ _ E Il) as (s & Is & X).
        apply (sel_part m ss s x Is). now apply (IH s Is l X x).
      + inversion 1 as [| | |? s ? Is Hs|]; subst. split; [|intros []]. apply in_concat. destruct (Forall2_In_l _ _ _ _ E Is) as (l & Il & X).
        exists l. split; [exact Il|]. now apply (IH s Is l X x).
    - split; [intros I; econstructor; eassumption|]. inversion 1; subst. congruence.
  Qed.

  Lemma normalize_selects t m : forall s, normalize t = Ok s -> forall x, selects m s x <-> matches m t x.
  Proof.
    induction t as [s0|i b|q|y|l IH| |] using target_ind'; intros s H x; try discriminate.
    - injection H as <-. split; [now constructor|]. now inversion 1.
    - destruct b; [|discriminate]. injection H as <-. split.
      + inversion 1 as [? ? ? It Im E| | | |]; subst. destruct It as [->|[]]. now constructor.
      + inversion 1; subst. econstructor; [now left|assumption|assumption].
    - injection H as <-. split; inversion 1; subst; econstructor; eassumption.
    - injection H as <-. split; [|inversion 1; subst; constructor; now left].
      inversion 1 as [|? ? I| | |]; subst. destruct I as [->|[]]. constructor.
    - apply normalize_iter in H. destruct H as [N [(ts & F & ->)|(ss & F & ->)]].
      + split.
        * inversion 1 as [? i ? It Im E| | | |]; subst. destruct (Forall2_In_r _ _ _ _ F It) as (t & Il & ->).
          econstructor; [exact Il|]. now constructor.
        * inversion 1 as [| | | |? t ? It M]; subst. destruct (Forall2_In_l _ _ _ _ F It) as (i & Il & ->). inversion M; subst.
          econstructor; eassumption.
      + split.
        * inversion 1 as [| | |? s ? Is S|]; subst. destruct (Forall2_In_r _ _ _ _ F Is) as (t & Il & X).
          econstructor; [exact Il|]. now apply (IH t Il s X).
        * inversion 1 as [| | | |? t ? It M]; subst. destruct (Forall2_In_l _ _ _ _ F It) as (s & Il & X).
          econstructor; [exact Il|]. now apply (IH t It s X).
  Qed.

  Lemma target_exact t s m l : normalize t = Ok s -> select order s m = Ok l -> forall x, In x l <-> matches m t x.
  Proof. intros N S x. rewrite (select_spec s m l S x). now apply normalize_selects. Qed.

  Lemma target_once t s m l : normalize t = Ok s -> select order s m = Ok l -> NoDup (modules m) -> plain t ->
    (forall q l, queries t q -> search m q = Ok l -> NoDup l) -> NoDup l.
  Proof.
    intros N S Hm P Hq. destruct t as [s0|i b|q|y|ts| |]; try discriminate.
    - inversion P.
    - destruct b; [|discriminate]. injection N as <-. cbn [select] in S. injection S as <-. now apply NoDup_filter.
    - injection N as <-. cbn [select] in S. apply (Hq q l); [constructor|exact S].
    - injection N as <-. cbn [select] in S. destruct (forallb _ [y]); [|discriminate]. injection S as <-.
      apply (Permutation_NoDup (Permutation_sym (order_perm [y]))). constructor; [intros []|constructor].
    - apply normalize_iter in N. destruct N as [_ [(is & _ & ->)|(ss & _ & ->)]]; cbn [select] in S.
      + injection S as <-. now apply NoDup_filter.
      + destruct (rseq _); [|discriminate]. injection S as <-. apply unique_nodup.
  Qed.

  (** Selection of plain targets succeeds iff all named modules are there and the queries succeed. *)
  Lemma select_total t s m : normalize t = Ok s -> plain t -> (forall x, names t x -> In x (modules m)) ->
    (forall q, queries t q -> exists l, search m q = Ok l) -> exists l, select order s m = Ok l.
  Proof.
    revert s. induction t as [s0|i b|q|y|l IH| |] using target_ind'; intros s N P Hn Hq; try discriminate.
    - inversion P.
    - destruct b; [|discriminate]. injection N as <-. eexists. reflexivity.
    - injection N as <-. apply Hq. constructor.
    - injection N as <-. cbn [select forallb]. rewrite (proj2 (nin_In y (modules m))); [eexists; reflexivity|]. apply Hn. constructor.
    - apply normalize_iter in N. destruct N as [_ [(ts & _ & ->)|(ss & F & ->)]]; [eexists; reflexivity|].
      cbn [select]. destruct (rseq_total (fun s => select order s m) ss) as [ls ->]; [|eexists; reflexivity].
      intros s Is. destruct (Forall2_In_r _ _ _ _ F Is) as (t & It & X). inversion P as [| | |? A]; subst.
      apply (IH t It s X (A t It)).
      + intros x Nx. apply Hn. econstructor; eassumption.
      + intros q Q. apply Hq. econstructor; eassumption.
  Qed.

  Lemma select_missing t s m x : normalize t = Ok s -> names t x -> ~ In x (modules m) -> forall l, select order s m <> Ok l.
  Proof.
    revert s. induction t as [s0|i b|q|y|l IH| |] using target_ind'; intros s N Nx M r S; try (now inversion Nx).
    - inversion Nx; subst. injection N as <-. cbn [select forallb] in S. destruct (nin x (modules m)) eqn:E; [|discriminate].
      apply nin_In in E. contradiction.
    - inversion Nx as [|? t ? It Nt]; subst. apply normalize_iter in N. destruct N as [_ [(ts & F & ->)|(ss & F & ->)]].
      + destruct (Forall2_In_l _ _ _ _ F It) as (i & _ & ->). inversion Nt.
      + destruct (Forall2_In_l _ _ _ _ F It) as (s & Is & X). cbn [select] in S. destruct (rseq _) as [ls|] eqn:E; [|discriminate].
        apply rseq_ok in E. destruct (Forall2_In_l _ _ _ _ E Is) as (l' & _ & Y). exact (IH t It s X Nt M l' Y).
  Qed.

  (** ** Resolution *)
  Lemma resolve_one m s : resolve_specs order m [s] =
    match select order (sp_selector s) m with
    | Err e => Err e
    | Ok [] => Err NoTargetsFound
    | Ok l => Ok (map (fun x => mkSub x (sp_fn s) (sp_flows s) [None]) l)
    end.
  Proof.
    unfold resolve_specs. cbn [map rseq]. destruct (select order (sp_selector s) m) as [[|x l]|]; cbn [rbind concat]; try reflexivity.
    now rewrite app_nil_r.
  Qed.

  Lemma resolve_specs_spec m l subs : resolve_specs order m l = Ok subs ->
    subs <> [] /\ forall u, In u subs <-> exists s, In s l /\ selects m (sp_selector s) (su_region u) /\
      u = mkSub (su_region u) (sp_fn s) (sp_flows s) [None].
  Proof.
    unfold resolve_specs. destruct (rseq _) as [ls|] eqn:E; [|discriminate]. cbn [rbind]. intros H.
    assert (Hs : concat ls = subs /\ subs <> []). { destruct (concat ls); [discriminate|]. injection H as <-. split; [reflexivity|discriminate]. }
    destruct Hs as [Hs Hn]. split; [exact Hn|]. intros u. rewrite <- Hs. apply rseq_ok in E. rewrite in_concat. split.
    - intros (ul & Il & Iu). destruct (Forall2_In_r _ _ _ _ E Il) as (s & Is & X). destruct (select order (sp_selector s) m) as [rs|] eqn:S; [|discriminate].
      injection X as <-. apply in_map_iff in Iu. destruct Iu as (x & <- & Ix). exists s. split; [exact Is|]. cbn [su_region]. split; [|reflexivity].
      now apply (select_spec _ _ _ S).
    - intros (s & Is & Hx & ->). destruct (Forall2_In_l _ _ _ _ E Is) as (ul & Il & X). exists ul. split; [exact Il|].
      destruct (select order (sp_selector s) m) as [rs|] eqn:S; [|discriminate]. injection X as <-. cbn [su_region] in Hx.
      apply in_map_iff. exists (su_region u). split; [reflexivity|]. now apply (select_spec _ _ _ S).
  Qed.
End Order.

(** ** Flow generators *)
Lemma find_register g x k : find_gen (register_generator g x) k = if String.eqb (ge_key x) k then Some x else find_gen g k.
Proof.
  induction g as [|[k0 y] g IH]; cbn [register_generator find_gen]; [reflexivity|].
  destruct (String.eqb_spec k0 (ge_key x)) as [->|N]; cbn [find_gen].
  - destruct (String.eqb (ge_key x) k); reflexivity.
  - rewrite IH. destruct (String.eqb_spec k0 k), (String.eqb_spec (ge_key x) k); congruence.
Qed.

Lemma flow_run_app ops1 : forall ops2 g, flow_run (ops1 ++ ops2) g =
  (fst (flow_run ops1 g) ++ fst (flow_run ops2 (snd (flow_run ops1 g))), snd (flow_run ops2 (snd (flow_run ops1 g)))).
Proof.
  induction ops1 as [|[d|x] ops1 IH]; intros ops2 g; cbn [app flow_run].
  - cbn. now destruct (flow_run ops2 g).
  - destruct (to_generator g d) as [r g1]. rewrite IH. destruct (flow_run ops1 g1). reflexivity.
  - rewrite IH. destruct (flow_run ops1 _). reflexivity.
Qed.

Lemma flow_run_length ops : forall g, length (fst (flow_run ops g)) = length ops.
Proof.
  induction ops as [|[d|x] ops IH]; intros g; cbn [flow_run]; [reflexivity| |].
  - destruct (to_generator g d) as [r g1]. specialize (IH g1). destruct (flow_run ops g1). cbn in *. lia.
  - specialize (IH (register_generator g x)). destruct (flow_run ops _). cbn in *. lia.
Qed.

(** Keys that are not bound in a history keep their generator. *)
Lemma flow_keep ops k : (forall op, In op ops -> ~ binds_key k op) -> forall g, find_gen (snd (flow_run ops g)) k = find_gen g k.
Proof.
  induction ops as [|op ops IH]; intros N g; [reflexivity|].
  assert (N' : forall o, In o ops -> ~ binds_key k o) by (intros o I; apply N; now right).
  pose proof (N op (or_introl eq_refl)) as N0. destruct op as [[x|k'|cm q]|x]; cbn [flow_run to_generator].
  - specialize (IH N' g). destruct (flow_run ops g). exact IH.
  - destruct (find_gen g k'); specialize (IH N' g); destruct (flow_run ops g); exact IH.
  - cbn in N0. destruct (find_gen g q) eqn:E.
    + specialize (IH N' g). destruct (flow_run ops g). exact IH.
    + specialize (IH N' (register_generator g (mkGen q (CGiven cm) 0))). destruct (flow_run ops _). cbn [snd] in *. rewrite IH, find_register.
      cbn [ge_key]. destruct (String.eqb_spec q k); [congruence|reflexivity].
  - cbn in N0. specialize (IH N' (register_generator g x)). destruct (flow_run ops _). cbn [snd] in *. rewrite IH, find_register.
    destruct (String.eqb_spec (ge_key x) k); [congruence|reflexivity].
Qed.

(** Declarations never replace a generator. *)
Lemma flow_declares_keep ops k x : (forall y, In (RegisterGen y) ops -> ge_key y <> k) ->
  forall g, find_gen g k = Some x -> find_gen (snd (flow_run ops g)) k = Some x.
Proof.
  induction ops as [|op ops IH]; intros N g F; [exact F|].
  assert (N' : forall y, In (RegisterGen y) ops -> ge_key y <> k) by (intros y I; apply N; now right).
  destruct op as [[y|k'|cm q]|y]; cbn [flow_run to_generator].
  - specialize (IH N' g F). destruct (flow_run ops g). exact IH.
  - destruct (find_gen g k'); specialize (IH N' g F); destruct (flow_run ops g); exact IH.
  - destruct (find_gen g q) eqn:E.
    + specialize (IH N' g F). destruct (flow_run ops g). exact IH.
    + assert (F1 : find_gen (register_generator g (mkGen q (CGiven cm) 0)) k = Some x).
      { rewrite find_register. cbn [ge_key]. destruct (String.eqb_spec q k); [congruence|exact F]. }
      specialize (IH N' _ F1). destruct (flow_run ops _). exact IH.
  - assert (F1 : find_gen (register_generator g y) k = Some x).
    { rewrite find_register. destruct (String.eqb_spec (ge_key y) k) as [E|]; [|exact F]. exfalso. apply (N y (or_introl eq_refl) E). }
    specialize (IH N' _ F1). destruct (flow_run ops _). exact IH.
Qed.

(** The generator a declaration at the end of a history gets. *)
Definition got (ops : list flow_op) (d : declared) (g : generators) : result generator := fst (to_generator (snd (flow_run ops g)) d).

Lemma got_last ops d g ops' : nth_error (fst (flow_run (ops ++ Declare d :: ops') g)) (length ops) = Some (got ops d g).
Proof.
  rewrite flow_run_app. cbn [fst]. rewrite nth_error_app2; rewrite flow_run_length; [|lia]. rewrite Nat.sub_diag.
  cbn [flow_run]. unfold got. destruct (to_generator (snd (flow_run ops g)) d) as [r g1]. destruct (flow_run ops' g1). reflexivity.
Qed.

(** A context manager whose class name is used by no other manager and no generator. *)
Lemma manager_own ops ops' cm k g : find_gen g k = None ->
  (forall y, In (RegisterGen y) ops -> ge_key y <> k) ->
  (forall cm', In (Declare (DManager cm' k)) ops -> cm' = cm) ->
  nth_error (fst (flow_run (ops ++ Declare (DManager cm k) :: ops') g)) (length ops) = Some (Ok (mkGen k (CGiven cm) 0)).
Proof.
  intros F Nr Nm. rewrite got_last. f_equal. unfold got.
  assert (K : find_gen (snd (flow_run ops g)) k = None \/ find_gen (snd (flow_run ops g)) k = Some (mkGen k (CGiven cm) 0)).
  { revert g F. induction ops as [|op ops IH]; intros g F; [now left|].
    assert (Nr' : forall y, In (RegisterGen y) ops -> ge_key y <> k) by (intros y I; apply Nr; now right).
    assert (Nm' : forall cm', In (Declare (DManager cm' k)) ops -> cm' = cm) by (intros y I; apply Nm; now right).
    specialize (IH Nr' Nm'). destruct op as [[y|k'|cm' q]|y]; cbn [flow_run to_generator].
    - specialize (IH g F). destruct (flow_run ops g). exact IH.
    - destruct (find_gen g k'); specialize (IH g F); destruct (flow_run ops g); exact IH.
    - destruct (find_gen g q) eqn:E; [specialize (IH g F); destruct (flow_run ops g); exact IH|].
      destruct (string_dec q k) as [->|D].
      + assert (cm' = cm) by (apply Nm; now left). subst cm'. right.
        assert (F1 : find_gen (register_generator g (mkGen k (CGiven cm) 0)) k = Some (mkGen k (CGiven cm) 0)) by (rewrite find_register; cbn [ge_key]; now rewrite String.eqb_refl).
        pose proof (flow_declares_keep ops k _ Nr' _ F1) as X. destruct (flow_run ops _). exact X.
      + assert (F1 : find_gen (register_generator g (mkGen q (CGiven cm') 0)) k = None) by (rewrite find_register; cbn [ge_key]; destruct (String.eqb_spec q k); [congruence|exact F]).
        specialize (IH _ F1). destruct (flow_run ops _). exact IH.
    - assert (F1 : find_gen (register_generator g y) k = None).
      { rewrite find_register. destruct (String.eqb_spec (ge_key y) k) as [E|]; [|exact F]. exfalso. apply (Nr y (or_introl eq_refl) E). }
      specialize (IH _ F1). destruct (flow_run ops _). exact IH. }
  cbn [to_generator]. destruct K as [-> | ->]; reflexivity.
Qed.

(** A key gives the generator registered last. *)
Lemma key_last ops x ops1 ops' g : (forall y, In (RegisterGen y) ops1 -> ge_key y <> ge_key x) ->
  nth_error (fst (flow_run ((ops ++ RegisterGen x :: ops1) ++ Declare (DKey (ge_key x)) :: ops') g)) (length (ops ++ RegisterGen x :: ops1)) = Some (Ok x).
Proof.
  intros N. rewrite got_last. f_equal. unfold got. rewrite flow_run_app. cbn [snd flow_run].
  assert (F : find_gen (register_generator (snd (flow_run ops g)) x) (ge_key x) = Some x) by (rewrite find_register; now rewrite String.eqb_refl).
  pose proof (flow_declares_keep ops1 (ge_key x) x N _ F) as K. destruct (flow_run ops1 _) as [xs g2]. cbn [snd] in *. cbn [to_generator]. now rewrite K.
Qed.

Lemma key_unknown ops k ops' g : find_gen g k = None -> (forall op, In op ops -> ~ binds_key k op) ->
  nth_error (fst (flow_run (ops ++ Declare (DKey k) :: ops') g)) (length ops) = Some (Err KeyError) /\
  snd (flow_run (ops ++ Declare (DKey k) :: ops') g) = snd (flow_run (ops ++ ops') g).
Proof.
  intros F N. pose proof (flow_keep ops k N g) as K. rewrite F in K. split.
  - rewrite got_last. unfold got. cbn [to_generator]. now rewrite K.
  - rewrite !flow_run_app. cbn [snd flow_run to_generator]. rewrite K. now destruct (flow_run ops' (snd (flow_run ops g))).
Qed.

(** A manager whose class name is taken gets the generator that has the name. *)
Lemma manager_taken ops cm k x ops' g : find_gen (snd (flow_run ops g)) k = Some x ->
  nth_error (fst (flow_run (ops ++ Declare (DManager cm k) :: ops') g)) (length ops) = Some (Ok x).
Proof. intros F. rewrite got_last. unfold got. cbn [to_generator]. now rewrite F. Qed.
