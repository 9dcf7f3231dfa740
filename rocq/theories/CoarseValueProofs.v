(** Values of references: induction, determinism, larger graphs, and the streams of the engine. *)
From Coq Require Import String Ascii Relations.
From Verif Require Import Prelude GraphModel GraphSpec GraphProofs EngineModel EngineSpec CoarseModel CoarseSpec.
Local Open Scope nat_scope.
Local Open Scope list_scope.

Lemma Forall2_imp {A B} (P Q : A -> B -> Prop) l l' : (forall a b, P a b -> Q a b) -> Forall2 P l l' -> Forall2 Q l l'.
Proof. intros H F. induction F; constructor; auto. Qed.
Lemma Forall2_in_imp {A B} (P Q : A -> B -> Prop) l l' : (forall a b, In a l -> P a b -> Q a b) -> Forall2 P l l' -> Forall2 Q l l'.
Proof. intros H F. induction F as [|a b l l' Hab F IH]; constructor; [apply H; [now left|exact Hab]|]. apply IH. intros x y Hx. apply H. now right. Qed.
Lemma Forall2_len {A B} (P : A -> B -> Prop) l l' : Forall2 P l l' -> length l = length l'.
Proof. induction 1; cbn; congruence. Qed.
Lemma Forall2_nth_l {A B} (P : A -> B -> Prop) l l' : Forall2 P l l' -> forall i a, nth_error l i = Some a -> exists b, nth_error l' i = Some b /\ P a b.
Proof. induction 1 as [|a b l l' Hab F IH]; intros [|i] x E; cbn in *; try discriminate; [injection E as <-; eauto|eauto]. Qed.
Lemma Forall2_nth_r {A B} (P : A -> B -> Prop) l l' : Forall2 P l l' -> forall i b, nth_error l' i = Some b -> exists a, nth_error l i = Some a /\ P a b.
Proof. induction 1 as [|a b l l' Hab F IH]; intros [|i] x E; cbn in *; try discriminate; [injection E as <-; eauto|eauto]. Qed.
Lemma Forall2_In_l {A B} (R : A -> B -> Prop) l l' a : Forall2 R l l' -> In a l -> exists b, In b l' /\ R a b.
Proof. induction 1 as [|x y l l' H _ IH]; intros []; [subst; exists y; split; [now left|exact H]|destruct (IH H0) as (b & I & Z); exists b; split; [now right|exact Z]]. Qed.
Lemma Forall2_In_r {A B} (R : A -> B -> Prop) l l' b : Forall2 R l l' -> In b l' -> exists a, In a l /\ R a b.
Proof. induction 1 as [|x y l l' H _ IH]; intros []; [subst; exists x; split; [now left|exact H]|destruct (IH H0) as (a & I & Z); exists a; split; [now right|exact Z]]. Qed.
Lemma Forall2_choose {A B} (P : A -> B -> Prop) l : (forall a, In a l -> exists b, P a b) -> exists l', Forall2 P l l'.
Proof.
  induction l as [|a l IH]; intros H; [exists []; constructor|]. destruct (H a (or_introl eq_refl)) as [b Hb].
  destruct IH as [l' F]; [intros x Hx; apply H; now right|]. exists (b :: l'). now constructor.
Qed.
Lemma Forall2_unique {A B} (P : A -> B -> Prop) l l1 l2 : (forall a b c, In a l -> P a b -> P a c -> b = c) -> Forall2 P l l1 -> Forall2 P l l2 -> l1 = l2.
Proof.
  intros H F1. revert l2. induction F1 as [|a b l l1 Hab F1 IH]; intros l2 F2; inversion F2; subst; [reflexivity|].
  f_equal; [apply (H a); [now left|assumption|assumption]|]. apply IH; [|assumption]. intros u1 u2 u3 Hx. apply H. now right.
Qed.

Section Value.
  Context {X U : Type} (s : semantics X U).
  Variable f : nat -> nat -> list (val X) -> list (string * val X) -> result (val X).

  Section Ind.
    Variables (g : graph) (inp : nat -> val X -> Prop) (c : nat) (P : ref -> val X -> Prop).
    Hypothesis Hi : forall i n v, inp i v -> P (RInput i n) v.
    Hypothesis Hc : forall i, P (RConst i) (constv s i).
    Hypothesis Ha : forall r a v w, value s f g inp c r v -> P r v -> attr_value s a v w -> P (RAttr r a) w.
    Hypothesis Hn : forall x nm xs ys v, In x (g_nodes g) -> Forall2 (value s f g inp c) (n_args x) xs -> Forall2 P (n_args x) xs ->
      Forall2 (value s f g inp c) (map snd (n_kwargs x)) ys -> Forall2 P (map snd (n_kwargs x)) ys ->
      f c (n_target x) xs (combine (map fst (n_kwargs x)) ys) = Ok v -> P (RNode (n_id x) nm) v.
    Fixpoint value_ind' r v (H : value s f g inp c r v) {struct H} : P r v :=
      match H in value _ _ _ _ _ r v return P r v with
      | v_input _ _ _ _ _ i n v h => Hi i n v h
      | v_const _ _ _ _ _ i => Hc i
      | v_attr _ _ _ _ _ r a v w h e => Ha r a v w h (value_ind' r v h) e
      | v_node _ _ _ _ _ x nm xs ys v hx ha hk e =>
          let go := fix go l l' (F : Forall2 (value s f g inp c) l l') {struct F} : Forall2 P l l' :=
            match F in Forall2 _ l l' return Forall2 P l l' with
            | Forall2_nil _ => Forall2_nil P
            | Forall2_cons a b h F' => Forall2_cons a b (value_ind' a b h) (go _ _ F')
            end in
          Hn x nm xs ys v hx ha (go _ _ ha) hk (go _ _ hk) e
      end.
    Lemma value_rect' : forall r v, value s f g inp c r v -> P r v.
    Proof. exact value_ind'. Qed.
  End Ind.
End Value.

Section Facts.
  Context {X U : Type} (s : semantics X U).
  Variable f : nat -> nat -> list (val X) -> list (string * val X) -> result (val X).

  Lemma attr_value_det a v w w' : attr_value s a v w -> attr_value s a v w' -> w = w'.
  Proof.
    intros H H'. inversion H as [? ? ? E|? ? ? E G]; subst; inversion H' as [? ? ? E'|? ? ? E' G']; subst; try congruence.
    - destruct E'; congruence.
    - destruct E; congruence.
  Qed.

  Definition functional (inp : nat -> val X -> Prop) : Prop := forall i v w, inp i v -> inp i w -> v = w.

  Lemma value_det g inp c : graph_ok g -> functional inp -> forall r v, value s f g inp c r v -> forall w, value s f g inp c r w -> v = w.
  Proof.
    intros G Hf. refine (value_rect' s f g inp c (fun r v => forall w, value s f g inp c r w -> v = w) _ _ _ _); [intros i n v H|intros i|intros r a v w H IH E|intros x nm xs ys v Hx Fa Ia Fk Ik E]; intros w' H'.
    - inversion H'; subst. now apply (Hf i).
    - inversion H'; subst. reflexivity.
    - inversion H' as [| |? ? v' ? H1 E1|]; subst. rewrite (IH v' H1) in E. exact (attr_value_det a v' w w' E E1).
    - inversion H' as [| | |x' ? xs' ys' ? Hx' Fa' Fk' E' Eid]; subst.
      assert (x' = x) as -> by exact (node_unique g x' x G Hx' Hx Eid).
      assert (xs = xs') as <-. { clear -Ia Fa'. revert xs' Fa'. induction Ia; intros xs' F; inversion F; subst; [reflexivity|]. f_equal; auto. }
      assert (ys = ys') as <-. { clear -Ik Fk'. revert ys' Fk'. induction Ik; intros xs' F; inversion F; subst; [reflexivity|]. f_equal; auto. }
      congruence.
  Qed.

  (** names do not matter *)
  Lemma value_name g inp c i n n' v : value s f g inp c (RNode i n) v -> value s f g inp c (RNode i n') v.
  Proof. intros H. inversion H; subst. econstructor; eassumption. Qed.

  (** more nodes, other functions that agree *)
  Lemma value_more g g' inp c f' : (forall x, In x (g_nodes g) -> In x (g_nodes g')) ->
    (forall x a k, In x (g_nodes g) -> f' c (n_target x) a k = f c (n_target x) a k) ->
    forall r v, value s f g inp c r v -> value s f' g' inp c r v.
  Proof.
    intros Hs Hf. refine (value_rect' s f g inp c (value s f' g' inp c) _ _ _ _); [intros i n v H|intros i|intros r a v w H IH E|intros x nm xs ys v Hx Fa Ia Fk Ik E].
    - now constructor.
    - constructor.
    - econstructor; eassumption.
    - econstructor; [now apply Hs|eassumption|eassumption|]. now rewrite Hf.
  Qed.

  (** ** The engine's streams of one batch *)
  Definition single (inp : nat -> val X -> Prop) (i : nat) (d : list (val X)) : Prop := exists v, d = [v] /\ inp i v.

  Lemma attr_single a v w : attr_stream s a [v] [w] <-> attr_value s a v w.
  Proof.
    split.
    - intros [F|(k & -> & (u & [<-|[]] & E) & F)]; inversion F; subst; [now constructor|]. now apply av_attr.
    - intros H. inversion H as [? ? ? E|k ? ? E G]; subst.
      + left. constructor; [exact E|constructor].
      + right. exists k. split; [reflexivity|]. split; [exists v; split; [now left|exact E]|]. constructor; [exact G|constructor].
  Qed.

  Lemma singles (P : ref -> val X -> Prop) l vs : Forall2 P l vs -> Forall2 (fun r d => exists v, d = [v] /\ P r v) l (map (fun v => [v]) vs).
  Proof. induction 1; cbn; constructor; eauto. Qed.

  Lemma value_means g inp c r v : value s f g inp c r v -> means s f g (single inp) c r [v].
  Proof.
    revert r v. refine (value_rect' s f g inp c (fun r v => means s f g (single inp) c r [v]) _ _ _ _); [intros i n v H|intros i|intros r a v w H IH E|intros x nm xs ys v Hx Fa Ia Fk Ik E].
    - apply means_input. now exists v.
    - apply (means_const s f g (single inp) c i).
    - apply (means_attr s f g (single inp) c r a [v] [w] IH). now apply attr_single.
    - assert (A : forall l vs, Forall2 (fun r v => means s f g (single inp) c r [v]) l vs -> Forall2 (means s f g (single inp) c) l (map (fun v => [v]) vs)).
      { intros l vs F. induction F; cbn; constructor; assumption. }
      apply (means_node s f g (single inp) c x nm (map (fun v => [v]) xs) (map (fun v => [v]) ys) [v] Hx (A _ _ Ia) (A _ _ Ik)).
      assert (El : forall vs, Forall2 (fun d (x : val X) => element d 0 x) (map (fun v => [v]) vs) vs).
      { intros vs. induction vs as [|y vs IH]; cbn; constructor; [|exact IH]. now left. }
      destruct (call_refs x) as [|r0 rs] eqn:Er.
      + unfold call_refs in Er. apply app_eq_nil in Er. destruct Er as [E1 E2]. rewrite E1 in Fa. inversion Fa; subst. rewrite E2 in Fk. inversion Fk; subst. cbn [map].
        apply applied_once. destruct (n_kwargs x); [exact E|discriminate].
      + apply (applied_batches f) with (N := 1).
        * split.
          -- intros d Hd. left. apply in_app_iff in Hd. destruct Hd as [Hd|Hd]; apply in_map_iff in Hd; destruct Hd as (y & <- & _); reflexivity.
          -- apply Forall2_len in Fa. apply Forall2_len in Fk. unfold call_refs in Er.
             destruct xs as [|y xs].
             ++ destruct (n_args x); [|discriminate]. cbn in Er. rewrite Er in Fk. destruct ys as [|y ys]; [discriminate|]. exists [y]. cbn. auto.
             ++ exists [y]. cbn. auto.
        * reflexivity.
        * intros [|i] v' Ev; [|destruct i; discriminate]. injection Ev as <-. exists xs, ys. split; [apply El|]. split; [apply El|exact E].
  Qed.

  Lemma means_value g inp c : forall r d, means s f g (single inp) c r d -> exists v, d = [v] /\ value s f g inp c r v.
  Proof.
    fix IH 3. intros r d H. destruct H as [i n d H|i|r a d d' H H'|x nm a k outs Hx Fa Fk Ap].
    - destruct H as (v & -> & H). exists v. split; [reflexivity|]. now constructor.
    - eexists. split; [reflexivity|constructor].
    - destruct (IH _ _ H) as (v & -> & Hv). assert (exists w, d' = [w]) as (w & ->).
      { destruct H' as [F|(k & _ & _ & F)]; inversion F as [|? w ? l ? F']; subst; inversion F'; subst; eauto. }
      exists w. split; [reflexivity|]. econstructor; [exact Hv|]. now apply attr_single.
    - assert (A : forall l ds, Forall2 (means s f g (single inp) c) l ds -> exists vs, ds = map (fun v => [v]) vs /\ Forall2 (value s f g inp c) l vs).
      { fix GO 3. intros l ds F. destruct F as [|r d l ds h F]; [exists []; split; [reflexivity|constructor]|].
        destruct (IH _ _ h) as (v & -> & Hv). destruct (GO _ _ F) as (vs & -> & Hvs). exists (v :: vs). split; [reflexivity|]. now constructor. }
      destruct (A _ _ Fa) as (xs & -> & Hxs). destruct (A _ _ Fk) as (ys & -> & Hys).
      assert (Q : exists v, outs = [v] /\ f c (n_target x) xs (combine (map fst (n_kwargs x)) ys) = Ok v).
      { assert (El : forall vs us, Forall2 (fun d (x : val X) => element d 0 x) (map (fun v => [v]) vs) us -> us = vs).
        { clear. intros vs. induction vs as [|y vs IHv]; intros us F; inversion F as [|? u ? us' E F']; subst; [reflexivity|]. f_equal; [|now apply IHv].
          destruct E as [E|E]; [injection E as <-; reflexivity|]. cbn in E. now injection E as <-. }
        inversion Ap as [v E Ea Ek|a0 k0 N outs0 CL L Hb Ea Ek]; subst.
        - symmetry in Ea, Ek. apply map_eq_nil in Ea. apply map_eq_nil in Ek. subst. exists v. split; [reflexivity|].
          inversion Hys as [E0|]. destruct (n_kwargs x); [exact E|discriminate].
        - destruct CL as [_ (d & Hd & Ld)]. assert (length d = 1) as L1.
          { apply in_app_iff in Hd. destruct Hd as [Hd|Hd]; apply in_map_iff in Hd; destruct Hd as (y & <- & _); reflexivity. }
          rewrite L1 in Ld. destruct outs as [|v [|]]; [discriminate| |discriminate]. exists v. split; [reflexivity|].
          destruct (Hb 0 v eq_refl) as (us & ws & Fu & Fw & E). rewrite (El _ _ Fu), (El _ _ Fw) in E. exact E. }
      destruct Q as (v & -> & E). exists v. split; [reflexivity|]. econstructor; eassumption.
  Qed.
End Facts.
