(** Proofs about forward passes of quantized modules. *)
From Coq Require Import List Arith Bool Lia.
From Verif Require Import Prelude FwdModel FwdSpec.
Import ListNotations.

Scheme module_mut := Induction for module Sort Prop with modules_mut := Induction for modules Sort Prop.
Combined Scheme module_modules_ind from module_mut, modules_mut.
Scheme qmodule_mut := Induction for qmodule Sort Prop with qmodules_mut := Induction for qmodules Sort Prop.
Combined Scheme qmodule_qmodules_ind from qmodule_mut, qmodules_mut.

Lemma forward_all_cons : forall {F} strict (m : qmodule F) r x s,
  forward_all strict (QCons m r) x s = rbind (forward strict m x s) (fun p => forward_all strict r (fst p) (snd p)).
Proof. reflexivity. Qed.
Lemma quantize_all_cons : forall {F} (m : module F) r, quantize_all (MCons m r) = QCons (quantize m) (quantize_all r).
Proof. reflexivity. Qed.
Lemma torch_forward_all_cons : forall {F} (m : module F) r x s,
  torch_forward_all (MCons m r) x s = let (y, s') := torch_forward m x s in torch_forward_all r y s'.
Proof. reflexivity. Qed.

Section Sim.
  Variable F : torch.
  Variable P : list nat.

  (** Parameters agree and are plain tensors. *)
  Record rel (s1 s2 : state F) : Prop := mkRel {
    rel_eq : forall p, In p P -> read s1 p = read s2 p;
    rel_plain : forall p, In p P -> quantized (mem s2 p) = false;
    rel_lt1 : forall p, In p P -> p < next s1;
    rel_lt2 : forall p, In p P -> p < next s2
  }.
  Record at_ (s1 s2 : state F) (x1 x2 : nat) : Prop := mkAt {
    at_eq : read s1 x1 = read s2 x2;
    at_lt1 : x1 < next s1;
    at_lt2 : x2 < next s2;
    at_out1 : ~ In x1 P;
    at_out2 : ~ In x2 P
  }.

  Definition good (m_ret m_chg : Prop) (x1 x2 : nat) (s1 s2 : state F) (y1 : nat) (t1 : state F) (y2 : nat) (t2 : state F) : Prop :=
    rel t1 t2 /\ at_ t1 t2 y1 y2 /\ next s1 <= next t1 /\ next s2 <= next t2 /\ calls t2 = calls s2
    /\ (forall a, a < next s2 -> ~ In a P -> mem t2 a = mem s2 a)
    /\ (forall a, a < next s1 -> ~ In a P -> (a = x1 -> ~ m_chg) -> mem t1 a = mem s1 a)
    /\ ((y1 = x1 /\ m_ret) \/ next s1 <= y1).

  Lemma alloc_rel : forall s1 s2 d, rel s1 s2 ->
    good False False 0 0 s1 s2 (fst (put s1 d)) (snd (put s1 d)) (fst (put s2 d)) (snd (put s2 d)).
  Proof.
    intros s1 s2 d R. destruct R as [E Pl L1 L2]. unfold good, put, alloc. cbn.
    split; [constructor; cbn; intros p I|].
    - unfold read. cbn. specialize (E p I). specialize (L1 p I). specialize (L2 p I).
      destruct (p =? next s1) eqn:Q1; [apply Nat.eqb_eq in Q1; lia|].
      destruct (p =? next s2) eqn:Q2; [apply Nat.eqb_eq in Q2; lia|]. exact E.
    - specialize (L2 p I). destruct (p =? next s2) eqn:Q2; [apply Nat.eqb_eq in Q2; lia|]. auto.
    - specialize (L1 p I). lia.
    - specialize (L2 p I). lia.
    - split; [constructor; cbn|].
      + unfold read. cbn. rewrite !Nat.eqb_refl. reflexivity.
      + lia.
      + lia.
      + intro I. specialize (L1 _ I). lia.
      + intro I. specialize (L2 _ I). lia.
      + split; [lia|]. split; [lia|]. split; [reflexivity|]. split; [|split].
        * intros a La _. destruct (a =? next s2) eqn:Q; [apply Nat.eqb_eq in Q; lia|reflexivity].
        * intros a La _ _. destruct (a =? next s1) eqn:Q; [apply Nat.eqb_eq in Q; lia|reflexivity].
        * right. lia.
  Qed.

  Lemma good_weaken : forall (r c : Prop) x1 x2 s1 s2 y1 t1 y2 t2,
    good False False 0 0 s1 s2 y1 t1 y2 t2 -> good r c x1 x2 s1 s2 y1 t1 y2 t2.
  Proof.
    intros r c x1 x2 s1 s2 y1 t1 y2 t2 (A & B & C & D1 & E & G & H & I).
    split; [exact A|]. split; [exact B|]. split; [exact C|]. split; [exact D1|]. split; [exact E|]. split; [exact G|].
    split; [intros a La Na _; apply H; auto|]. destruct I as [(_ & [])|I]. right. exact I.
  Qed.

  Lemma read_opt_eq : forall s1 s2 b, rel s1 s2 -> incl (opt_list b) P -> read_opt s1 b = read_opt s2 b.
  Proof. intros s1 s2 [b|] R I; cbn; auto. f_equal. apply (rel_eq _ _ R). apply I. left. reflexivity. Qed.

  Lemma quantize_opt_stub : forall (s : state F) b, quantize_opt (stub_opt b) s b = (b, s).
  Proof. intros s [b|]; reflexivity. Qed.

  Lemma put_good : forall (r c : Prop) x1 x2 s1 s2 d1 d2, rel s1 s2 -> d1 = d2 ->
    exists y2 t2, Ok (finish Stub s2 d2) = Ok (y2, t2)
    /\ good r c x1 x2 s1 s2 (fst (put s1 d1)) (snd (put s1 d1)) y2 t2.
  Proof.
    intros r c x1 x2 s1 s2 d1 d2 R <-. exists (fst (put s2 d1)), (snd (put s2 d1)). split; [reflexivity|].
    apply good_weaken, alloc_rel, R.
  Qed.

  Lemma rel_set : forall s1 s2 w d, rel s1 s2 -> In w P -> rel (set s1 w (mkTensor false d)) (set s2 w (mkTensor false d)).
  Proof.
    intros s1 s2 w d [E Pl L1 L2] I. constructor; cbn; auto.
    - intros p Ip. unfold read. cbn. destruct (p =? w); auto. apply E, Ip.
    - intros p Ip. destruct (p =? w); cbn; auto.
  Qed.

  Lemma forward_sim :
    (forall m : module F, incl (params m) P -> pads_with_zeros m -> forall x1 x2 s1 s2,
       rel s1 s2 -> at_ s1 s2 x1 x2 ->
       exists y2 t2, forward false (quantize m) x2 s2 = Ok (y2, t2)
       /\ good (returns_input m) (changes_input m) x1 x2 s1 s2 (fst (torch_forward m x1 s1)) (snd (torch_forward m x1 s1)) y2 t2)
    /\ (forall l : modules F, incl (params_all l) P -> pads_with_zeros_all l -> forall x1 x2 s1 s2,
       rel s1 s2 -> at_ s1 s2 x1 x2 ->
       exists y2 t2, forward_all false (quantize_all l) x2 s2 = Ok (y2, t2)
       /\ good (returns_input_all l) (changes_input_all l) x1 x2 s1 s2 (fst (torch_forward_all l x1 s1)) (snd (torch_forward_all l x1 s1)) y2 t2).
  Proof.
    apply module_modules_ind.
    - intros w b I _ x1 x2 s1 s2 R A. cbn [quantize forward apply_quantizer torch_forward].
      rewrite quantize_opt_stub. cbn [guard negb orb]. apply put_good; auto.
      f_equal; [apply A|apply R, I; left; reflexivity|apply read_opt_eq; auto; intros a J; apply I; right; exact J].
    - intros d w b c p mode I Z x1 x2 s1 s2 R A. cbn [pads_with_zeros] in Z. subst mode.
      cbn [quantize forward apply_quantizer torch_forward].
      rewrite quantize_opt_stub. cbn [guard negb orb]. apply put_good; auto.
      f_equal; [apply A|apply R, I; left; reflexivity|apply read_opt_eq; auto; intros a J; apply I; right; exact J].
    - intros affine w b c I _ x1 x2 s1 s2 R A. cbn [params] in I.
      assert (Q : forward false (quantize (LayerNorm affine w b c)) x2 s2
        = Ok (finish Stub s2 (f_layer_norm F (read s2 x2) c (read_opt s2 w) (read_opt s2 b)))).
      { destruct affine, w as [w|], b as [b|]; reflexivity. }
      rewrite Q. cbn [torch_forward]. apply put_good; auto.
      f_equal; [apply A|apply read_opt_eq; auto; intros a J; apply I, in_app_iff; auto
               |apply read_opt_eq; auto; intros a J; apply I, in_app_iff; auto].
    - intros w c I _ x1 x2 s1 s2 R A. assert (Iw : In w P) by (apply I; left; reflexivity).
      cbn [quantize forward apply_quantizer torch_forward guard negb orb].
      rewrite (rel_plain _ _ R w Iw). rewrite <- (rel_eq _ _ R w Iw), <- (at_eq _ _ _ _ A).
      destruct (f_renorm F (read s1 w) (read s1 x1) c) as [d|].
      + pose proof (rel_set s1 s2 w d R Iw) as R'.
        destruct (put_good (returns_input (@Embedding F w c)) (changes_input (@Embedding F w c)) x1 x2 _ _
                   (f_embedding F (read (set s1 w (mkTensor false d)) x1) (read (set s1 w (mkTensor false d)) w) c)
                   (f_embedding F (read (set s2 w (mkTensor false d)) x2) (read (set s2 w (mkTensor false d)) w) c) R')
          as (y2 & t2 & E & G).
        { f_equal; [|apply R', Iw]. unfold read. cbn.
          destruct (x1 =? w) eqn:Q1; [apply Nat.eqb_eq in Q1; subst; destruct (at_out1 _ _ _ _ A Iw)|].
          destruct (x2 =? w) eqn:Q2; [apply Nat.eqb_eq in Q2; subst; destruct (at_out2 _ _ _ _ A Iw)|].
          apply A. }
        exists y2, t2. split; [exact E|]. destruct G as (G1 & G2 & G3 & G4 & G5 & G6 & G7 & G8).
        split; [exact G1|]. split; [exact G2|]. split; [exact G3|]. split; [exact G4|]. split; [exact G5|].
        split; [|split; [|exact G8]].
        * intros a La Na. rewrite G6; auto. cbn. destruct (a =? w) eqn:Q; auto. apply Nat.eqb_eq in Q. subst. contradiction.
        * intros a La Na Ca. rewrite G7; auto. cbn. destruct (a =? w) eqn:Q; auto. apply Nat.eqb_eq in Q. subst. contradiction.
      + apply put_good; auto. f_equal; [apply A|]. apply R, Iw.
    - intros f ip _ _ x1 x2 s1 s2 R A. cbn [quantize forward apply_quantizer guard negb orb torch_forward].
      destruct ip.
      + unfold finish, alloc, apply_quantizer. do 2 eexists. split; [reflexivity|].
        destruct A as [Ae A1 A2 A3 A4]. destruct R as [E Pl L1 L2]. cbn [fst snd].
        unfold good. cbn [returns_input changes_input next calls mem set].
        split; [constructor; cbn; auto|].
        * intros p Ip. unfold read. cbn. destruct (p =? x1) eqn:Q; [apply Nat.eqb_eq in Q; subst; contradiction|].
          destruct (p =? next s2) eqn:Q2; [apply Nat.eqb_eq in Q2; specialize (L2 p Ip); lia|]. apply E, Ip.
        * intros p Ip. destruct (p =? next s2) eqn:Q2; [reflexivity|]. apply Pl, Ip.
        * intros p Ip. specialize (L2 p Ip). lia.
        * split; [constructor; cbn; auto|].
          -- unfold read in *. cbn. rewrite !Nat.eqb_refl. cbn. rewrite Ae. reflexivity.
          -- intro J. specialize (L2 _ J). lia.
          -- split; [lia|]. split; [lia|]. split; [reflexivity|]. split; [|split; [|left; auto]].
             ++ intros a La _. destruct (a =? next s2) eqn:Q; [apply Nat.eqb_eq in Q; lia|reflexivity].
             ++ intros a La _ C. destruct (a =? x1) eqn:Q; [|reflexivity]. apply Nat.eqb_eq in Q. destruct (C Q eq_refl).
      + apply put_good; auto. f_equal. apply A.
    - intros l IH I Z x1 x2 s1 s2 R A. exact (IH I Z x1 x2 s1 s2 R A).
    - intros _ _ x1 x2 s1 s2 R A. exists x2, s2. split; [reflexivity|]. cbn.
      split; [exact R|]. split; [exact A|]. split; [lia|]. split; [lia|]. split; [reflexivity|]. split; [auto|].
      split; [auto|]. left. auto.
    - intros m IHm r IHr I (Z1 & Z2) x1 x2 s1 s2 R A.
      destruct (IHm (fun a J => I a (in_or_app _ _ _ (or_introl J))) Z1 x1 x2 s1 s2 R A) as (y2 & t2 & E & G).
      rewrite quantize_all_cons, forward_all_cons, torch_forward_all_cons, E. cbn [rbind fst snd].
      destruct (torch_forward m x1 s1) as [y1 t1]. cbn [fst snd] in *.
      destruct G as (R' & A' & N1 & N2 & C & G2 & G1 & Y).
      destruct (IHr (fun a J => I a (in_or_app _ _ _ (or_intror J))) Z2 y1 y2 t1 t2 R' A') as (z2 & u2 & E' & G').
      exists z2, u2. split; [exact E'|]. destruct (torch_forward_all r y1 t1) as [z1 u1]. cbn [fst snd] in *.
      destruct G' as (R'' & A'' & N1' & N2' & C' & G2' & G1' & Y').
      split; [exact R''|]. split; [exact A''|]. split; [lia|]. split; [lia|]. split; [congruence|]. split; [|split].
      + intros a La Na. rewrite G2'; auto. lia.
      + intros a La Na Ca. cbn [changes_input_all] in Ca. rewrite G1'; auto; [|lia|].
        * apply G1; auto. intros Q H. apply (Ca Q). auto.
        * intros Q H. destruct Y as [(Y & Ym)|Y]; [|lia]. subst a. apply (Ca Y). auto.
      + destruct Y' as [(Y' & Ym')|Y']; [|right; lia]. destruct Y as [(Y & Ym)|Y]; [|right; lia].
        left. subst. split; auto. split; auto.
  Qed.

  (** ** Programs *)
  Lemma run_sim : forall (p : list (stmt F (module F))) e1 e2 s1 s2, rel s1 s2 ->
    (forall v, at_ s1 s2 (e1 v) (e2 v)) ->
    (forall m, uses p m -> incl (params m) P /\ pads_with_zeros m /\ ~ changes_input m) ->
    exists e2' s2', quantized_run false (map (with_modules quantize) p) e2 s2 = Ok (e2', s2')
    /\ rel (snd (torch_run p e1 s1)) s2'
    /\ (forall v, at_ (snd (torch_run p e1 s1)) s2' (fst (torch_run p e1 s1) v) (e2' v))
    /\ calls s2' = calls s2.
  Proof.
    induction p as [|st p IH]; intros e1 e2 s1 s2 R A U.
    - exists e2, s2. cbn. auto.
    - assert (U' : forall m, uses p m -> incl (params m) P /\ pads_with_zeros m /\ ~ changes_input m).
      { intros m (y & x & I). apply U. exists y, x. right. exact I. }
      destruct st as [y m x|y f xs]; cbn [map with_modules quantized_run torch_run].
      + destruct (U m) as (Im & Zm & Cm); [exists y, x; left; reflexivity|].
        destruct (proj1 forward_sim m Im Zm (e1 x) (e2 x) s1 s2 R (A x)) as (y2 & t2 & E & G).
        rewrite E. cbn [rbind fst snd]. destruct (torch_forward m (e1 x) s1) as [y1 t1]. cbn [fst snd] in G.
        destruct G as (R' & A' & N1 & N2 & C & G2 & G1 & Y).
        destruct (IH (upd e1 y y1) (upd e2 y y2) t1 t2 R') as (e2' & s2' & E' & R'' & A'' & C'); auto.
        * intro v. unfold upd. destruct (v =? y); auto. destruct (A v) as [B1 B2 B3 B4 B5].
          constructor; auto; try lia. unfold read in *. rewrite G1, G2; auto.
        * exists e2', s2'. split; [exact E'|]. split; [exact R''|]. split; [exact A''|]. congruence.
      + assert (Ev : map (fun x => read s2 (e2 x)) xs = map (fun x => read s1 (e1 x)) xs).
        { apply map_ext. intro v. symmetry. apply A. }
        rewrite Ev. set (d := f (map (fun x => read s1 (e1 x)) xs)).
        destruct (alloc_rel s1 s2 d R) as (R' & A' & N1 & N2 & C & G2 & G1 & Y).
        destruct (put s2 d) as [y2 t2]. destruct (put s1 d) as [y1 t1]. cbn [fst snd] in *.
        destruct (IH (upd e1 y y1) (upd e2 y y2) t1 t2 R') as (e2' & s2' & E' & R'' & A'' & C'); auto.
        * intro v. unfold upd. destruct (v =? y); auto. destruct (A v) as [B1 B2 B3 B4 B5].
          constructor; auto; try lia. unfold read in *. rewrite G1, G2; auto.
        * exists e2', s2'. split; [exact E'|]. split; [exact R''|]. split; [exact A''|]. congruence.
  Qed.
End Sim.
