(** Proofs about shared tensors and weights. *)
From Coq Require Import String Ascii QArith.
From Verif Require Import Prelude GgufModel GgufExportProofs SaveModel SaveSpec.
Local Open Scope nat_scope.
Local Open Scope list_scope.

(** ** Dictionaries *)

Lemma assoc_none {V} k (d : list (string * V)) : assoc_str k d = None <-> ~ In k (map fst d).
Proof.
  induction d as [|[k' v] d IH]; cbn; [tauto|]. destruct (String.eqb_spec k k') as [->|N].
  - split; [discriminate|]. intros H. exfalso. auto.
  - rewrite IH. split; [intros H [E|E]; [congruence|auto]|auto].
Qed.

Lemma assoc_some_in {V} k (v : V) d : assoc_str k d = Some v -> In (k, v) d.
Proof.
  induction d as [|[k' v'] d IH]; cbn; [discriminate|]. destruct (String.eqb_spec k k') as [->|N]; [|auto].
  intros [= ->]. auto.
Qed.

Lemma assoc_in {V} k (v : V) d : NoDup (map fst d) -> (In (k, v) d <-> assoc_str k d = Some v).
Proof.
  intros N. split; [|apply assoc_some_in]. induction d as [|[k' v'] d IH]; cbn in *; [contradiction|].
  inversion_clear N as [|? ? Hn N']. intros [[= -> ->]|H]; [now rewrite String.eqb_refl|].
  destruct (String.eqb_spec k k') as [->|_]; [|auto]. exfalso. apply Hn. now apply (in_map fst) in H.
Qed.

Lemma dict_set_keys {V} k (v : V) d x : In x (map fst (dict_set k v d)) <-> x = k \/ In x (map fst d).
Proof.
  induction d as [|[k' v'] d IH]; cbn; [intuition|]. destruct (String.eqb_spec k k') as [->|N]; cbn; [intuition|].
  rewrite IH. intuition.
Qed.

Lemma dict_set_nodup {V} k (v : V) d : NoDup (map fst d) -> NoDup (map fst (dict_set k v d)).
Proof.
  induction d as [|[k' v'] d IH]; cbn; [repeat constructor; auto|].
  intros N. inversion_clear N as [|? ? Hn N']. destruct (String.eqb_spec k k') as [->|Hk]; cbn.
  - now constructor.
  - constructor; [|auto]. rewrite dict_set_keys. intros [->|H]; [congruence|auto].
Qed.

Lemma assoc_map {V W} (f : string -> V -> W) k d :
  assoc_str k (map (fun e => (fst e, f (fst e) (snd e))) d) = option_map (f k) (assoc_str k d).
Proof.
  induction d as [|[k' v] d IH]; cbn; [reflexivity|]. destruct (String.eqb_spec k k') as [->|]; [reflexivity|auto].
Qed.

(** ** Groups *)

Lemma key_spec a b : key_eqb a b = true <-> same_memory a b.
Proof.
  unfold key_eqb, same_memory. rewrite !andb_true_iff, !Nat.eqb_eq, !size_eqb_eq. tauto.
Qed.
Lemma same_sym a b : same_memory a b -> same_memory b a.
Proof. unfold same_memory. intuition. Qed.
Lemma same_trans a b c : same_memory a b -> same_memory b c -> same_memory a c.
Proof. unfold same_memory. intuition congruence. Qed.
Lemma same_refl a : same_memory a a.
Proof. unfold same_memory. auto. Qed.

(** The group of a tensor. *)
Definition in_group (g : list (tref * list string)) (n : string) (t : tref) : Prop :=
  exists k ns, In (k, ns) g /\ In n ns /\ same_memory t k.

Record groups_ok (g : list (tref * list string)) (d : list (string * tref)) : Prop := {
  go_mem : forall k ns n, In (k, ns) g -> In n ns -> exists t, In (n, t) d /\ same_memory t k;
  go_all : forall n t, In (n, t) d -> in_group g n t;
  go_keys : forall i j ki ni kj nj, nth_error g i = Some (ki, ni) -> nth_error g j = Some (kj, nj) ->
      same_memory ki kj -> i = j;
  go_nonempty : forall k ns, In (k, ns) g -> ns <> [];
  go_nodup : NoDup (concat (map snd g))
}.

Lemma add_group_cases t n g :
  (exists g1 k ns g2, g = g1 ++ (k, ns) :: g2 /\ same_memory t k /\ add_group t n g = g1 ++ (k, ns ++ [n]) :: g2) \/
  ((forall k ns, In (k, ns) g -> ~ same_memory t k) /\ add_group t n g = g ++ [(t, [n])]).
Proof.
  induction g as [|[k ns] g IH]; cbn; [right; split; [tauto|reflexivity]|].
  destruct (key_eqb t k) eqn:E.
  - left. exists [], k, ns, g. apply key_spec in E. auto.
  - assert (N : ~ same_memory t k) by (rewrite <- key_spec; congruence).
    destruct IH as [(g1 & k' & ns' & g2 & -> & S & ->)|[H ->]].
    + left. exists ((k, ns) :: g1), k', ns', g2. auto.
    + right. split; [|reflexivity]. intros k' ns' [[= <- <-]|I]; eauto.
Qed.

Lemma add_group_perm t n g :
  Permutation.Permutation (concat (map snd (add_group t n g))) (n :: concat (map snd g)).
Proof.
  destruct (add_group_cases t n g) as [(g1 & k & ns & g2 & -> & _ & ->)|[_ ->]].
  - rewrite !map_app, !concat_app. cbn. rewrite <- app_assoc. cbn. rewrite !app_assoc.
    apply Permutation.Permutation_sym, Permutation.Permutation_middle.
  - rewrite map_app, concat_app. cbn. etransitivity; [apply Permutation.Permutation_app_comm|]. reflexivity.
Qed.

Lemma groups_step g d n t : groups_ok g d -> ~ In n (map fst d) -> groups_ok (add_group t n g) (d ++ [(n, t)]).
Proof.
  intros G N. pose proof (add_group_perm t n g) as P.
  assert (ND : NoDup (concat (map snd (add_group t n g)))).
  { eapply Permutation.Permutation_NoDup; [apply Permutation.Permutation_sym, P|]. constructor; [|apply G].
    intros H. apply in_concat in H as (ns & H & Hn). apply in_map_iff in H as ([k ns'] & E & H). cbn in E. subst ns'.
    destruct (go_mem _ _ G _ _ _ H Hn) as (t' & H' & _). apply N. now apply (in_map fst) in H'. }
  destruct (add_group_cases t n g) as [(g1 & k & ns & g2 & E & S & E')|[F E']]; rewrite E' in *.
  - split; auto.
    + intros k' ns' n' I Hn. apply in_app_or in I as [I|[[= <- <-]|I]].
      * destruct (go_mem _ _ G k' ns' n') as (t' & ? & ?); auto; [rewrite E; apply in_or_app; auto|].
        exists t'. split; [apply in_or_app; auto|auto].
      * apply in_app_or in Hn as [Hn|[<-|[]]].
        -- destruct (go_mem _ _ G k ns n') as (t' & ? & ?); auto; [rewrite E; apply in_or_app; cbn; auto|].
           exists t'. split; [apply in_or_app; auto|auto].
        -- exists t. split; [apply in_or_app; cbn; auto|auto].
      * destruct (go_mem _ _ G k' ns' n') as (t' & ? & ?); auto; [rewrite E; apply in_or_app; cbn; auto|].
        exists t'. split; [apply in_or_app; auto|auto].
    + intros n' t' I. apply in_app_or in I as [I|[[= <- <-]|[]]].
      * destruct (go_all _ _ G _ _ I) as (k' & ns' & I' & Hn & S'). rewrite E in I'.
        apply in_app_or in I' as [I'|[[= <- <-]|I']].
        -- exists k', ns'. repeat split; auto; try apply S'. apply in_or_app; auto.
        -- exists k, (ns ++ [n]). repeat split; try apply S'; [apply in_or_app; cbn; auto|apply in_or_app; auto].
        -- exists k', ns'. repeat split; auto; try apply S'. apply in_or_app; cbn; auto.
      * exists k, (ns ++ [n]). repeat split; try apply S; apply in_or_app; cbn; auto.
    + intros i j ki ni kj nj Hi Hj Hs.
      assert (L : forall i k0 n0, nth_error (g1 ++ (k, ns ++ [n]) :: g2) i = Some (k0, n0) ->
                    exists n1, nth_error g i = Some (k0, n1)).
      { intros x k0 n0. rewrite E. destruct (Nat.lt_trichotomy x (length g1)) as [L|[->|L]].
        - rewrite !nth_error_app1 by exact L. eauto.
        - rewrite !nth_error_app2 by lia. rewrite Nat.sub_diag. cbn. intros [= <- <-]. eauto.
        - rewrite !nth_error_app2 by lia. destruct (x - length g1) as [|y] eqn:Ey; [lia|]. cbn. eauto. }
      apply L in Hi as (? & Hi). apply L in Hj as (? & Hj). exact (go_keys _ _ G _ _ _ _ _ _ Hi Hj Hs).
    + intros k' ns' I. apply in_app_or in I as [I|[[= <- <-]|I]].
      * apply (go_nonempty _ _ G k'). rewrite E. apply in_or_app; auto.
      * now destruct ns.
      * apply (go_nonempty _ _ G k'). rewrite E. apply in_or_app; cbn; auto.
  - split; auto.
    + intros k' ns' n' I Hn. apply in_app_or in I as [I|[[= <- <-]|[]]].
      * destruct (go_mem _ _ G k' ns' n') as (t' & ? & ?); auto. exists t'. split; [apply in_or_app; auto|auto].
      * destruct Hn as [<-|[]]. exists t. split; [apply in_or_app; cbn; auto|apply same_refl].
    + intros n' t' I. apply in_app_or in I as [I|[[= <- <-]|[]]].
      * destruct (go_all _ _ G _ _ I) as (k' & ns' & I' & Hn & S').
        exists k', ns'. repeat split; auto; try apply S'. apply in_or_app; auto.
      * exists t, [n]. split; [apply in_or_app; cbn; auto|split; [cbn; auto|apply same_refl]].
    + intros i j ki ni kj nj Hi Hj Hs.
      assert (L : forall i k0 n0, nth_error (g ++ [(t, [n])]) i = Some (k0, n0) ->
                    nth_error g i = Some (k0, n0) \/ (i = length g /\ k0 = t)).
      { intros x k0 n0. destruct (Nat.lt_ge_cases x (length g)) as [L|L].
        - rewrite nth_error_app1 by exact L. auto.
        - rewrite nth_error_app2 by exact L. destruct (x - length g) as [|[|y]] eqn:Ey; cbn; try discriminate.
          intros [= <- <-]. right. split; [lia|reflexivity]. }
      destruct (L _ _ _ Hi) as [Hi'|[-> ->]], (L _ _ _ Hj) as [Hj'|[-> ->]].
      * exact (go_keys _ _ G _ _ _ _ _ _ Hi' Hj' Hs).
      * exfalso. apply nth_error_In in Hi'. eapply F; eauto using same_sym.
      * exfalso. apply nth_error_In in Hj'. eapply F; eauto.
      * reflexivity.
    + intros k' ns' I. apply in_app_or in I as [I|[[= <- <-]|[]]]; [eapply (go_nonempty _ _ G); eauto|discriminate].
Qed.

Lemma groups_spec d : NoDup (map fst d) -> groups_ok (tensor_groups d) d.
Proof.
  unfold tensor_groups. intros N.
  assert (H : forall d2 d1 g, groups_ok g d1 -> NoDup (map fst (d1 ++ d2)) ->
            groups_ok (fold_left (fun g '(n, t) => add_group t n g) d2 g) (d1 ++ d2)).
  { clear. induction d2 as [|[n t] d2 IH]; intros d1 g G N; cbn; [now rewrite app_nil_r|].
    replace (d1 ++ (n, t) :: d2) with ((d1 ++ [(n, t)]) ++ d2) in * by now rewrite <- app_assoc.
    apply IH; [|exact N]. apply groups_step; [exact G|].
    rewrite !map_app in N. cbn in N. rewrite <- app_assoc in N. cbn in N. apply NoDup_remove_2 in N.
    intros H. apply N, in_or_app. auto. }
  apply (H d [] []); [|exact N]. split; cbn; try tauto; try constructor.
  intros i j ? ? ? ? Hi. destruct i; discriminate.
Qed.

(** ** The smallest name *)

Lemma min_name_in ns r : min_name ns = Ok r -> In r ns.
Proof.
  destruct ns as [|n l]; [discriminate|]. cbn [min_name]. intros [= <-].
  assert (H : forall m, In (fold_left (fun m x => if String.ltb x m then x else m) l m) (m :: l)).
  { induction l as [|x l IH]; intros m; cbn; [auto|]. destruct (String.ltb x m).
    - destruct (IH x) as [H|H]; auto.
    - destruct (IH m) as [H|H]; auto. }
  apply H.
Qed.

Lemma min_name_ok ns : ns <> [] -> exists r, min_name ns = Ok r.
Proof. destruct ns; [congruence|]. cbn. eauto. Qed.

Lemma ltb_lt a b : String.ltb a b = true <-> String.compare a b = Lt.
Proof. unfold String.ltb. destruct (String.compare a b); split; congruence. Qed.

Lemma acompare_refl x : Ascii.compare x x = Eq.
Proof. unfold Ascii.compare. apply N.compare_refl. Qed.
Lemma scompare_refl a : String.compare a a = Eq.
Proof. induction a as [|x a IH]; cbn; [reflexivity|]. now rewrite acompare_refl. Qed.

Lemma scompare_trans : forall a b c, String.compare a b = Lt -> String.compare b c = Lt -> String.compare a c = Lt.
Proof.
  induction a as [|x a IH]; intros [|y b] [|z c]; cbn; try discriminate; auto.
  destruct (Ascii.compare x y) eqn:E1; try discriminate; destruct (Ascii.compare y z) eqn:E2; try discriminate; intros H1 H2.
  - apply Ascii.compare_eq_iff in E1, E2. subst. rewrite acompare_refl. eauto.
  - apply Ascii.compare_eq_iff in E1. subst. now rewrite E2.
  - apply Ascii.compare_eq_iff in E2. subst. now rewrite E1.
  - assert (E : Ascii.compare x z = Lt); [|now rewrite E].
    unfold Ascii.compare in *. rewrite N.compare_lt_iff in *. lia.
Qed.

Lemma min_name_least ns r n : min_name ns = Ok r -> In n ns -> String.ltb n r = false.
Proof.
  destruct ns as [|m l]; [discriminate|]. cbn [min_name]. intros [= <-].
  assert (R : forall a, String.ltb a a = false).
  { intros a. unfold String.ltb. now rewrite scompare_refl. }
  assert (H : forall l m, String.ltb m (fold_left (fun m x => if String.ltb x m then x else m) l m) = false /\
      forall x, In x l -> String.ltb x (fold_left (fun m x => if String.ltb x m then x else m) l m) = false).
  { clear m l n. induction l as [|x l IH]; intros m; cbn [fold_left In]; [split; [apply R|tauto]|].
    destruct (String.ltb x m) eqn:E.
    - destruct (IH x) as [H1 H2]. split; [|intros y [<-|I]; auto].
      destruct (String.ltb m _) eqn:E2; [|reflexivity]. apply ltb_lt in E, E2.
      pose proof (scompare_trans _ _ _ E E2) as C. apply ltb_lt in C. congruence.
    - destruct (IH m) as [H1 H2]. split; [auto|]. intros y [<-|I]; auto.
      set (z := fold_left _ l m) in *.
      destruct (String.ltb x z) eqn:E2; [|reflexivity]. exfalso. apply ltb_lt in E2.
      destruct (String.compare m z) eqn:C.
      + apply String.compare_eq_iff in C. rewrite <- C in E2. apply ltb_lt in E2. congruence.
      + apply ltb_lt in C. congruence.
      + (* z < m *) rewrite String.compare_antisym in C. destruct (String.compare z m) eqn:C'; try discriminate.
        pose proof (scompare_trans _ _ _ E2 C') as C2. apply ltb_lt in C2. congruence. }
  intros [<-|I]; [exact (proj1 (H l m))|exact (proj2 (H l m) _ I)].
Qed.

(** ** De-duplication *)

Lemma alias_fold rep names : forall a n,
  assoc_str n (fold_left (fun a n => if String.eqb n rep then a else dict_set n rep a) names a) =
  if mem_str n names && negb (String.eqb n rep) then Some rep else assoc_str n a.
Proof.
  induction names as [|x names IH]; intros a n; cbn [fold_left mem_str existsb]; [reflexivity|].
  rewrite IH. fold (mem_str n names).
  destruct (String.eqb_spec n x) as [->|Nx]; cbn [orb].
  - destruct (String.eqb_spec x rep) as [->|Nr]; cbn [negb andb].
    + now rewrite andb_false_r.
    + rewrite assoc_dict_set, String.eqb_refl. now destruct (mem_str x names && true).
  - destruct (mem_str n names && negb (String.eqb n rep)); [reflexivity|].
    destruct (String.eqb x rep); [reflexivity|]. rewrite assoc_dict_set.
    now rewrite (proj2 (String.eqb_neq n x) Nx).
Qed.

Lemma alias_fold_nodup rep names : forall a, NoDup (map fst a) ->
  NoDup (map fst (fold_left (fun a n => if String.eqb n rep then a else dict_set n rep a) names a)).
Proof.
  induction names as [|x names IH]; intros a N; cbn [fold_left]; [exact N|]. apply IH.
  destruct (String.eqb x rep); auto using dict_set_nodup.
Qed.

Lemma mem_spec n l : mem_str n l = true <-> In n l.
Proof.
  unfold mem_str. rewrite existsb_exists. split.
  - intros (x & H & E). apply String.eqb_eq in E. now subst.
  - intros H. exists n. split; [exact H|apply String.eqb_refl].
Qed.
Lemma mem_false n l : mem_str n l = false <-> ~ In n l.
Proof. rewrite <- mem_spec. destruct (mem_str n l); split; congruence. Qed.

Lemma nodup_app {A} (a b : list A) : NoDup (a ++ b) -> NoDup a /\ NoDup b /\ forall x, In x a -> ~ In x b.
Proof.
  induction a as [|x a IH]; cbn; intros H; [repeat split; auto; constructor|].
  inversion_clear H as [|? ? H1 H2]. destruct (IH H2) as (A1 & A2 & A3). repeat split; auto.
  - constructor; auto. intros I. apply H1, in_or_app. auto.
  - intros y [<-|I]; auto. intros I. apply H1, in_or_app. auto.
Qed.

Lemma dedup_fold tensors : forall gs u0 a0,
  (forall g, In g gs -> g <> [] /\ forall n, In n g -> exists t, assoc_str n tensors = Some t) ->
  NoDup (concat gs) -> NoDup (map fst u0) -> NoDup (map fst a0) ->
  exists u a, fold_left (dedup_step tensors) gs (Ok (u0, a0)) = Ok (u, a) /\
    NoDup (map fst u) /\ NoDup (map fst a) /\
    (forall n, ~ In n (concat gs) -> assoc_str n u = assoc_str n u0 /\ assoc_str n a = assoc_str n a0) /\
    (forall g r n, In g gs -> min_name g = Ok r -> In n g ->
       assoc_str n u = (if String.eqb n r then assoc_str n tensors else assoc_str n u0) /\
       assoc_str n a = (if String.eqb n r then assoc_str n a0 else Some r)).
Proof.
  induction gs as [|g gs IH]; intros u0 a0 H N Nu Na; cbn [fold_left].
  - exists u0, a0. repeat split; auto; contradiction.
  - destruct (H g (or_introl eq_refl)) as [Hg Hd]. destruct (min_name_ok g Hg) as (r & Er).
    pose proof (min_name_in _ _ Er) as Ir. destruct (Hd r Ir) as (t & Et).
    cbn [concat] in N. destruct (nodup_app _ _ N) as (N1 & N2 & N3).
    unfold dedup_step at 2. cbn [rbind]. rewrite Er. cbn [rbind]. unfold get_item. rewrite Et. cbn [rbind].
    destruct (IH (dict_set r t u0)
      (fold_left (fun a n => if String.eqb n r then a else dict_set n r a) g a0)) as (u & a & E & Hu & Ha & O & I); auto.
    { intros g' I. apply H. now right. }
    { now apply dict_set_nodup. }
    { now apply alias_fold_nodup. }
    exists u, a. split; [exact E|]. split; [exact Hu|]. split; [exact Ha|]. split.
    + intros n Hn. destruct (O n) as [O1 O2]; [intros I'; apply Hn, in_or_app; auto|].
      assert (Ng : ~ In n g) by (intros I'; apply Hn, in_or_app; auto).
      rewrite O1, O2, assoc_dict_set, alias_fold. apply mem_false in Ng as Ng'. rewrite Ng'. cbn [andb].
      destruct (String.eqb_spec n r) as [->|]; [contradiction|auto].
    + intros g' r' n [<-|I'] Er' In'.
      * assert (r' = r) as -> by congruence. destruct (O n (N3 n In')) as [O1 O2].
        rewrite O1, O2, assoc_dict_set, alias_fold. apply mem_spec in In' as M. rewrite M. cbn [andb].
        destruct (String.eqb_spec n r) as [->|]; cbn; auto.
      * destruct (I g' r' n I' Er' In') as [I1 I2]. rewrite I1, I2, assoc_dict_set, alias_fold.
        assert (Ng : ~ In n g). { intros X. apply (N3 n X). apply in_concat. eauto. }
        apply mem_false in Ng as Ng'. rewrite Ng'. cbn [andb].
        destruct (String.eqb_spec n r) as [->|]; [contradiction|auto].
Qed.

(** ** Expansion *)

Lemma expand_fold {V} (T : list (string * V)) : forall al e0,
  NoDup (map fst al) -> NoDup (map fst e0) -> (forall n r, In (n, r) al -> assoc_str r T <> None) ->
  exists e, fold_left (expand_step T) al (Ok e0) = Ok e /\ NoDup (map fst e) /\
    forall n, assoc_str n e = match assoc_str n al with Some r => assoc_str r T | None => assoc_str n e0 end.
Proof.
  induction al as [|[n r] al IH]; intros e0 N Ne H; cbn [fold_left].
  - exists e0. auto.
  - cbn [map fst] in N. inversion_clear N as [|? ? Hn N'].
    unfold expand_step at 2. cbn [rbind fst snd].
    destruct (assoc_str r T) as [t|] eqn:Er; [|exfalso; apply (H n r); [now left|exact Er]].
    destruct (IH (dict_set n t e0) N') as (e & E & He & A); [now apply dict_set_nodup|intros; eapply H; right; eauto|].
    exists e. split; [exact E|]. split; [exact He|]. intros x. rewrite A. cbn [assoc_str].
    rewrite assoc_dict_set. destruct (String.eqb_spec x n) as [->|]; [|reflexivity].
    rewrite (proj2 (assoc_none n al) Hn). congruence.
Qed.

Lemma concat_unique {A} (gs : list (list A)) a b x :
  NoDup (concat gs) -> In a gs -> In b gs -> In x a -> In x b -> a = b.
Proof.
  induction gs as [|g gs IH]; cbn; [contradiction|]. intros N Ia Ib Xa Xb.
  destruct (nodup_app _ _ N) as (_ & N2 & N3).
  destruct Ia as [->|Ia], Ib as [->|Ib]; auto.
  - exfalso. apply (N3 x Xa). apply in_concat. eauto.
  - exfalso. apply (N3 x Xb). apply in_concat. eauto.
Qed.

Definition rep_of (gs : list (list string)) (n : string) : string :=
  match find (mem_str n) gs with
  | Some g => match min_name g with Ok r => r | Err _ => n end
  | None => n
  end.

Lemma rep_spec gs g n : NoDup (concat gs) -> In g gs -> In n g -> min_name g = Ok (rep_of gs n).
Proof.
  intros N I H. unfold rep_of. destruct (find (mem_str n) gs) as [g'|] eqn:F.
  - apply find_some in F as [I' M]. apply mem_spec in M.
    assert (g' = g) as -> by (eapply concat_unique; eauto).
    destruct (min_name_ok g) as (r & E); [now intros ->|]. now rewrite E.
  - exfalso. eapply find_none in F; [|exact I]. apply mem_false in F. auto.
Qed.

(** De-duplicating, reading the stored entries by any function [read], and expanding. *)
Theorem dedup_round_trip (d : list (string * tref)) : NoDup (map fst d) ->
  exists u a rep, deduplicate_shared_tensors d = Ok (u, a) /\ NoDup (map fst u) /\
    (forall n t, In (n, t) u -> In (n, t) d) /\
    (forall n t, In (n, t) d -> exists t', In (rep n, t') u /\ same_memory t t') /\
    (forall n1 t1 n2 t2, In (n1, t1) d -> In (n2, t2) d -> (rep n1 = rep n2 <-> same_memory t1 t2)) /\
    (forall n1 t1 n2 t2, In (n1, t1) u -> In (n2, t2) u -> same_memory t1 t2 -> n1 = n2) /\
    (forall n1 t1 n2 t2, In (n1, t1) d -> In (n2, t2) d -> same_memory t1 t2 -> String.ltb n2 (rep n1) = false) /\
    forall V (read : string -> tref -> V),
      exists e, expand_shared_tensors (map (fun e => (fst e, read (fst e) (snd e))) u) a = Ok e /\
        NoDup (map fst e) /\
        forall n v, In (n, v) e <-> exists t t', In (n, t) d /\ In (rep n, t') u /\ v = read (rep n) t'.
Proof.
  intros N. pose proof (groups_spec d N) as G. set (g := tensor_groups d) in *. set (gs := map snd g).
  pose proof (go_nodup _ _ G : NoDup (concat gs)) as NC.
  assert (Hgs : forall x, In x gs -> exists k, In (k, x) g).
  { intros x I. apply in_map_iff in I as ([k y] & E & I). cbn in E. subst. eauto. }
  assert (Hg : forall x, In x gs -> x <> [] /\ forall n, In n x -> exists t, assoc_str n d = Some t).
  { intros x I. destruct (Hgs x I) as (k & I'). split; [eapply (go_nonempty _ _ G); eauto|].
    intros n Hn. destruct (go_mem _ _ G _ _ _ I' Hn) as (t & It & _). exists t. now apply assoc_in. }
  destruct (dedup_fold d gs [] [] Hg NC (NoDup_nil _) (NoDup_nil _)) as (u & a & E & Nu & Na & O & I).
  cbn [assoc_str] in *.
  assert (C : forall n t, In (n, t) d -> exists k ns, In (k, ns) g /\ In ns gs /\ In n ns /\ same_memory t k /\
              min_name ns = Ok (rep_of gs n)).
  { intros n t Hn. destruct (go_all _ _ G _ _ Hn) as (k & ns & I1 & I2 & S). exists k, ns.
    assert (In ns gs) by (apply in_map_iff; exists (k, ns); auto). repeat split; auto; try apply S.
    now apply rep_spec. }
  assert (U : forall n t, In (n, t) u <-> In (n, t) d /\ rep_of gs n = n).
  { intros n t. rewrite (assoc_in n t u Nu). split.
    - intros A. destruct (in_dec string_dec n (concat gs)) as [Ic|Nc]; [|destruct (O n Nc); congruence].
      apply in_concat in Ic as (ns & I1 & I2). pose proof (rep_spec gs ns n NC I1 I2) as R.
      destruct (I ns _ n I1 R I2) as [A' _]. rewrite A' in A.
      destruct (String.eqb_spec n (rep_of gs n)) as [Er|]; [|discriminate]. split; [now apply assoc_in|congruence].
    - intros [Hd Hr]. destruct (C n t Hd) as (k & ns & _ & I1 & I2 & _ & R).
      destruct (I ns _ n I1 R I2) as [A' _]. rewrite A', Hr, String.eqb_refl. now apply assoc_in. }
  assert (R1 : forall n t, In (n, t) d -> exists t', In (rep_of gs n, t') u /\ same_memory t t').
  { intros n t Hd. destruct (C n t Hd) as (k & ns & I0 & I1 & I2 & S & R).
    pose proof (min_name_in _ _ R) as Ir. destruct (go_mem _ _ G _ _ _ I0 Ir) as (t' & Hd' & S').
    exists t'. split; [|eauto using same_trans, same_sym]. apply U. split; [exact Hd'|].
    pose proof (rep_spec gs ns _ NC I1 Ir) as R'. congruence. }
  assert (R2 : forall n1 t1 n2 t2, In (n1, t1) d -> In (n2, t2) d ->
            (rep_of gs n1 = rep_of gs n2 <-> same_memory t1 t2)).
  { intros n1 t1 n2 t2 H1 H2. split.
    - intros Er. destruct (R1 _ _ H1) as (t1' & U1 & S1). destruct (R1 _ _ H2) as (t2' & U2 & S2).
      rewrite Er in U1. apply (assoc_in _ _ _ Nu) in U1, U2. assert (t1' = t2') as -> by congruence.
      eauto using same_trans, same_sym.
    - intros S. destruct (C _ _ H1) as (k1 & ns1 & I01 & I11 & I21 & S1 & M1).
      destruct (C _ _ H2) as (k2 & ns2 & I02 & I12 & I22 & S2 & M2).
      apply In_nth_error in I01 as (i & Hi). apply In_nth_error in I02 as (j & Hj).
      assert (i = j) as ->.
      { eapply (go_keys _ _ G); eauto. eapply same_trans; [apply same_sym, S1|]. eauto using same_trans. }
      congruence. }
  exists u, a, (rep_of gs). split; [exact E|]. split; [exact Nu|].
  split; [intros n t H; now apply U in H|]. split; [exact R1|]. split; [exact R2|]. split; [|split].
  - intros n1 t1 n2 t2 H1 H2 S. apply U in H1 as [H1 E1]. apply U in H2 as [H2 E2].
    apply (R2 _ _ _ _ H1 H2) in S. congruence.
  - intros n1 t1 n2 t2 H1 H2 S. destruct (C _ _ H2) as (k2 & ns2 & _ & I12 & I22 & _ & M2).
    apply (R2 _ _ _ _ H1 H2) in S. rewrite S. eapply min_name_least; eauto.
  - intros V read. set (T := map (fun e => (fst e, read (fst e) (snd e))) u).
    assert (AT : forall k, assoc_str k T = option_map (read k) (assoc_str k u)) by (intros; apply assoc_map).
    assert (NT : NoDup (map fst T)).
    { unfold T. rewrite map_map. cbn. exact Nu. }
    assert (A : forall n r, assoc_str n a = Some r <-> (exists t, In (n, t) d) /\ r = rep_of gs n /\ r <> n).
    { intros n r. split.
      - intros A. destruct (in_dec string_dec n (concat gs)) as [Ic|Nc]; [|destruct (O n Nc); congruence].
        apply in_concat in Ic as (ns & I1 & I2). pose proof (rep_spec gs ns n NC I1 I2) as R.
        destruct (I ns _ n I1 R I2) as [_ A']. rewrite A' in A.
        destruct (String.eqb_spec n (rep_of gs n)) as [|Ne]; [discriminate|]. injection A as <-.
        destruct (Hgs ns I1) as (k & I0). destruct (go_mem _ _ G _ _ _ I0 I2) as (t & It & _). repeat split; eauto.
      - intros ((t & Hd) & -> & Ne). destruct (C n t Hd) as (k & ns & _ & I1 & I2 & _ & R).
        destruct (I ns _ n I1 R I2) as [_ A']. rewrite A'.
        destruct (String.eqb_spec n (rep_of gs n)); [congruence|reflexivity]. }
    destruct (expand_fold T a T Na NT) as (e & Ee & Ne & Ae).
    { intros n r Hr. apply (assoc_in _ _ _ Na) in Hr. apply A in Hr as ((t & Hd) & -> & _).
      destruct (R1 _ _ Hd) as (t' & U' & _). apply (assoc_in _ _ _ Nu) in U'. rewrite AT, U'. discriminate. }
    exists e. split; [exact Ee|]. split; [exact Ne|]. intros n v. rewrite (assoc_in n v e Ne), Ae.
    destruct (assoc_str n a) as [r|] eqn:Er.
    + apply A in Er as ((t & Hd) & -> & _). rewrite AT.
      destruct (R1 _ _ Hd) as (t' & U' & _). pose proof U' as U''. apply (assoc_in _ _ _ Nu) in U''. rewrite U''.
      cbn. split; [intros [= <-]; exists t, t'; auto|]. intros (t0 & t1 & _ & U1 & ->).
      apply (assoc_in _ _ _ Nu) in U1. congruence.
    + rewrite AT. split.
      * destruct (assoc_str n u) as [t|] eqn:Eu; [|discriminate]. cbn. intros [= <-].
        apply (assoc_in _ _ _ Nu) in Eu. pose proof Eu as Eu'. apply U in Eu' as [Hd Hr].
        exists t, t. rewrite Hr. auto.
      * intros (t & t' & Hd & U' & ->). destruct (string_dec (rep_of gs n) n) as [Hr|Hr].
        -- rewrite Hr in *. apply (assoc_in _ _ _ Nu) in U'. now rewrite U'.
        -- assert (X : assoc_str n a = Some (rep_of gs n)) by (apply A; eauto). congruence.
Qed.

(** ** Weights *)

Lemma storage_fold {V} (place : string -> nat) (val : string -> V) ws : forall s,
  (forall k v, In (k, v) ws -> v = val k) ->
  (forall k1 k2, In k1 (map fst ws) -> In k2 (map fst ws) -> place k1 = place k2 -> val k1 = val k2) ->
  forall i, (exists k, In k (map fst ws) /\ place k = i) /\
      (forall k, In k (map fst ws) -> place k = i ->
        fold_left (fun s '(k, v) => fun i => if i =? place k then v else s i) ws s i = val k) \/
    (forall k, In k (map fst ws) -> place k <> i) /\
      fold_left (fun s '(k, v) => fun i => if i =? place k then v else s i) ws s i = s i.
Proof.
  induction ws as [|[k v] ws IH]; intros s Hv Ht i; cbn [fold_left].
  - right. split; [contradiction|reflexivity].
  - assert (v = val k) as -> by (apply Hv; now left).
    destruct (IH (fun i => if i =? place k then val k else s i)) with (i := i) as [[(k' & I & E) F]|[N E]].
    + intros; apply Hv; now right.
    + intros k1 k2 I1 I2. apply Ht; now right.
    + left. split; [exists k'; split; [now right|exact E]|]. intros k2 [<-|I2] E2; [|now apply F].
      cbn [fst] in *. rewrite (F k' I E). apply Ht; [now right|now left|congruence].
    + destruct (Nat.eqb_spec i (place k)) as [->|Ni].
      * left. split; [exists k; split; [now left|reflexivity]|].
        intros k2 [<-|I2] E2; [exact E|]. exfalso. exact (N k2 I2 E2).
      * right. split; [|exact E]. intros k2 [<-|I2]; [cbn [fst]; congruence|now apply N].
Qed.

Lemma filter_nil {A} (f : A -> bool) l : filter f l = [] <-> forall x, In x l -> f x = false.
Proof.
  induction l as [|a l IH]; cbn; [tauto|]. destruct (f a) eqn:E.
  - split; [discriminate|]. intros H. rewrite (H a (or_introl eq_refl)) in E. discriminate.
  - rewrite IH. split; [intros H x [<-|I]; auto|auto].
Qed.

Lemma filter_keys {V} (f : string -> bool) (d : list (string * V)) :
  map fst (filter (fun e => f (fst e)) d) = filter f (map fst d).
Proof. induction d as [|[k v] d IH]; cbn; [reflexivity|]. destruct (f k); cbn; now rewrite IH. Qed.

(** Loading weights: with the same keys every entry ends up with the value read for the entry
    that was saved for it; with other keys the load is refused. *)
Theorem weights_round_trip {V} (sd : list (string * tref)) (keys qs qs' : list string) (place : string -> nat)
    (read : string -> tref -> V) (storage : nat -> V) :
  NoDup (map fst sd) ->
  exists u a, save_weights qs sd = Ok (u, a) /\
    let saved := filter (not_quantizer qs) (map fst sd) in
    let wanted := filter (not_quantizer qs') keys in
    let loaded := load_weights keys qs' place (map (fun e => (fst e, read (fst e) (snd e))) u) a storage in
    (~ (forall k, In k saved <-> In k wanted) -> loaded = Err RuntimeError) /\
    ((forall k, In k saved <-> In k wanted) ->
     exists rep ws, (forall n t, In (n, t) (weight_entries qs sd) ->
         exists t', In (rep n, t') u /\ In (rep n, t') sd /\ same_memory t t') /\
       loaded = Ok ws /\
       ((forall k1 t1 k2 t2, In (k1, t1) sd -> In (k2, t2) sd -> In k1 wanted -> In k2 wanted ->
           place k1 = place k2 -> same_memory t1 t2) ->
        (forall k t', In k wanted -> In (rep k, t') u -> ws (place k) = read (rep k) t') /\
        (forall i, (forall k, In k wanted -> place k <> i) -> ws i = storage i))).
Proof.
  intros N. set (d := weight_entries qs sd).
  assert (Kd : map fst d = filter (not_quantizer qs) (map fst sd)) by apply filter_keys.
  assert (Nd : NoDup (map fst d)).
  { rewrite Kd. apply NoDup_filter, N. }
  destruct (dedup_round_trip d Nd) as (u & a & rep & E & Nu & Hu & R1 & R2 & _ & _ & X).
  destruct (X V read) as (e & Ee & Ne & He).
  exists u, a. split; [exact E|]. cbn zeta. unfold load_weights. rewrite Ee. cbn [rbind]. rewrite <- Kd.
  assert (Ke : forall k, In k (map fst e) <-> In k (map fst d)).
  { intros k. rewrite !in_map_iff. split.
    - intros ([k' v] & <- & I). apply He in I as (t & t' & I & _). exists (k', t). auto.
    - intros ([k' t] & <- & I). destruct (R1 _ _ I) as (t' & U & _). exists (k', read (rep k') t'). split; [reflexivity|].
      apply He. eauto. }
  set (wanted := filter (not_quantizer qs') keys).
  assert (B : filter (fun k => negb (mem_str k (map fst e))) wanted ++
              filter (fun k => negb (mem_str k wanted)) (map fst e) = [] <->
              (forall k, In k (map fst d) <-> In k wanted)).
  { split.
    - intros H. apply app_eq_nil in H as [H1 H2]. rewrite filter_nil in H1, H2. intros k. rewrite <- Ke.
      split; intros I; [specialize (H2 k I)|specialize (H1 k I)]; apply negb_false_iff, mem_spec in H1 || apply negb_false_iff, mem_spec in H2; auto.
    - intros H.
      assert (A1 : filter (fun k => negb (mem_str k (map fst e))) wanted = []).
      { apply filter_nil. intros k I. apply negb_false_iff, mem_spec. apply Ke, H, I. }
      assert (A2 : filter (fun k => negb (mem_str k wanted)) (map fst e) = []).
      { apply filter_nil. intros k I. apply negb_false_iff, mem_spec. apply H, Ke, I. }
      now rewrite A1, A2. }
  destruct (filter (fun k => negb (mem_str k (map fst e))) wanted ++
            filter (fun k => negb (mem_str k wanted)) (map fst e)) as [|z zs] eqn:Ez.
  - split; [intros H; exfalso; apply H, B; reflexivity|]. intros Hk.
    eexists rep, _. split; [|split; [reflexivity|]].
    { intros n t I. destruct (R1 _ _ I) as (t' & U & S). exists t'. repeat split; auto; try apply S.
      apply Hu in U. apply filter_In in U as [U _]. exact U. }
    intros Hp.
    set (val := fun k => match assoc_str k e with Some v => v | None => storage 0 end).
    assert (Ve : forall k v, In (k, v) e -> v = val k).
    { intros k v I. unfold val. apply (assoc_in _ _ _ Ne) in I. now rewrite I. }
    assert (Vr : forall k t t', In (k, t) d -> In (rep k, t') u -> val k = read (rep k) t').
    { intros k t t' I U. symmetry. apply Ve, He. eauto. }
    assert (Dk : forall k, In k wanted -> exists t, In (k, t) d /\ In (k, t) sd).
    { intros k I. apply Hk in I. apply in_map_iff in I as ([k' t] & <- & I). exists t. split; [exact I|].
      now apply filter_In in I. }
    assert (Ht : forall k1 k2, In k1 (map fst e) -> In k2 (map fst e) -> place k1 = place k2 -> val k1 = val k2).
    { intros k1 k2 I1 I2 P. apply Ke, Hk in I1. apply Ke, Hk in I2.
      destruct (Dk _ I1) as (t1 & D1 & S1). destruct (Dk _ I2) as (t2 & D2 & S2).
      pose proof (Hp _ _ _ _ S1 S2 I1 I2 P) as S. apply (R2 _ _ _ _ D1 D2) in S.
      destruct (R1 _ _ D1) as (t' & U & _). rewrite (Vr _ _ _ D1 U).
      rewrite S in U |- *. symmetry. exact (Vr _ _ _ D2 U). }
    split.
    + intros k t' I U. destruct (Dk _ I) as (t & D1 & _).
      destruct (storage_fold place val e storage Ve Ht (place k)) as [[_ F]|[F _]].
      * rewrite (F k); [now apply (Vr k t)| |reflexivity]. apply Ke, Hk, I.
      * exfalso. apply (F k); [|reflexivity]. apply Ke, Hk, I.
    + intros i Hi. destruct (storage_fold place val e storage Ve Ht i) as [[(k & I & P) _]|[_ F]]; [|exact F].
      exfalso. apply (Hi k); [|exact P]. apply Hk, Ke, I.
  - split; [reflexivity|]. intros H. apply B in H. discriminate.
Qed.
