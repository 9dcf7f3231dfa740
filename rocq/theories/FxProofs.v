(** Proofs about the annotation pass. *)
From Verif Require Import Prelude EncModel AffineModel FxModel FxSpec.
From Coq Require Import QArith Relations.
Local Open Scope nat_scope.
Local Open Scope list_scope.

(** ** Node lists *)

Lemma node_unique g n m : NoDup (map n_id g) -> In n g -> In m g -> n_id n = n_id m -> n = m.
Proof.
  induction g as [|a g IH]; cbn; intros Hn Hi Hm E; [contradiction|].
  inversion_clear Hn as [|? ? Ha Hg].
  destruct Hi as [->|Hi], Hm as [->|Hm]; auto.
  - exfalso; apply Ha. rewrite E. now apply in_map.
  - exfalso; apply Ha. rewrite <- E. now apply in_map.
Qed.

Lemma find_some g k n : find_node g k = Some n -> In n g /\ n_id n = k.
Proof.
  unfold find_node; intros H. apply find_some in H as [H E]. now apply Nat.eqb_eq in E.
Qed.

Lemma find_in g n : NoDup (map n_id g) -> In n g -> find_node g (n_id n) = Some n.
Proof.
  intros Hn Hi. unfold find_node. destruct (find _ g) as [m|] eqn:E.
  - apply List.find_some in E as [Hm E]. apply Nat.eqb_eq in E. f_equal.
    eapply node_unique; eauto.
  - eapply find_none in E; [|exact Hi]. now rewrite Nat.eqb_refl in E.
Qed.

Lemma in_ids g k : In k (map n_id g) -> exists n, In n g /\ n_id n = k.
Proof. rewrite in_map_iff. intros (n & E & H). eauto. Qed.

Lemma before_in g pre n post a :
  ordered g -> g = pre ++ n :: post -> In a (n_args n) -> exists m, In m pre /\ n_id m = a.
Proof. intros [_ H] E Ha. apply in_ids. eapply H; eauto. Qed.

Lemma args_in g n a : ordered g -> In n g -> In a (n_args n) -> exists m, In m g /\ n_id m = a.
Proof.
  intros Ho Hn Ha. apply in_split in Hn as (pre & post & E).
  destruct (before_in _ _ _ _ _ Ho E Ha) as (m & Hm & Em). exists m. split; [|exact Em].
  rewrite E. apply in_or_app. now left.
Qed.

Lemma filter_true {A} (l : list A) : filter (fun _ => true) l = l.
Proof. induction l; cbn; congruence. Qed.

(** ** Skipping a set of nodes *)

Inductive originP (P : node -> Prop) (g : list node) : nat -> nat -> Prop :=
| oP_kept n : In n g -> ~ P n -> originP P g (n_id n) (n_id n)
| oP_skip n x rest b : In n g -> P n -> n_args n = x :: rest -> originP P g x b ->
    originP P g (n_id n) b.

Lemma origin_originP g a b : origin g a b <-> originP is_qdq g a b.
Proof.
  split; induction 1; econstructor; eauto.
Qed.

Lemma originP_target P g a b : originP P g a b -> exists n, In n g /\ n_id n = b /\ ~ P n.
Proof. induction 1; eauto. Qed.

Lemma originP_before P g pre n post a b :
  ordered g -> g = pre ++ n :: post -> In a (map n_id pre) -> originP P g a b ->
  In b (map n_id pre).
Proof.
  intros Ho E Ha H. induction H as [m Hm HP|m x rest b Hm HP Ex H IH]; [exact Ha|].
  apply IH. apply in_ids in Ha as (m' & Hm' & Em).
  assert (m' = m) as ->.
  { eapply node_unique; [exact (proj1 Ho)| |exact Hm|exact Em].
    rewrite E. apply in_or_app; now left. }
  apply in_split in Hm' as (p1 & p2 & ->).
  destruct Ho as [_ Ho]. rewrite <- app_assoc in E. cbn in E.
  specialize (Ho _ _ _ E x). rewrite Ex in Ho. specialize (Ho (or_introl eq_refl)).
  rewrite map_app. apply in_or_app; now left.
Qed.

Lemma originP_fun P g a b c :
  NoDup (map n_id g) -> originP P g a b -> originP P g a c -> b = c.
Proof.
  intros Hn H; revert c. induction H as [m Hm HP|m x rest b Hm HP Ex H IH]; intros c Hc.
  - inversion Hc as [m' Hm' HP' E|m' x' r' c' Hm' HP' Ex' Hc' E]; subst; [reflexivity|].
    assert (m' = m) as -> by (eapply node_unique; eauto). contradiction.
  - inversion Hc as [m' Hm' HP' E|m' x' r' c' Hm' HP' Ex' Hc' E]; subst.
    + assert (m' = m) as -> by (eapply node_unique; eauto). contradiction.
    + assert (m' = m) as -> by (eapply node_unique; eauto).
      apply IH. congruence.
Qed.

(** Skipping one more node [q], whose argument has the origin [x]. *)
Lemma originP_add (dn : list node) g q xq rest x a b :
  ordered g -> In q g -> ~ In q dn -> n_args q = xq :: rest ->
  originP (fun m => In m dn) g xq x -> x <> n_id q ->
  originP (fun m => In m dn) g a b ->
  originP (fun m => In m (dn ++ [q])) g a (if b =? n_id q then x else b).
Proof.
  intros Ho Hq Hnq Eq Hx Hxq.
  assert (G : forall a b, originP (fun m => In m dn) g a b -> b <> n_id q ->
    originP (fun m => In m (dn ++ [q])) g a b).
  { induction 1 as [m Hm HP|m y r b' Hm HP Ey H IH]; intros Hb.
    - constructor; [exact Hm|]. rewrite in_app_iff. cbn. intros [?|[<-|[]]]; auto.
    - econstructor 2; [exact Hm| |exact Ey|exact (IH Hb)]. apply in_or_app; now left. }
  induction 1 as [m Hm HP|m y r b' Hm HP Ey H IH].
  - destruct (Nat.eqb_spec (n_id m) (n_id q)) as [E|E].
    + assert (m = q) as -> by (eapply node_unique; [exact (proj1 Ho)|exact Hm|exact Hq|exact E]).
      econstructor 2; [exact Hq| |exact Eq|now apply G]. apply in_or_app; right; now left.
    + apply G; [|exact E]. now constructor.
  - econstructor 2; [exact Hm| |exact Ey|exact IH]. apply in_or_app; now left.
Qed.

(** ** Quantization parameters *)

Section Annotate.
Context (params : nat -> option (list Q)) (g : list node) (meta0 : nat -> option spec).
Context (Ho : ordered g).

Definition good_dict (d : list (nat * list Q)) : Prop :=
  forall name v, In (name, v) d -> params name = Some v.

Lemma param_entry_named k e : param_entry params g k = Ok e ->
  named params g k (snd e) /\ params (fst e) = Some (snd e) /\
  exists p, find_node g k = Some p /\ str_target p = Some (fst e).
Proof.
  unfold param_entry. destruct (find_node g k) as [p|] eqn:E; [|discriminate].
  destruct (str_target p) as [s|] eqn:Es; [|discriminate].
  destruct (params s) as [v|] eqn:Ep; [|discriminate]. intros [= <-]. cbn.
  destruct (find_some _ _ _ E) as [Hp <-].
  repeat split; auto.
  - exists p, s. repeat split; auto. unfold str_target in Es. destruct (n_op p); try discriminate;
      injection Es as ->; auto.
  - exists p. split; auto.
Qed.

Lemma named_entry k v : named params g k v ->
  exists p name, find_node g k = Some p /\ str_target p = Some name /\ params name = Some v /\
    ~ is_qdq p.
Proof.
  intros (p & name & Hp & <- & Hop & Ev). exists p, name.
  repeat split; auto.
  - apply find_in; [exact (proj1 Ho)|exact Hp].
  - unfold str_target. destruct Hop as [-> | ->]; reflexivity.
  - unfold is_qdq. destruct Hop as [-> | ->]; auto.
Qed.

Lemma named_entry_ok k v : named params g k v ->
  exists name, param_entry params g k = Ok (name, v).
Proof.
  intros H. destruct (named_entry _ _ H) as (p & name & Ef & Es & Ev & _).
  exists name. unfold param_entry. now rewrite Ef, Es, Ev.
Qed.

Lemma rmapM_entries ks es : rmapM (param_entry params g) ks = Ok es ->
  (forall e, In e es -> params (fst e) = Some (snd e)) /\
  (forall k, In k ks -> exists v name, named params g k v /\ In (name, v) es /\
     exists p, find_node g k = Some p /\ str_target p = Some name).
Proof.
  revert es; induction ks as [|k ks IH]; cbn [rmapM]; intros es H.
  - injection H as <-. split; intros ? [].
  - destruct (param_entry params g k) as [[name v]|] eqn:E; [|discriminate]. cbn [rbind] in H.
    destruct (rmapM _ ks) as [es'|] eqn:E'; [|discriminate]. cbn [rbind] in H. injection H as <-.
    destruct (param_entry_named _ _ E) as (Hn & Hp & p & Ef & Es). cbn in *.
    destruct (IH _ eq_refl) as [I1 I2]. split.
    + intros e [<-|He]; auto.
    + intros k' [<-|Hk]; [exists v, name; eauto 8|].
      destruct (I2 _ Hk) as (v' & name' & ? & ? & ?). exists v', name'. eauto.
Qed.

Lemma parameters_spec l acc d :
  fold_left (fun acc n => let? d := acc in
       let? entries := rmapM (param_entry params g) (skipn 1 (n_args n)) in
       Ok (rev entries ++ d)) l acc = Ok d ->
  exists d0, acc = Ok d0 /\ (good_dict d0 -> good_dict d) /\ incl d0 d /\
    forall n k, In n l -> In k (skipn 1 (n_args n)) ->
      exists v name, named params g k v /\ In (name, v) d /\
        exists p, find_node g k = Some p /\ str_target p = Some name.
Proof.
  revert acc; induction l as [|n l IH]; cbn [fold_left]; intros acc H.
  - subst acc. exists d. repeat split; auto using incl_refl. intros ? ? [].
  - apply IH in H as (d1 & E & Hg & Hi & Hall). destruct acc as [d0|]; [|discriminate].
    cbn [rbind] in E. destruct (rmapM _ _) as [es|] eqn:Em; [|discriminate].
    cbn [rbind] in E. injection E as <-.
    destruct (rmapM_entries _ _ Em) as [I1 I2]. exists d0. repeat split.
    + intros Hd0. apply Hg. intros name v Hin. apply in_app_or in Hin as [Hin|Hin]; auto.
      apply in_rev in Hin. exact (I1 _ Hin).
    + intros e He. apply Hi. apply in_or_app; now right.
    + intros n' k [<-|Hn] Hk; [|eauto].
      destruct (I2 _ Hk) as (v & name & Hnm & Hin & Hp). exists v, name. split; [exact Hnm|].
      split; [|exact Hp]. apply Hi. apply in_or_app; left. now apply -> in_rev.
Qed.

Lemma parameters_total l d0 :
  (forall n k, In n l -> In k (skipn 1 (n_args n)) -> exists v, named params g k v) ->
  exists d, fold_left (fun acc n => let? d := acc in
       let? entries := rmapM (param_entry params g) (skipn 1 (n_args n)) in
       Ok (rev entries ++ d)) l (Ok d0) = Ok d.
Proof.
  revert d0; induction l as [|n l IH]; intros d0 H; cbn [fold_left]; [eauto|].
  assert (G : exists es, rmapM (param_entry params g) (skipn 1 (n_args n)) = Ok es).
  { assert (Hk : forall k, In k (skipn 1 (n_args n)) -> exists v, named params g k v)
      by (intros; eapply H; [now left|auto]).
    revert Hk. generalize (skipn 1 (n_args n)) as ks.
    induction ks as [|k ks IHk]; intros Hk; cbn [rmapM]; [eauto|].
    destruct (Hk k (or_introl eq_refl)) as (v & Hv).
    destruct (named_entry_ok _ _ Hv) as (name & ->).
    destruct IHk as (es & ->); [intros; apply Hk; now right|]. cbn. eauto. }
  destruct G as (es & ->). cbn [rbind]. apply IH. intros; eapply H; [right|]; eauto.
Qed.

(** ** The invariant of the loop *)

Context (d : list (nat * list Q)).
Context (Hd : good_dict d).
Context (Hall : forall n k, In n g -> is_qdq n -> In k (skipn 1 (n_args n)) ->
  exists v name, named params g k v /\ In (name, v) d /\
    exists p, find_node g k = Some p /\ str_target p = Some name).

Definition matches (dn : list node) (n n' : node) : Prop :=
  n_id n' = n_id n /\ n_op n' = n_op n /\ n_shape n' = n_shape n /\
  Forall2 (originP (fun m => In m dn) g) (n_args n) (n_args n').

Definition left_over (dn : list node) : list node :=
  filter (fun n => negb (existsb (Nat.eqb (n_id n)) (map n_id dn))) g.

Record inv (dn todo : list node) (st : graph spec) : Prop := {
  i_qs : filter is_quantization_node g = dn ++ todo;
  i_nodes : Forall2 (matches dn) (left_over dn) (g_nodes st);
  i_other : forall x, (forall q, In q dn -> ~ quantizes g q x) -> g_meta st x = meta0 x;
  i_last : forall d1 q d2 x, dn = d1 ++ q :: d2 -> quantizes g q x ->
    (forall q', In q' d2 -> ~ quantizes g q' x) ->
    exists s, spec_of params g q x s /\ g_meta st x = Some s
}.

Lemma is_qdq_iff n : is_qdq n <-> is_quantization_node n = true.
Proof. unfold is_qdq, is_quantization_node. destruct (n_op n); split; auto; discriminate. Qed.

Lemma NoDup_filter_ids (f : node -> bool) l : NoDup (map n_id l) -> NoDup (map n_id (filter f l)).
Proof.
  induction l as [|a l IH]; cbn; intros H; [constructor|]. inversion_clear H as [|? ? Ha Hl].
  destruct (f a); cbn; auto. constructor; auto.
  intros Hi. apply Ha. apply in_map_iff in Hi as (b & E & Hb). apply filter_In in Hb as [Hb _].
  rewrite <- E. now apply in_map.
Qed.

Lemma left_over_in dn n : In n (left_over dn) <-> In n g /\ ~ In (n_id n) (map n_id dn).
Proof.
  unfold left_over. rewrite filter_In. split; intros [H1 H2]; split; auto.
  - intros Hi. assert (existsb (Nat.eqb (n_id n)) (map n_id dn) = true) as E.
    { apply existsb_exists. exists (n_id n). split; auto. apply Nat.eqb_refl. }
    rewrite E in H2. discriminate.
  - destruct (existsb _ _) eqn:E; [|reflexivity]. exfalso. apply H2.
    apply existsb_exists in E as (k & Hk & E). apply Nat.eqb_eq in E. now rewrite E.
Qed.

Lemma matches_ids dn l l' : Forall2 (matches dn) l l' -> map n_id l' = map n_id l.
Proof. induction 1 as [|n n' l l' H _ IH]; cbn; [reflexivity|]. f_equal; [apply H|exact IH]. Qed.

Lemma F2_in_l {A B} (R : A -> B -> Prop) l l' a : Forall2 R l l' -> In a l -> exists b, In b l' /\ R a b.
Proof.
  induction 1 as [|x y l l' H _ IH]; intros []; subst; [exists y; split; [now left|auto]|].
  destruct (IH H0) as (b & ? & ?). exists b; split; [now right|auto].
Qed.
Lemma F2_in_r {A B} (R : A -> B -> Prop) l l' b : Forall2 R l l' -> In b l' -> exists a, In a l /\ R a b.
Proof.
  induction 1 as [|x y l l' H _ IH]; intros []; subst; [exists x; split; [now left|auto]|].
  destruct (IH H0) as (a & ? & ?). exists a; split; [now right|auto].
Qed.

Lemma inv_find dn todo st n : inv dn todo st -> In n g -> ~ In (n_id n) (map n_id dn) ->
  exists n', find_node (g_nodes st) (n_id n) = Some n' /\ matches dn n n'.
Proof.
  intros I Hn Hd'. destruct (F2_in_l _ _ _ n (i_nodes _ _ _ I)) as (n' & Hn' & M).
  { apply left_over_in; auto. }
  exists n'. split; [|exact M]. destruct M as (<- & _). apply find_in; [|exact Hn'].
  rewrite (matches_ids _ _ _ (i_nodes _ _ _ I)). apply NoDup_filter_ids. exact (proj1 Ho).
Qed.

Lemma dn_qdq dn todo st q : inv dn todo st -> In q (dn ++ todo) -> In q g /\ is_qdq q.
Proof.
  intros I H. rewrite <- (i_qs _ _ _ I) in H. apply filter_In in H as [H E].
  split; auto. now apply is_qdq_iff.
Qed.

Lemma dn_ids dn todo st n : inv dn todo st -> In n g -> In (n_id n) (map n_id dn) -> In n dn.
Proof.
  intros I Hn Hi. apply in_ids in Hi as (m & Hm & E).
  assert (m = n) as <-; [|exact Hm].
  eapply node_unique; [exact (proj1 Ho)| |exact Hn|exact E].
  eapply dn_qdq; [exact I|]. apply in_or_app; now left.
Qed.

(** Everything that stands before the next node and is a (de)quantize node has been done. *)
Lemma earlier_done dn q todo pre post m :
  filter is_quantization_node g = dn ++ q :: todo -> g = pre ++ q :: post ->
  In m pre -> is_qdq m -> In m dn.
Proof.
  intros E Eg Hm Hq.
  assert (Nd : NoDup (filter is_quantization_node g)).
  { apply NoDup_filter. exact (NoDup_map_inv _ _ (proj1 Ho)). }
  assert (E2 : filter is_quantization_node g =
    filter is_quantization_node pre ++ q :: filter is_quantization_node post).
  { rewrite Eg, filter_app. cbn. f_equal.
    assert (Hqq : In q (filter is_quantization_node g)) by (rewrite E; apply in_or_app; right; now left).
    apply filter_In in Hqq as [_ ->]. reflexivity. }
  assert (G : forall (l1 l2 r1 r2 : list node), NoDup (l1 ++ q :: r1) ->
    l1 ++ q :: r1 = l2 ++ q :: r2 -> l1 = l2).
  { clear. induction l1 as [|a l1 IH]; intros l2 r1 r2 N E; destruct l2 as [|b l2]; cbn in *; auto.
    - injection E as <- E. inversion_clear N as [|? ? Hx _]. exfalso; apply Hx. rewrite E.
      apply in_or_app; right; now left.
    - injection E as -> E. inversion_clear N as [|? ? Hx _]. exfalso; apply Hx.
      apply in_or_app; right; now left.
    - injection E as <- E. inversion_clear N as [|? ? _ N']. f_equal. eapply IH; eauto. }
  rewrite E2 in E, Nd. apply G in E; [|exact Nd]. rewrite <- E. apply filter_In.
  split; [exact Hm|now apply is_qdq_iff].
Qed.

Lemma originP_done dn g' a b :
  (forall m, In m dn -> is_qdq m) -> originP (fun m => In m dn) g' a b ->
  (exists n, In n g' /\ n_id n = b /\ ~ is_qdq n) -> NoDup (map n_id g') -> origin g' a b.
Proof.
  intros Hdn H (n & Hn & Eb & Hq) Nd. induction H as [m Hm HP|m y r b' Hm HP Ey H IH].
  - assert (n = m) as -> by (eapply node_unique; eauto). now constructor.
  - econstructor 2; [exact Hm|apply Hdn, HP|exact Ey|auto].
Qed.

(** The first argument of the next node, as the loop sees it. *)
Lemma next_data dn q todo st : inv dn (q :: todo) st ->
  exists q', find_node (g_nodes st) (n_id q) = Some q' /\ matches dn q q' /\ ~ In q dn /\
    In q g /\ is_qdq q /\
    forall x rest, n_args q' = x :: rest ->
      exists xq r, n_args q = xq :: r /\ originP (fun m => In m dn) g xq x /\ x <> n_id q /\
        origin g (n_id q) x /\ exists xn, In xn g /\ n_id xn = x /\ ~ is_qdq xn.
Proof.
  intros I.
  assert (Hq : In q g /\ is_qdq q) by (eapply dn_qdq; [exact I|apply in_or_app; right; now left]).
  assert (Hnq : ~ In q dn).
  { assert (N : NoDup (dn ++ q :: todo)).
    { rewrite <- (i_qs _ _ _ I). apply NoDup_filter. exact (NoDup_map_inv _ _ (proj1 Ho)). }
    apply NoDup_remove_2 in N. intros H; apply N, in_or_app; now left. }
  destruct (inv_find _ _ _ q I) as (q' & Ef & M); [apply Hq| |].
  { intros H. apply Hnq. eapply dn_ids; eauto. apply Hq. }
  exists q'. repeat split; try apply M; try apply Hq; auto.
  intros x rest Ex. destruct M as (_ & _ & _ & Ma).
  inversion Ma as [E1 E2|xq x1 r r' Hx Hr E1 E2].
  { rewrite <- E2 in Ex. discriminate. }
  rewrite <- E2 in Ex. injection Ex as -> ->.
  exists xq, r. split; [reflexivity|]. split; [exact Hx|].
  pose proof (in_split _ _ (proj1 Hq)) as (pre & post & Eg).
  assert (Hb : In x (map n_id pre)).
  { eapply originP_before; [exact Ho|exact Eg| |exact Hx]. destruct Ho as [_ Ho'].
    apply (Ho' _ _ _ Eg). rewrite <- E1. now left. }
  assert (Hne : x <> n_id q).
  { intros ->. destruct Ho as [Nd _]. rewrite Eg, map_app in Nd. cbn in Nd.
    apply NoDup_remove_2 in Nd. apply Nd, in_or_app; now left. }
  assert (Hxn : exists xn, In xn g /\ n_id xn = x /\ ~ is_qdq xn).
  { apply in_ids in Hb as (xn & Hxn & Exn). exists xn.
    assert (Hg : In xn g) by (rewrite Eg; apply in_or_app; now left).
    repeat split; auto. intros Hqd.
    assert (Hdn : In xn dn).
    { eapply earlier_done; [exact (i_qs _ _ _ I)|exact Eg|exact Hxn|exact Hqd]. }
    destruct (originP_target _ _ _ _ Hx) as (n & Hn & En & Hnd). apply Hnd.
    assert (n = xn) as -> by (eapply node_unique; [exact (proj1 Ho)|auto|auto|congruence]).
    exact Hdn. }
  split; [exact Hne|]. split; [|exact Hxn].
  econstructor 2; [apply Hq|apply Hq|rewrite <- E1; reflexivity|].
  eapply originP_done; [|exact Hx|exact Hxn|exact (proj1 Ho)].
  intros m Hm. apply (dn_qdq _ _ _ m I). apply in_or_app; now left.
Qed.

(** Scale and offset arguments are untouched. *)
Lemma param_arg dn todo st q k k' :
  inv dn todo st -> In q g -> is_qdq q -> In k (skipn 1 (n_args q)) ->
  originP (fun m => In m dn) g k k' ->
  exists v name, named params g k v /\ k' = k /\ quant_param d name = Ok v /\
    param_value d (g_nodes st) k = Ok v.
Proof.
  intros I Hq Hqd Hk Hor.
  destruct (Hall _ _ Hq Hqd Hk) as (v & name & Hn & Hin & p & Ef & Es).
  destruct (find_some _ _ _ Ef) as [Hp Ep].
  assert (Hpq : ~ is_qdq p).
  { intros Hx. unfold str_target in Es. unfold is_qdq in Hx. destruct (n_op p); try discriminate; auto. }
  assert (Hpd : ~ In p dn).
  { intros Hx. apply Hpq. apply (dn_qdq _ _ _ p I). apply in_or_app; now left. }
  assert (k' = k) as ->.
  { eapply originP_fun; [exact (proj1 Ho)|exact Hor|]. rewrite <- Ep. now constructor. }
  assert (Qp : quant_param d name = Ok v).
  { unfold quant_param. destruct (find _ d) as [[name' v']|] eqn:Ed.
    - apply List.find_some in Ed as [Hi E]. apply Nat.eqb_eq in E as ->.
      apply Hd in Hi. apply Hd in Hin. congruence.
    - eapply find_none in Ed; [|exact Hin]. cbn in Ed. now rewrite Nat.eqb_refl in Ed. }
  exists v, name. repeat split; auto.
  unfold param_value. destruct (inv_find _ _ _ p I Hp) as (p' & Ef' & (_ & Eo & _)).
  { intros Hx. apply Hpd. eapply dn_ids; eauto. }
  rewrite <- Ep, Ef'. unfold str_target in *. rewrite Eo. now rewrite Es.
Qed.

Lemma replaced dn q xq r x l l' :
  In q g -> ~ In q dn -> n_args q = xq :: r ->
  originP (fun m => In m dn) g xq x -> x <> n_id q ->
  Forall2 (matches dn) l l' ->
  Forall2 (matches (dn ++ [q])) l (replace_uses l' (n_id q) x).
Proof.
  intros Hq Hnq Eq Hx Hne. induction 1 as [|n n' l l' (E1 & E2 & E3 & E4) _ IH]; cbn; constructor; auto.
  repeat split; auto. cbn. revert E4. generalize (n_args n) (n_args n').
  induction 1 as [|a b la lb Ha _ IHa]; cbn; constructor; auto.
  eapply originP_add; eauto.
Qed.

Lemma left_over_snoc dn q : left_over (dn ++ [q]) =
  filter (fun n => negb (n_id n =? n_id q)) (left_over dn).
Proof.
  unfold left_over. rewrite map_app. clear. induction g as [|n l IH]; cbn [filter]; [reflexivity|].
  rewrite existsb_app. cbn [map existsb]. rewrite orb_false_r.
  destruct (existsb _ (map n_id dn)); cbn [orb negb filter]; [exact IH|].
  destruct (n_id n =? n_id q); cbn [negb]; [exact IH|]. f_equal. exact IH.
Qed.

Lemma F2_filter dn l l' (f : nat -> bool) : Forall2 (matches dn) l l' ->
  Forall2 (matches dn) (filter (fun n => f (n_id n)) l) (filter (fun n => f (n_id n)) l').
Proof.
  induction 1 as [|n n' l l' M _ IH]; cbn; [constructor|].
  rewrite (proj1 M). destruct (f (n_id n)); [constructor|]; auto.
Qed.

Lemma erase_ok l k x : x <> k ->
  erase_node (replace_uses l k x) k =
  Ok (filter (fun n => negb (n_id n =? k)) (replace_uses l k x)).
Proof.
  intros Hx. unfold erase_node.
  assert (existsb (fun n => existsb (Nat.eqb k) (n_args n)) (replace_uses l k x) = false) as ->;
    [|reflexivity].
  induction l as [|n l IH]; cbn; [reflexivity|]. unfold replace_uses in IH.
  rewrite IH, orb_false_r.
  induction (n_args n) as [|a la IHa]; cbn; [reflexivity|]. rewrite IHa, orb_false_r.
  destruct (Nat.eqb_spec a k); apply Nat.eqb_neq; congruence.
Qed.

Lemma inv_nodes_step dn q todo st xq r x :
  inv dn (q :: todo) st -> In q g -> ~ In q dn -> n_args q = xq :: r ->
  originP (fun m => In m dn) g xq x -> x <> n_id q ->
  Forall2 (matches (dn ++ [q])) (left_over (dn ++ [q]))
    (filter (fun n => negb (n_id n =? n_id q)) (replace_uses (g_nodes st) (n_id q) x)).
Proof.
  intros I Hq Hnq Eq Hx Hne. rewrite left_over_snoc.
  apply (F2_filter _ _ _ (fun i => negb (i =? n_id q))).
  eapply replaced; eauto. apply I.
Qed.

Lemma quantizes_fun q x y : quantizes g q x -> quantizes g q y -> x = y.
Proof.
  intros (_ & _ & H1) (_ & _ & H2). apply origin_originP in H1, H2.
  eapply originP_fun; eauto. exact (proj1 Ho).
Qed.

Lemma zero_bool os : forallb (fun x => Qeq_bool x 0) os = all_zero os.
Proof. reflexivity. Qed.

Lemma node_spec_sound dn q todo st q' x rest s :
  inv dn (q :: todo) st -> matches dn q q' -> In q g -> is_qdq q ->
  n_args q' = x :: rest -> (exists xn, In xn g /\ n_id xn = x /\ ~ is_qdq xn) ->
  node_spec d (g_nodes st) q' = Ok s -> spec_of params g q x s.
Proof.
  intros I (_ & Eo & _ & Ma) Hq Hqd Ex (xn & Hxn & Exn & Hxq). unfold node_spec. rewrite Eo.
  destruct (n_op q) as [| | |tile bits| |] eqn:Eop; try discriminate.
  rewrite Ex. destruct rest as [|sc [|o more]]; try discriminate.
  rewrite Ex in Ma.
  destruct (n_args q) as [|xq [|sc0 [|o0 more0]]] eqn:Eq; try now (inversion Ma as [|? ? ? ? _ Ma1]; inversion Ma1 as [|? ? ? ? _ Ma2]; inversion Ma2).
  inversion Ma as [|? ? ? ? Hx Ma1]; subst. inversion Ma1 as [|? ? ? ? Hs Ma2]; subst.
  inversion Ma2 as [|? ? ? ? Hof Ma3]; subst.
  destruct (param_arg _ _ _ q sc0 sc I Hq Hqd) as (ss & ns & Hns & -> & _ & Vs); auto.
  { rewrite Eq. cbn; auto. }
  destruct (param_arg _ _ _ q o0 o I Hq Hqd) as (os & no & Hno & -> & _ & Vo); auto.
  { rewrite Eq. cbn; auto. }
  rewrite Vs, Vo. cbn [rbind]. unfold ff_quantizer_spec.
  destruct bits as [b|]; [|discriminate].
  destruct (inv_find _ _ _ xn I Hxn) as (xn' & Ef & (_ & _ & Esh & _)).
  { intros Hi. apply Hxq. apply (dn_qdq _ _ _ xn I). apply in_or_app; left.
    eapply dn_ids; eauto. }
  rewrite Ef, Esh. intros [= <-].
  exists tile, b, xq, sc0, o0, more0, ss, os, xn. repeat split; auto.
Qed.

Lemma snoc_split {A} (dn : list A) q d1 q1 d2 : dn ++ [q] = d1 ++ q1 :: d2 ->
  (d2 = [] /\ d1 = dn /\ q1 = q) \/ exists d2', d2 = d2' ++ [q] /\ dn = d1 ++ q1 :: d2'.
Proof.
  destruct d2 as [|a d2] using rev_ind; intros E.
  - apply app_inj_tail in E as [-> ->]. auto.
  - right. exists d2. change (d1 ++ q1 :: d2 ++ [a]) with (d1 ++ (q1 :: d2) ++ [a]) in E.
    rewrite app_assoc in E. apply app_inj_tail in E as [-> ->]. auto.
Qed.

Lemma step_inv dn q todo st st' :
  inv dn (q :: todo) st -> annotate_step d st (n_id q) = Ok st' -> inv (dn ++ [q]) todo st'.
Proof.
  intros I. destruct (next_data _ _ _ _ I) as (q' & Ef & M & Hnq & Hq & Hqd & Hdata).
  unfold annotate_step. rewrite Ef. pose proof (proj1 (proj2 M)) as Eo.
  destruct (n_op q') as [| | |tile bits|tile|] eqn:Eq'.
  1-3: unfold is_qdq in Hqd; rewrite <- Eo in Hqd; contradiction.
  3: unfold is_qdq in Hqd; rewrite <- Eo in Hqd; contradiction.
  - (* quantize *)
    destruct (node_spec d (g_nodes st) q') as [s|] eqn:Es; [|discriminate]. cbn [rbind].
    destruct (n_args q') as [|x rest] eqn:Ea; [discriminate|].
    destruct (Hdata _ _ eq_refl) as (xq & r & Exq & Hx & Hne & Hor & Hxn).
    rewrite erase_ok by exact Hne. cbn [rbind].
    match goal with |- Ok ?a = _ -> _ => intros E; assert (st' = a) as -> by congruence; clear E end.
    pose proof (node_spec_sound _ _ _ _ _ _ _ _ I M Hq Hqd Ea Hxn Es) as Hs.
    assert (Hquant : quantizes g q x).
    { repeat split; auto. unfold is_quantize. rewrite <- Eo. exact Logic.I. }
    constructor; cbn [g_nodes g_meta].
    + rewrite <- app_assoc. exact (i_qs _ _ _ I).
    + eapply inv_nodes_step; eauto.
    + intros y Hy. unfold set_meta. destruct (Nat.eqb_spec y x) as [->|Hyx].
      * exfalso. eapply Hy; [|exact Hquant]. apply in_or_app; right; now left.
      * apply (i_other _ _ _ I). intros q1 H1. apply Hy, in_or_app; now left.
    + intros d1 q1 d2 y E Hy Hlast. unfold set_meta.
      destruct (snoc_split _ _ _ _ _ E) as [(-> & -> & ->)|(d2' & -> & ->)].
      * rewrite (quantizes_fun _ _ _ Hy Hquant), Nat.eqb_refl. eauto.
      * destruct (Nat.eqb_spec y x) as [->|Hyx].
        -- exfalso. eapply Hlast; [|exact Hquant]. apply in_or_app; right; now left.
        -- eapply (i_last _ _ _ I); eauto. intros q2 H2. apply Hlast, in_or_app; now left.
  - (* dequantize *)
    destruct (n_args q') as [|x rest] eqn:Ea; [discriminate|].
    destruct (Hdata _ _ eq_refl) as (xq & r & Exq & Hx & Hne & Hor & Hxn).
    rewrite erase_ok by exact Hne. cbn [rbind].
    match goal with |- Ok ?a = _ -> _ => intros E; assert (st' = a) as -> by congruence; clear E end.
    assert (Hno : forall y, ~ quantizes g q y).
    { intros y (_ & Hb & _). unfold is_quantize in Hb. now rewrite <- Eo in Hb. }
    constructor; cbn [g_nodes g_meta].
    + rewrite <- app_assoc. exact (i_qs _ _ _ I).
    + eapply inv_nodes_step; eauto.
    + intros y Hy. apply (i_other _ _ _ I). intros q1 H1. apply Hy, in_or_app; now left.
    + intros d1 q1 d2 y E Hy Hlast.
      destruct (snoc_split _ _ _ _ _ E) as [(-> & -> & ->)|(d2' & -> & ->)].
      * exfalso. eapply Hno, Hy.
      * eapply (i_last _ _ _ I); eauto. intros q2 H2. apply Hlast, in_or_app; now left.
Qed.

Lemma step_total dn q todo st :
  inv dn (q :: todo) st -> supported params g q -> exists st', annotate_step d st (n_id q) = Ok st'.
Proof.
  intros I Hs. destruct (next_data _ _ _ _ I) as (q' & Ef & M & Hnq & Hq & Hqd & Hdata).
  unfold annotate_step. rewrite Ef. pose proof M as (_ & Eo & _ & Ma).
  unfold supported in Hs. unfold node_spec. rewrite Eo.
  destruct (n_op q) as [| | |tile bits|tile|] eqn:Eq; try (now eauto).
  - destruct Hs as ((b & ->) & xq & sc & o & ss & os & Ea & Hsc & Hof).
    rewrite Ea in Ma. inversion Ma as [|? x ? l1 Hx Ma1 E1 E2]; subst.
    inversion Ma1 as [|? sc' ? l2 Hs' Ma2]; subst. inversion Ma2 as [|? o' ? l3 Ho' Ma3]; subst.
    inversion Ma3; subst.
    destruct (param_arg _ _ _ q sc sc' I Hq Hqd) as (ss' & ns & Hns & -> & _ & Vs); auto.
    { rewrite Ea. cbn; auto. }
    destruct (param_arg _ _ _ q o o' I Hq Hqd) as (os' & no & Hno & -> & _ & Vo); auto.
    { rewrite Ea. cbn; auto. }
    rewrite Vs, Vo. cbn [rbind ff_quantizer_spec].
    destruct (Hdata _ _ (eq_sym E2)) as (_ & _ & _ & _ & Hne & _).
    rewrite erase_ok by exact Hne. cbn [rbind]. eauto.
  - destruct Hs as (xq & r & Ea & _). rewrite Ea in Ma.
    inversion Ma as [|? x ? l1 Hx Ma1 E1 E2]; subst.
    destruct (Hdata _ _ (eq_sym E2)) as (_ & _ & _ & _ & Hne & _).
    rewrite erase_ok by exact Hne. cbn [rbind]. eauto.
Qed.

Lemma fold_err {A B} (f : A -> B -> result A) l e :
  fold_left (fun acc k => let? st := acc in f st k) l (Err e) = Err e.
Proof. induction l; cbn; auto. Qed.

Lemma loop_inv todo dn st st' :
  inv dn todo st ->
  fold_left (fun acc k => let? st := acc in annotate_step d st k) (map n_id todo) (Ok st) = Ok st' ->
  inv (dn ++ todo) [] st'.
Proof.
  revert dn st; induction todo as [|q todo IH]; intros dn st I; cbn [map fold_left].
  - intros [= <-]. rewrite app_nil_r. exact I.
  - cbn [rbind]. destruct (annotate_step d st (n_id q)) as [st1|e] eqn:E.
    + intros H. pose proof (step_inv _ _ _ _ _ I E) as I1.
      apply (IH _ _ I1) in H. now rewrite <- app_assoc in H.
    + intros H. rewrite fold_err in H. discriminate.
Qed.

Lemma loop_total todo dn st :
  inv dn todo st -> (forall q, In q todo -> supported params g q) ->
  exists st', fold_left (fun acc k => let? st := acc in annotate_step d st k) (map n_id todo) (Ok st)
    = Ok st'.
Proof.
  revert dn st; induction todo as [|q todo IH]; intros dn st I Hs; cbn [map fold_left]; [eauto|].
  cbn [rbind]. destruct (step_total _ _ _ _ I (Hs _ (or_introl eq_refl))) as (st1 & E).
  rewrite E. eapply IH; [eapply step_inv; eauto|]. intros; apply Hs; now right.
Qed.

Lemma inv_init : inv [] (filter is_quantization_node g) (mkGraph g meta0).
Proof.
  constructor; cbn [g_nodes g_meta].
  - reflexivity.
  - unfold left_over. cbn [map existsb negb]. rewrite filter_true.
    assert (G : forall l, incl l g -> Forall2 (matches []) l l); [|apply G, incl_refl].
    induction l as [|n l IH]; intros Hl; constructor.
    + repeat split; auto. assert (Hn : In n g) by (apply Hl; now left).
      assert (Ha : forall a, In a (n_args n) -> exists m, In m g /\ n_id m = a)
        by (intros; eapply args_in; eauto).
      revert Ha. generalize (n_args n) as la. induction la as [|a la IHa]; intros Ha; constructor.
      * destruct (Ha a (or_introl eq_refl)) as (m & Hm & <-). constructor; auto.
      * apply IHa. intros; apply Ha; now right.
    + apply IH. intros m Hm; apply Hl; now right.
  - auto.
  - intros d1 q d2 x E. destruct d1; discriminate.
Qed.
End Annotate.

(** ** The pass *)

Lemma annotate_inv params g meta0 st' :
  ordered g -> annotate params (mkGraph g meta0) = Ok st' ->
  exists d, inv params g meta0 (filter is_quantization_node g) [] st' /\
    ff_quantization_parameters params g = Ok d.
Proof.
  intros Ho. unfold annotate. cbn [g_nodes].
  destruct (ff_quantization_parameters params g) as [d|] eqn:Ed; [|discriminate]. cbn [rbind].
  intros H. exists d. split; [|reflexivity].
  destruct (parameters_spec params g _ _ _ Ed) as (d0 & E0 & Hg & _ & Hall).
  injection E0 as <-.
  change (filter is_quantization_node g) with ([] ++ filter is_quantization_node g).
  eapply (loop_inv params g meta0 Ho d); [| | |exact H].
  - apply Hg. intros ? ? [].
  - intros n k Hn Hq Hk. apply (Hall n k); [|exact Hk]. apply filter_In. split; auto.
    now apply is_qdq_iff.
  - now apply inv_init.
Qed.

(** What is left: every node that is no quantize or dequantize node, in the same order, with the
    same operator, and with its arguments replaced by their origins. *)
Theorem annotate_nodes params g meta0 st' :
  ordered g -> annotate params (mkGraph g meta0) = Ok st' ->
  Forall2 (fun n n' => n_id n' = n_id n /\ n_op n' = n_op n /\ n_shape n' = n_shape n /\
             Forall2 (origin g) (n_args n) (n_args n'))
    (filter (fun n => negb (is_quantization_node n)) g) (g_nodes st').
Proof.
  intros Ho H. destruct (annotate_inv _ _ _ _ Ho H) as (d & I & _).
  pose proof (i_nodes _ _ _ _ _ _ I) as F.
  assert (E : left_over g (filter is_quantization_node g)
              = filter (fun n => negb (is_quantization_node n)) g).
  { unfold left_over. apply filter_ext_in. intros n Hn. f_equal.
    destruct (is_quantization_node n) eqn:Eq.
    - apply existsb_exists. exists (n_id n). split; [|apply Nat.eqb_refl].
      apply in_map. now apply filter_In.
    - destruct (existsb _ _) eqn:Ex; [|reflexivity].
      apply existsb_exists in Ex as (k & Hk & Ek). apply Nat.eqb_eq in Ek as <-.
      apply in_ids in Hk as (m & Hm & Em). apply filter_In in Hm as [Hm Eqm].
      rewrite (node_unique g m n (proj1 Ho) Hm Hn Em) in Eqm. congruence. }
  rewrite <- E. clear E. revert F. generalize (left_over g (filter is_quantization_node g)) as l.
  generalize (g_nodes st') as l'. induction 1 as [|n n' l l' (E1 & E2 & E3 & E4) _ IH];
    constructor; auto.
  repeat split; auto. clear -E4 Ho. induction E4 as [|a b la lb Ha _ IHa]; constructor; auto.
  apply origin_originP. clear -Ha Ho. induction Ha as [m Hm HP|m x r b Hm HP Ex H IH].
  - constructor; [exact Hm|]. intros Hq. apply HP, filter_In. split; [exact Hm|].
    now apply is_qdq_iff.
  - econstructor 2; [exact Hm| |exact Ex|exact IH]. apply filter_In in HP as [_ HP].
    now apply is_qdq_iff.
Qed.

Lemma split_quantizer g pre q post : is_quantize q -> g = pre ++ q :: post ->
  filter is_quantization_node g =
  filter is_quantization_node pre ++ q :: filter is_quantization_node post.
Proof.
  intros Hq ->. rewrite filter_app. cbn.
  replace (is_quantization_node q) with true; [reflexivity|].
  symmetry. apply is_qdq_iff. unfold is_quantize, is_qdq in *. now destruct (n_op q).
Qed.

Theorem annotate_specs params g meta0 st' :
  ordered g -> annotate params (mkGraph g meta0) = Ok st' ->
  (forall x, (forall q, ~ quantizes g q x) -> g_meta st' x = meta0 x) /\
  (forall pre q post x, g = pre ++ q :: post -> quantizes g q x ->
     (forall q', In q' post -> ~ quantizes g q' x) ->
     exists s, spec_of params g q x s /\ g_meta st' x = Some s).
Proof.
  intros Ho H. destruct (annotate_inv _ _ _ _ Ho H) as (d & I & _). split.
  - intros x Hx. apply (i_other _ _ _ _ _ _ I). auto.
  - intros pre q post x E Hq Hl.
    eapply (i_last _ _ _ _ _ _ I); [eapply split_quantizer; [apply Hq|exact E]|exact Hq|].
    intros q' H'. apply filter_In in H' as [H' _]. auto.
Qed.

Theorem annotate_total params g meta0 :
  ordered g -> (forall n, In n g -> supported params g n) ->
  exists st', annotate params (mkGraph g meta0) = Ok st'.
Proof.
  intros Ho Hs. unfold annotate. cbn [g_nodes].
  assert (Hsub : forall q, In q (filter is_quantization_node g) -> supported params g q).
  { intros q Hq. apply filter_In in Hq as [Hq _]. auto. }
  destruct (parameters_total params g Ho (filter is_quantization_node g) []) as (d & Ed).
  { intros n k Hn Hk. pose proof (Hsub _ Hn) as Hn'. apply filter_In in Hn as [_ Hn].
    unfold supported, is_quantization_node in *. destruct (n_op n); try discriminate.
    - destruct Hn' as (_ & data & sc & o & ss & os & Ea & H1 & H2). rewrite Ea in Hk.
      cbn in Hk. destruct Hk as [<-|[<-|[]]]; eauto.
    - destruct Hn' as (data & r & Ea & F). rewrite Ea in Hk. cbn in Hk.
      rewrite Forall_forall in F. auto. }
  unfold ff_quantization_parameters. unfold ff_quantization_nodes at 1. rewrite Ed. cbn [rbind].
  destruct (parameters_spec params g _ _ _ Ed) as (d0 & E0 & Hg & _ & Hall). injection E0 as <-.
  eapply (loop_total params g meta0 Ho d); [| | |exact Hsub].
  - apply Hg. intros ? ? [].
  - intros n k Hn Hq Hk. apply (Hall n k); [|exact Hk]. apply filter_In. split; auto.
    now apply is_qdq_iff.
  - now apply inv_init.
Qed.
