(** Set operations on collections; witnesses for the theorems about queries. *)
From Coq Require Import String Ascii Permutation.
From Verif Require Import Prelude ModulesModel ModulesSpec ModulesInitProofs MpathModel MpathSpec MpathLangProofs MpathSetProofs MpathProofs
  MpathParseModel MpathParseSpec MpathParseProofs MpathCollModel MpathCollSpec.
Local Open Scope nat_scope.
Local Open Scope list_scope.

Lemma fres_eqb_eq a b : fres_eqb a b = true <-> entry a = entry b.
Proof.
  unfold fres_eqb, entry. rewrite !andb_true_iff, !String.eqb_eq, !Nat.eqb_eq. split.
  - intros [[[-> ->] ->] ->]. reflexivity.
  - intros E. injection E as -> -> -> ->. auto.
Qed.
Lemma fmem_iff r l : fmem r l = true <-> In (entry r) (map entry l).
Proof.
  unfold fmem. rewrite existsb_exists, in_map_iff. split; intros (x & A & B).
  - exists x. apply fres_eqb_eq in B. auto.
  - exists x. split; [assumption|]. apply fres_eqb_eq. auto.
Qed.
Lemma map_filter_in (f : fres -> bool) (P : string * nat * nat * string -> Prop) l : (forall r, f r = true <-> P (entry r)) ->
  forall k, In k (map entry (filter f l)) <-> In k (map entry l) /\ P k.
Proof.
  intros H k. rewrite !in_map_iff. split.
  - intros (r & <- & Hr). apply filter_In in Hr. destruct Hr as [H1 H2]. split; [exists r; auto|]. now apply H.
  - intros [(r & <- & Hr) Pk]. exists r. split; [reflexivity|]. apply filter_In. split; [assumption|]. now apply H.
Qed.
Lemma map_filter_nodup (f : fres -> bool) l : NoDup (map entry l) -> NoDup (map entry (filter f l)).
Proof.
  induction l as [|r l IH]; cbn; intros H; [constructor|]. apply NoDup_cons_iff in H. destruct H as [H1 H2]. destruct (f r); cbn; [|auto].
  constructor; [|auto]. intros C. apply H1. apply in_map_iff in C. destruct C as (x & Ex & Hx). apply filter_In in Hx. apply in_map_iff. exists x. tauto.
Qed.
Lemma negb_iff (b : bool) (P : Prop) : (b = true <-> P) -> (negb b = true <-> ~ P).
Proof. intros H. destruct b; cbn; split; intros E; try easy; [exfalso; apply E; now apply H|]. intros C. apply H in C. discriminate. Qed.
Lemma pyset_spec l : lists (map entry (pyset l)) (fun k => In k (map entry l)).
Proof.
  induction l as [|r l [N I]]; [split; [constructor|easy]|]. cbn [pyset map].
  assert (F : forall x, negb (fres_eqb r x) = true <-> entry x <> entry r).
  { intros x. apply negb_iff. rewrite fres_eqb_eq. split; congruence. }
  split.
  - constructor; [|now apply map_filter_nodup]. intros C. apply (map_filter_in _ (fun k => k <> entry r) _ F) in C. tauto.
  - intros k. cbn [In]. rewrite (map_filter_in _ (fun k => k <> entry r) _ F), I. split; [tauto|].
    assert (D : forall a b : string * nat * nat * string, {a = b} + {a <> b}) by (repeat decide equality).
    intros [<-|H]; [now left|]. destruct (D k (entry r)) as [->|]; [now left|right; auto].
Qed.
Lemma perm_lists l l' P : Permutation l l' -> lists (map entry l') P -> lists (map entry l) P.
Proof.
  intros H [N I]. apply (Permutation_map entry) in H. split; [apply Permutation_NoDup with (map entry l'); [now apply Permutation_sym|assumption]|].
  intros x. rewrite <- I. split; apply Permutation_in; [assumption|now apply Permutation_sym].
Qed.
Lemma nodup_app_entries a b : NoDup (map entry a) -> NoDup (map entry b) -> (forall k, In k (map entry a) -> In k (map entry b) -> False) -> NoDup (map entry (a ++ b)).
Proof. intros. rewrite map_app. now apply nodup_join. Qed.

Section Ops.
  Variable order : list fres -> list fres.
  Hypothesis Ho : forall l, Permutation (order l) l.
  Lemma op_spec op P a b c :
    (forall x y, NoDup (map entry x) -> NoDup (map entry y) -> lists (map entry (op x y)) (fun k => P (In k (map entry x)) (In k (map entry y)))) ->
    (forall A A' B B' : Prop, (A <-> A') -> (B <-> B') -> (P A B <-> P A' B')) ->
    set_op order op a b = Ok c ->
    c_root c = c_root a /\ c_root a = c_root b /\
    lists (map entry (c_results c)) (fun k => P (In k (map entry (c_results a))) (In k (map entry (c_results b)))).
  Proof.
    intros H HP. unfold set_op. destruct (c_root a =? c_root b) eqn:E; [|discriminate]. apply Nat.eqb_eq in E. intros X.
    assert (c = mkColl (c_root a) (order (op (pyset (c_results a)) (pyset (c_results b))))) by congruence. subst c. cbn [c_root c_results].
    split; [reflexivity|]. split; [assumption|]. destruct (pyset_spec (c_results a)) as [Na Ia], (pyset_spec (c_results b)) as [Nb Ib].
    apply perm_lists with (op (pyset (c_results a)) (pyset (c_results b))); [apply Ho|].
    destruct (H _ _ Na Nb) as [N I]. split; [assumption|]. intros k. rewrite I. now apply HP.
  Qed.
  Lemma not_mem a : forall r, negb (fmem r a) = true <-> ~ In (entry r) (map entry a).
  Proof. intros r. apply negb_iff. apply fmem_iff. Qed.
  Lemma op_total op a b : c_root a = c_root b -> exists c, set_op order op a b = Ok c.
  Proof. intros E. unfold set_op. rewrite (proj2 (Nat.eqb_eq _ _) E). eauto. Qed.
  Lemma op_raises op a b : c_root a <> c_root b -> set_op order op a b = Err ValueError.
  Proof. intros E. unfold set_op. now rewrite (proj2 (Nat.eqb_neq _ _) E). Qed.

  Lemma union_spec a b c : union order a b = Ok c -> c_root c = c_root a /\ c_root a = c_root b /\
    lists (map entry (c_results c)) (fun k => In k (map entry (c_results a)) \/ In k (map entry (c_results b))).
  Proof.
    apply (op_spec _ (fun A B => A \/ B)); [|tauto]. intros x y Nx Ny. split.
    - apply nodup_app_entries; [assumption|now apply map_filter_nodup|]. intros k H1 H2. apply (map_filter_in _ (fun k => ~ In k (map entry x)) _ (not_mem x)) in H2. tauto.
    - intros k. rewrite map_app, in_app_iff, (map_filter_in _ (fun k => ~ In k (map entry x)) _ (not_mem x)).
      assert (D : forall a b : string * nat * nat * string, {a = b} + {a <> b}) by (repeat decide equality).
      destruct (in_dec D k (map entry x)); tauto.
  Qed.
  Lemma intersection_spec a b c : intersection order a b = Ok c -> c_root c = c_root a /\ c_root a = c_root b /\
    lists (map entry (c_results c)) (fun k => In k (map entry (c_results a)) /\ In k (map entry (c_results b))).
  Proof.
    apply (op_spec _ (fun A B => A /\ B)); [|tauto]. intros x y Nx Ny. split; [now apply map_filter_nodup|].
    intros k. apply (map_filter_in (fun r => fmem r y) (fun k => In k (map entry y))). intros r. apply fmem_iff.
  Qed.
  Lemma difference_spec a b c : difference order a b = Ok c -> c_root c = c_root a /\ c_root a = c_root b /\
    lists (map entry (c_results c)) (fun k => In k (map entry (c_results a)) /\ ~ In k (map entry (c_results b))).
  Proof.
    apply (op_spec _ (fun A B => A /\ ~ B)); [|tauto]. intros x y Nx Ny. split; [now apply map_filter_nodup|].
    intros k. apply (map_filter_in _ (fun k => ~ In k (map entry y)) _ (not_mem y)).
  Qed.
  Lemma symdiff_spec a b c : symmetric_difference order a b = Ok c -> c_root c = c_root a /\ c_root a = c_root b /\
    lists (map entry (c_results c)) (fun k => (In k (map entry (c_results a)) /\ ~ In k (map entry (c_results b))) \/ (In k (map entry (c_results b)) /\ ~ In k (map entry (c_results a)))).
  Proof.
    apply (op_spec _ (fun A B => (A /\ ~ B) \/ (B /\ ~ A))); [|tauto]. intros x y Nx Ny. split.
    - apply nodup_app_entries; [now apply map_filter_nodup|now apply map_filter_nodup|]. intros k H1 H2.
      apply (map_filter_in _ (fun k => ~ In k (map entry y)) _ (not_mem y)) in H1. apply (map_filter_in _ (fun k => ~ In k (map entry x)) _ (not_mem x)) in H2. tauto.
    - intros k. rewrite map_app, in_app_iff, (map_filter_in _ (fun k => ~ In k (map entry x)) _ (not_mem x)), (map_filter_in _ (fun k => ~ In k (map entry y)) _ (not_mem y)). tauto.
  Qed.
End Ops.

(** From entries to modules *)
Definition emod (k : string * nat * nat * string) : nat := snd (fst (fst k)).
Lemma mods_entries l : map r_mod l = map emod (map entry l).
Proof. rewrite map_map. reflexivity. Qed.
Lemma modules_lists l all P Q : one_entry_per_module all ->
  lists (map entry l) P -> (forall k, P k -> In k (map entry all)) ->
  (forall r, In r all -> (P (entry r) <-> Q (r_mod r))) -> (forall m, Q m -> In m (map r_mod all)) ->
  lists (map r_mod l) Q.
Proof.
  intros U [N I] PA PQ QA. split.
  - rewrite mods_entries. assert (PA' : forall k, In k (map entry l) -> In k (map entry all)) by (intros k Hk; apply PA; now apply I).
    revert N PA'. generalize (map entry l). clear -U. induction l as [|k l IH]; intros N PA; cbn; [constructor|].
    apply NoDup_cons_iff in N. destruct N as [N1 N2]. constructor; [|apply IH; [assumption|intros; apply PA; now right]].
    intros C. apply in_map_iff in C. destruct C as (k' & Ek & Hk').
    pose proof (PA k (or_introl eq_refl)) as A. pose proof (PA k' (or_intror Hk')) as A'. apply in_map_iff in A, A'. destruct A as (r & <- & Hr), A' as (r' & <- & Hr').
    assert (E : entry r' = entry r) by (apply U; auto). rewrite E in Hk'. contradiction.
  - intros m. split.
    + intros H. apply in_map_iff in H. destruct H as (r & <- & Hr). assert (K : In (entry r) (map entry l)) by now apply in_map.
      pose proof K as K'. apply I in K'. pose proof (PA _ K') as A. apply in_map_iff in A. destruct A as (r' & E & Hr').
      assert (M : r_mod r = r_mod r') by (unfold entry in E; congruence). rewrite M. apply PQ; [assumption|]. now rewrite E.
    + intros H. pose proof (QA _ H) as A. apply in_map_iff in A. destruct A as (r & <- & Hr). apply PQ in H; [|assumption]. apply I in H.
      apply in_map_iff in H. destruct H as (r' & E & Hr'). apply in_map_iff. exists r'. split; [|assumption]. unfold entry in E. congruence.
Qed.
Lemma mem_mod l all : one_entry_per_module all -> incl l all -> forall r, In r all -> (In (entry r) (map entry l) <-> In (r_mod r) (map r_mod l)).
Proof.
  intros U S r Hr. rewrite !in_map_iff. split; intros (x & E & Hx).
  - exists x. split; [unfold entry in E; congruence|assumption].
  - exists x. split; [|assumption]. apply U; auto.
Qed.
Section ModOps.
  Variable order : list fres -> list fres.
  Hypothesis Ho : forall l, Permutation (order l) l.
  Lemma mods_op a b c (P : Prop -> Prop -> Prop) :
    one_entry_per_module (c_results a ++ c_results b) ->
    (forall A A' B B' : Prop, (A <-> A') -> (B <-> B') -> (P A B <-> P A' B')) -> (forall A B, P A B -> A \/ B) ->
    lists (map entry (c_results c)) (fun k => P (In k (map entry (c_results a))) (In k (map entry (c_results b)))) ->
    lists (map r_mod (c_results c)) (fun m => P (In m (map r_mod (c_results a))) (In m (map r_mod (c_results b)))).
  Proof.
    intros U HP HO L. apply modules_lists with (c_results a ++ c_results b) (fun k => P (In k (map entry (c_results a))) (In k (map entry (c_results b)))); auto.
    - intros k Hk. apply HO in Hk. rewrite map_app. apply in_app_iff. assumption.
    - intros r Hr. apply HP; apply (mem_mod _ (c_results a ++ c_results b)); auto; intros x Hx; apply in_app_iff; auto.
    - intros m Hm. apply HO in Hm. rewrite map_app. apply in_app_iff. assumption.
  Qed.
  Lemma module_sets a b : c_root a = c_root b -> one_entry_per_module (c_results a ++ c_results b) ->
    exists u i d s, union order a b = Ok u /\ intersection order a b = Ok i /\ difference order a b = Ok d /\ symmetric_difference order a b = Ok s /\
      lists (map r_mod (c_results u)) (fun m => In m (map r_mod (c_results a)) \/ In m (map r_mod (c_results b))) /\
      lists (map r_mod (c_results i)) (fun m => In m (map r_mod (c_results a)) /\ In m (map r_mod (c_results b))) /\
      lists (map r_mod (c_results d)) (fun m => In m (map r_mod (c_results a)) /\ ~ In m (map r_mod (c_results b))) /\
      lists (map r_mod (c_results s)) (fun m => (In m (map r_mod (c_results a)) /\ ~ In m (map r_mod (c_results b))) \/ (In m (map r_mod (c_results b)) /\ ~ In m (map r_mod (c_results a)))).
  Proof.
    intros E U.
    destruct (op_total order (fun a b => a ++ filter (fun r => negb (fmem r a)) b) a b E) as [u Hu].
    destruct (op_total order (fun a b => filter (fun r => fmem r b) a) a b E) as [i Hi].
    destruct (op_total order (fun a b => filter (fun r => negb (fmem r b)) a) a b E) as [d Hd].
    destruct (op_total order (fun a b => filter (fun r => negb (fmem r b)) a ++ filter (fun r => negb (fmem r a)) b) a b E) as [s Hs].
    exists u, i, d, s. split; [exact Hu|]. split; [exact Hi|]. split; [exact Hd|]. split; [exact Hs|].
    apply union_spec in Hu; [|assumption]. apply intersection_spec in Hi; [|assumption]. apply difference_spec in Hd; [|assumption]. apply symdiff_spec in Hs; [|assumption].
    split; [|split; [|split]].
    - now apply (mods_op a b u (fun A B => A \/ B)); [assumption|tauto|tauto|].
    - now apply (mods_op a b i (fun A B => A /\ B)); [assumption|tauto|tauto|].
    - now apply (mods_op a b d (fun A B => A /\ ~ B)); [assumption|tauto|tauto|].
    - now apply (mods_op a b s (fun A B => (A /\ ~ B) \/ (B /\ ~ A))); [assumption|tauto|tauto|].
  Qed.
  Lemma entry_sets a b : c_root a = c_root b ->
    exists u i d s, union order a b = Ok u /\ intersection order a b = Ok i /\ difference order a b = Ok d /\ symmetric_difference order a b = Ok s /\
      c_root u = c_root a /\ c_root i = c_root a /\ c_root d = c_root a /\ c_root s = c_root a /\
      lists (map entry (c_results u)) (fun m => In m (map entry (c_results a)) \/ In m (map entry (c_results b))) /\
      lists (map entry (c_results i)) (fun m => In m (map entry (c_results a)) /\ In m (map entry (c_results b))) /\
      lists (map entry (c_results d)) (fun m => In m (map entry (c_results a)) /\ ~ In m (map entry (c_results b))) /\
      lists (map entry (c_results s)) (fun m => (In m (map entry (c_results a)) /\ ~ In m (map entry (c_results b))) \/ (In m (map entry (c_results b)) /\ ~ In m (map entry (c_results a)))).
  Proof.
    intros E.
    destruct (op_total order (fun a b => a ++ filter (fun r => negb (fmem r a)) b) a b E) as [u Hu].
    destruct (op_total order (fun a b => filter (fun r => fmem r b) a) a b E) as [i Hi].
    destruct (op_total order (fun a b => filter (fun r => negb (fmem r b)) a) a b E) as [d Hd].
    destruct (op_total order (fun a b => filter (fun r => negb (fmem r b)) a ++ filter (fun r => negb (fmem r a)) b) a b E) as [s Hs].
    exists u, i, d, s. split; [exact Hu|]. split; [exact Hi|]. split; [exact Hd|]. split; [exact Hs|].
    apply union_spec in Hu; [|assumption]. apply intersection_spec in Hi; [|assumption]. apply difference_spec in Hd; [|assumption]. apply symdiff_spec in Hs; [|assumption].
    tauto.
  Qed.
  Lemma other_root a b : c_root a <> c_root b ->
    union order a b = Err ValueError /\ intersection order a b = Err ValueError /\ difference order a b = Err ValueError /\ symmetric_difference order a b = Err ValueError.
  Proof. intros E. repeat split; now apply op_raises. Qed.
End ModOps.
Lemma goes_det h x p y y' : goes h x p y -> goes h x p y' -> y = y'.
Proof. intros G. revert y'. induction G; intros y' G'; inversion G'; subst; auto. Qed.
Lemma search_entries re_fullmatch is_instance predicate h root q1 q2 res1 res2 : single_ways h root ->
  answers re_fullmatch is_instance predicate h root q1 res1 -> answers re_fullmatch is_instance predicate h root q2 res2 ->
  one_entry_per_module (res1 ++ res2).
Proof.
  intros SW (_ & _ & S1) (_ & _ & S2) r r' Hr Hr' E.
  assert (X : forall r, In r (res1 ++ res2) -> exists p last, goes h root (p ++ [last]) (r_mod r) /\ goes h root p (r_parent r) /\ r_name r = dotted (p ++ [last]) /\ r_attr r = fst last).
  { intros x Hx. apply in_app_iff in Hx. destruct Hx as [Hx|Hx]; [apply S1 in Hx|apply S2 in Hx]; destruct Hx as (p & l & A & _ & B & C & D & _); exists p, l; auto. }
  destruct (X r Hr) as (p & l & A & B & C & D), (X r' Hr') as (p' & l' & A' & B' & C' & D').
  rewrite <- E in A'. pose proof (SW _ _ _ A A') as W. apply app_inj_tail in W. destruct W as [<- <-].
  unfold entry. rewrite C, C', D, D', E. now rewrite (goes_det _ _ _ _ _ B B').
Qed.

(** ** Picking alternatives *)
Section Picks.
  Variable re_fullmatch : string -> string -> bool.
  Variable is_instance : nat -> nat -> bool.
  Variable predicate : nat -> string -> nat -> bool.
  Lemma picks_facts q q' : picks q q' -> groups_ok q -> NoDup (ids q) -> all_frags sane q ->
    straight q' /\ NoDup (ids q') /\ all_frags sane q' /\ (q <> [] -> q' <> []).
  Proof.
    induction 1 as [|i f q q' P IH|alts alt q q' IA P IH]; intros G N A.
    - repeat split; auto; intros n Hn; easy.
    - assert (G' : groups_ok q) by (now inversion G). assert (A' : all_frags sane q /\ sane f) by (now inversion A).
      rewrite ids_cons in N. cbn [ids_node app] in N. apply NoDup_cons_iff in N. destruct N as [N1 N2].
      destruct (IH G' N2 (proj1 A')) as (S1 & S2 & S3 & S4). repeat split.
      + intros n [<-|Hn]; [eauto|now apply S1].
      + rewrite ids_cons. cbn [ids_node app]. constructor; [|assumption]. intros C. apply N1.
        assert (INC : incl (ids q') (ids q)).
        { clear -P. induction P; [easy|..].
          - rewrite !ids_cons. intros x [<-|Hx]; [now left|right; now apply IHP].
          - intros x Hx. apply IHP in Hx. rewrite ids_app in Hx. rewrite ids_cons, ids_multi. apply in_app_iff in Hx. apply in_app_iff.
            destruct Hx; [left|now right]. apply in_flat_map. eauto. }
        now apply INC.
      + constructor; tauto.
      + discriminate.
    - apply groups_inv in G. destruct G as (GN & GA & GQ).
      destruct IH as (S1 & S2 & S3 & S4).
      + apply groups_ok_app; [now apply GA|assumption].
      + now apply nodup_alt with alts.
      + apply all_frags_app; inversion A; auto.
      + repeat split; auto. intros _. apply S4. intros C. apply app_eq_nil in C. destruct C as [-> _].
        assert (substantial []) as SU by (now apply GA). inversion SU.
  Qed.
  Lemma straight_consistent q : straight q -> NoDup (ids q) -> consistent q.
  Proof.
    intros S N i f f' H H'. induction q as [|n q IH]; [easy|]. rewrite ids_cons in N.
    assert (S' : straight q) by (intros x Hx; apply S; now right).
    assert (X : forall g, In (NFrag i g) q -> In i (ids q)).
    { intros g Hg. apply in_flat_map. exists (NFrag i g). split; [assumption|now left]. }
    destruct H as [H|H], H' as [H'|H'].
    - congruence.
    - subst n. cbn in N. apply NoDup_cons_iff in N. destruct N as [N _]. elim N. now apply X with f'.
    - subst n. cbn in N. apply NoDup_cons_iff in N. destruct N as [N _]. elim N. now apply X with f.
    - apply IH; auto. now apply nodup_app_r in N.
  Qed.
  Lemma search_union h root q rank : named h -> heap_ok h -> ranked h rank -> root < length h ->
    q <> [] -> groups_ok q -> NoDup (objects q) -> all_frags sane q ->
    exists res N, (forall fuel, N <= fuel -> search re_fullmatch is_instance predicate fuel h root q = Ok res) /\
      NoDup (map r_mod res) /\
      forall z, In z (map r_mod res) <->
        exists q' res' N', picks q q' /\ (forall fuel, N' <= fuel -> search re_fullmatch is_instance predicate fuel h root q' = Ok res') /\ In z (map r_mod res').
  Proof.
    intros H1 H2 H3 H4 NE G U A.
    destruct (search_groups re_fullmatch is_instance predicate h root q rank H1 H2 H3 H4 NE G U A) as (res & N & R & (A1 & A2 & A3)).
    exists res, N. split; [assumption|]. split; [assumption|]. intros z. rewrite A2. rewrite objects_ids in U. split.
    - intros (x & p & Gz & M). apply matched_picks in M. destruct M as (q' & P & M).
      destruct (picks_facts q q' P G U A) as (S1 & S2 & S3 & S4).
      destruct (search_straight re_fullmatch is_instance predicate h root q' rank H1 H2 H3 H4 (S4 NE) S1 (straight_consistent _ S1 S2) S3) as (res' & N' & R' & (_ & B2 & _)).
      exists q', res', N'. split; [assumption|]. split; [assumption|]. apply B2. eauto.
    - intros (q' & res' & N' & P & R' & Hz).
      destruct (picks_facts q q' P G U A) as (S1 & S2 & S3 & S4).
      destruct (search_straight re_fullmatch is_instance predicate h root q' rank H1 H2 H3 H4 (S4 NE) S1 (straight_consistent _ S1 S2) S3) as (res2 & N2 & R2 & (_ & B2 & _)).
      assert (res2 = res') by (specialize (R2 (N2 + N') ltac:(lia)); specialize (R' (N2 + N') ltac:(lia)); congruence). subst res2.
      apply B2 in Hz. destruct Hz as (x & p & Gz & M). exists x, p. split; [assumption|]. apply matched_picks. eauto.
  Qed.
End Picks.

(** ** Witnesses *)
Definition t_re (p n : string) : bool := String.eqb p n.
Definition t_inst (m c : nat) : bool := m =? c.
Definition t_pred (p : nat) (n : string) (m : nat) : bool := false.
Definition leaf : modrec := mkM 0 [] [].
Definition kidsm (l : list (string * nat)) : modrec := mkM 0 (map (fun x => (fst x, Some (snd x))) l) [].
(** root(0){a:1, b:2}; a{a:3, c:4}; b{c:5}; 3{b:6} *)
Definition ex_tree : heap := [kidsm [("a", 1); ("b", 2)]; kidsm [("a", 3); ("c", 4)]; kidsm [("c", 5)]; kidsm [("b", 6)]; leaf; leaf; leaf]%string.
Definition txt (s : string) : sel :=
  match parse (fun _ => true) (fun _ => None) (fun _ => None) 0 s with Ok q => q | Err _ => [] end.
Definition found (h : heap) (q : sel) : result (list (string * nat)) :=
  match search t_re t_inst t_pred 100 h 0 q with Ok l => Ok (map (fun r => (r_name r, r_mod r)) l) | Err e => Err e end.

Definition namedb (h : heap) : bool :=
  forallb (fun m => forallb (fun k => negb (String.eqb (fst k) "")) (mkids m) &&
    forallb (fun k => forallb (fun k' => match snd k, snd k' with Some c, Some c' => negb (c =? c') || String.eqb (fst k) (fst k') | _, _ => true end) (mkids m)) (mkids m)) h.
Lemma namedb_ok h : namedb h = true -> named h.
Proof.
  intros H x m E. apply nth_error_In in E. unfold namedb in H. rewrite forallb_forall in H. apply H in E. apply andb_true_iff in E. destruct E as [E1 E2].
  rewrite forallb_forall in E1, E2. split.
  - intros n c Hc. apply E1 in Hc. cbn in Hc. apply negb_true_iff, String.eqb_neq in Hc. assumption.
  - intros n n' c Hc Hc'. apply E2 in Hc. rewrite forallb_forall in Hc. apply Hc in Hc'. cbn in Hc'. rewrite Nat.eqb_refl in Hc'. now apply String.eqb_eq.
Qed.

(** Searching "{**}/b" below a module with one child never ends. *)
Definition loop_heap : heap := [kidsm [("a"%string, 1)]; leaf].
Definition loop_query : sel := [NMulti [[NFrag 0 (Wild true)]]; NFrag 1 (Name "b")].
Definition S_ (c : nat) : sel := [NFrag c (Wild true); NMulti []; NFrag 1 (Name "b")].
Section Loop.
  Variable re_fullmatch : string -> string -> bool.
  Variable is_instance : nat -> nat -> bool.
  Variable predicate : nat -> string -> nat -> bool.
  Definition loop_ok (st : sstate) : Prop :=
    (forall it, In it (s_active st) -> r_mod (snd it) <= 1 /\ exists c, c < s_count st /\ fst it = S_ c) /\
    (forall mk, In mk (s_explored st) -> exists c, c < s_count st /\ fst mk = fragment_list (S_ c)).
  Definition unseen (c : nat) (st : sstate) : Prop := forall mk, In mk (s_explored st) -> fst mk <> fragment_list (S_ c).
  Lemma S_inj c c' : fragment_list (S_ c) = fragment_list (S_ c') -> c = c'.
  Proof. intros E. cbn in E. now injection E. Qed.
  Lemma push_ok it st c b f : r_mod (snd it) = 0 -> loop_ok st -> c < s_count st ->
    let st' := add_cont it "a" 1 st (mkC (S_ c) f b) in
    loop_ok st' /\ s_count st' = s_count st /\ incl (s_active st) (s_active st') /\
    (forall c', c' <> c -> unseen c' st -> unseen c' st') /\
    (unseen c st -> b = false -> exists it', In it' (s_active st') /\ r_mod (snd it') = 0).
  Proof.
    intros R [A E] L. unfold add_cont. cbn [k_sel k_consume k_frag].
    set (r := if b then child_result (snd it) 1 "a" f else mkR (r_name (snd it)) (r_mod (snd it)) (r_parent (snd it)) (r_attr (snd it)) (r_frags (snd it) ++ [f])).
    assert (Rr : r_mod r <= 1 /\ (b = false -> r_mod r = 0)) by (unfold r; destruct b; cbn; rewrite ?R; split; (lia || auto || discriminate)).
    destruct (existsb (marker_eqb (fragment_list (S_ c), r_mod r)) (s_explored st)) eqn:EX; cbn.
    - split; [now split|]. split; [reflexivity|]. split; [apply incl_refl|]. split; [auto|]. intros U. exfalso.
      apply existsb_exists in EX. destruct EX as (mk & Hmk & Ek). apply marker_eqb_eq in Ek. subst mk. now apply (U _ Hmk).
    - split; [split|].
      + cbn. intros it' [<-|H]; [|now apply A]. cbn. split; [tauto|eauto].
      + cbn. intros mk [<-|H]; [|now apply E]. eauto.
      + split; [reflexivity|]. split; [intros x Hx; now right|]. split.
        * intros c' Ne U mk [<-|H]; [|now apply U]. cbn [fst]. intros X. apply S_inj in X. congruence.
        * intros _ Hb. eexists. split; [now left|]. cbn. tauto.
  Qed.
  Lemma loop_runs fuel : forall st, loop_ok st -> (exists it, In it (s_active st) /\ r_mod (snd it) = 0) ->
    search_loop re_fullmatch is_instance predicate fuel loop_heap st = Err RecursionError.
  Proof.
    induction fuel as [|fuel IH]; intros st [A E] (i0 & I0 & M0).
    - cbn. destruct (s_active st); [easy|reflexivity].
    - cbn [search_loop]. destruct (s_active st) as [|it rest] eqn:EA; [easy|].
      destruct (A it (or_introl eq_refl)) as [M (c & Lc & Ec)]. destruct it as [s r]. cbn [fst snd] in *. subst s.
      destruct (r_mod r) as [|[|m]] eqn:Er; [| |lia].
      + change (nth_error loop_heap 0) with (Some (kidsm [("a"%string, 1)])). cbv iota.
        change (named_children (kidsm [("a"%string, 1)])) with [("a"%string, 1)]. cbn [fold_left].
        set (n := s_count st) in *. set (st1 := mkS (s_results st) rest (s_explored st) (S (S n))).
        set (st2 := add_match (S_ c, r) "a" 1 st1 (c, Wild true)).
        change (visit_child re_fullmatch is_instance predicate (S_ c, r) (mkS (s_results st) rest (s_explored st) n) ("a"%string, 1)) with
          (add_cont (S_ c, r) "a" 1 (add_cont (S_ c, r) "a" 1 (add_cont (S_ c, r) "a" 1 st2
             (mkC (S_ c) (c, Wild true) true)) (mkC (S_ n) (c, Wild true) false)) (mkC (S_ (S n)) (c, Wild true) true)).
        assert (P2 : s_active st2 = rest /\ s_explored st2 = s_explored st /\ s_count st2 = S (S n)).
        { unfold st2, add_match. destruct (existsb _ _); auto. }
        destruct P2 as (P2a & P2b & P2c).
        assert (W2 : loop_ok st2).
        { split; rewrite ?P2a, ?P2b, ?P2c.
          - intros it Hit. destruct (A it (or_intror Hit)) as (H1 & c' & H2 & H3). split; [assumption|]. exists c'. split; [lia|assumption].
          - intros mk Hmk. destruct (E mk Hmk) as (c' & H2 & H3). exists c'. split; [lia|assumption]. }
        assert (U2 : unseen n st2).
        { intros mk Hmk. rewrite P2b in Hmk. destruct (E mk Hmk) as (c' & H2 & H3). rewrite H3. intros X. apply S_inj in X. lia. }
        destruct (push_ok (S_ c, r) st2 c true (c, Wild true) Er W2 ltac:(lia)) as (W3 & C3 & _ & U3 & _).
        specialize (U3 n ltac:(lia) U2).
        destruct (push_ok (S_ c, r) _ n false (c, Wild true) Er W3 ltac:(lia)) as (W4 & C4 & _ & _ & P4).
        destruct (P4 U3 eq_refl) as (it4 & H4 & M4).
        destruct (push_ok (S_ c, r) _ (S n) true (c, Wild true) Er W4 ltac:(lia)) as (W5 & _ & I5 & _).
        apply IH; [exact W5|]. exists it4. split; [now apply I5|assumption].
      + change (nth_error loop_heap 1) with (Some leaf). cbv iota. change (named_children leaf) with (@nil (string * nat)). cbn [fold_left]. apply IH.
        * split; cbn; [intros it Hit; apply A; now right|assumption].
        * exists i0. destruct I0 as [<-|I0]; [cbn in M0; congruence|]. split; assumption.
  Qed.
  Lemma diverges fuel : search re_fullmatch is_instance predicate fuel loop_heap 0 loop_query = Err RecursionError.
  Proof.
    change (search re_fullmatch is_instance predicate fuel loop_heap 0 loop_query) with
      (search_loop re_fullmatch is_instance predicate fuel loop_heap (mkS [] [(S_ 2, mkR "" 0 0 "" [])] [(fragment_list (S_ 2), 0)] 3)).
    apply loop_runs.
    - split; cbn.
      + intros it [<-|[]]. cbn. split; [lia|]. exists 2. split; [lia|reflexivity].
      + intros mk [<-|[]]. exists 2. split; [lia|reflexivity].
    - eexists. split; [now left|reflexivity].
  Qed.
End Loop.

(** The example tree *)
Lemma ex_tree_ok : named ex_tree /\ heap_ok ex_tree /\ ranked ex_tree (fun x => 10 - x).
Proof. split; [|split]; [apply namedb_ok; reflexivity|apply heap_okb_ok; reflexivity|apply rankedb_ok; reflexivity]. Qed.
