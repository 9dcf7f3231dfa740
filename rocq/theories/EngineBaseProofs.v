(** Basic facts about the register and about single instructions. *)
From Coq Require Import String Ascii Permutation Relations.
From Verif Require Import Prelude GraphModel GraphSpec GraphProofs EngineModel EngineSpec.
Local Open Scope nat_scope.
Local Open Scope list_scope.

(** references up to names *)
Fixpoint norm (r : ref) : ref :=
  match r with RNode i _ => RNode i ""%string | RInput i _ => RInput i ""%string | RConst i => RConst i | RAttr r a => RAttr (norm r) a end.
Lemma attr_eqb_eq a b : attr_eqb a b = true <-> a = b.
Proof.
  destruct a, b; cbn; split; intros H; try discriminate.
  - apply Z.eqb_eq in H. now subst.
  - injection H as ->. apply Z.eqb_refl.
  - apply String.eqb_eq in H. now subst.
  - injection H as ->. apply String.eqb_refl.
Qed.
Lemma ref_eqb_norm a : forall b, ref_eqb a b = true <-> norm a = norm b.
Proof.
  induction a as [i n|i n|i|r IH a]; intros [j m|j m|j|r' a']; cbn [ref_eqb norm]; try (split; discriminate).
  - rewrite Nat.eqb_eq. split; [now intros ->|congruence].
  - rewrite Nat.eqb_eq. split; [now intros ->|congruence].
  - rewrite Nat.eqb_eq. split; [now intros ->|congruence].
  - rewrite andb_true_iff, IH, attr_eqb_eq. split; [now intros [-> ->]|]. intros H. now injection H as -> ->.
Qed.
Lemma same_ref_norm a b : same_ref a b <-> norm a = norm b.
Proof.
  split; [induction 1; cbn; congruence|]. revert b. induction a as [i n|i n|i|r IH a]; intros [j m|j m|j|r' a']; cbn [norm]; intros H; try discriminate.
  - injection H as ->. constructor.
  - injection H as ->. constructor.
  - injection H as ->. constructor.
  - injection H as H ->. constructor. now apply IH.
Qed.
Lemma ref_eqb_refl r : ref_eqb r r = true.
Proof. now apply ref_eqb_norm. Qed.
Lemma ref_eqb_sym a b : ref_eqb a b = ref_eqb b a.
Proof. destruct (ref_eqb a b) eqn:E, (ref_eqb b a) eqn:F; try reflexivity; exfalso.
  - apply ref_eqb_norm in E. symmetry in E. apply ref_eqb_norm in E. congruence.
  - apply ref_eqb_norm in F. symmetry in F. apply ref_eqb_norm in F. congruence.
Qed.
Lemma rmem_in r l : rmem r l = true <-> exists r', In r' l /\ norm r = norm r'.
Proof.
  unfold rmem. rewrite existsb_exists. split; intros (x & H & E); exists x; split; try assumption; now apply ref_eqb_norm.
Qed.

(** dictionaries *)
Section Dict.
  Context {K A : Type} (eqb : K -> K -> bool).
  Context {N : Type} (nf : K -> N) (Heq : forall a b, eqb a b = true <-> nf a = nf b).
  Lemma eqb_cong a b c : nf a = nf b -> eqb c a = eqb c b.
  Proof. intros E. destruct (eqb c a) eqn:P, (eqb c b) eqn:Q; try reflexivity; exfalso.
    - apply Heq in P. rewrite E in P. apply Heq in P. congruence.
    - apply Heq in Q. rewrite <- E in Q. apply Heq in Q. congruence.
  Qed.
  Lemma aget_cong k k' (l : list (K * A)) : nf k = nf k' -> aget eqb k l = aget eqb k' l.
  Proof. intros E. induction l as [|[x a] l IH]; [reflexivity|]. cbn. rewrite (eqb_cong k k' x E). destruct (eqb x k'); [reflexivity|exact IH]. Qed.
  Lemma aget_aset k k' a (l : list (K * A)) : aget eqb k (aset eqb k' a l) = if eqb k' k then Some a else aget eqb k l.
  Proof.
    induction l as [|[x b] l IH]; cbn; [reflexivity|]. destruct (eqb x k') eqn:E; cbn.
    - assert (Ek : eqb x k = eqb k' k).
      { apply Heq in E. destruct (eqb x k) eqn:P, (eqb k' k) eqn:Q; try reflexivity; exfalso.
        - apply Heq in P. rewrite E in P. apply Heq in P. congruence.
        - apply Heq in Q. rewrite <- E in Q. apply Heq in Q. congruence. }
      rewrite Ek. now destruct (eqb k' k).
    - destruct (eqb x k) eqn:P; [|exact IH]. destruct (eqb k' k) eqn:Q; [|reflexivity]. exfalso.
      apply Heq in P, Q. assert (nf x = nf k') by congruence. apply Heq in H. congruence.
  Qed.
  Lemma aget_adel k k' (l : list (K * A)) : aget eqb k (adel eqb k' l) = if eqb k' k then None else aget eqb k l.
  Proof.
    unfold adel. induction l as [|[x b] l IH]; cbn [filter fst aget]; [now destruct (eqb k' k)|]. destruct (eqb x k') eqn:E; cbn [negb aget].
    - rewrite IH. destruct (eqb k' k) eqn:Q; [reflexivity|]. destruct (eqb x k) eqn:P; [|reflexivity]. exfalso.
      apply Heq in E, P. assert (nf k' = nf k) by congruence. apply Heq in H. congruence.
    - destruct (eqb x k) eqn:P; [|exact IH]. destruct (eqb k' k) eqn:Q; [|reflexivity]. exfalso.
      apply Heq in P, Q. assert (nf x = nf k') by congruence. apply Heq in H. congruence.
  Qed.
  Lemma aget_in k (l : list (K * A)) a : aget eqb k l = Some a -> exists k', In (k', a) l /\ nf k' = nf k.
  Proof.
    induction l as [|[x b] l IH]; cbn; [discriminate|]. destruct (eqb x k) eqn:E.
    - intros [= ->]. exists x. split; [now left|now apply Heq].
    - intros H. destruct (IH H) as (k' & ? & ?). exists k'. split; [now right|assumption].
  Qed.
  Lemma aget_none k (l : list (K * A)) : aget eqb k l = None <-> forall k' a, In (k', a) l -> nf k' <> nf k.
  Proof.
    induction l as [|[x b] l IH]; cbn; [split; [intros _ ? ? []|reflexivity]|]. destruct (eqb x k) eqn:E.
    - split; [discriminate|]. intros H. apply Heq in E. exfalso. apply (H x b); auto.
    - rewrite IH. split; intros H k' a.
      + intros [[= <- <-]|Hi]; [intros F; apply Heq in F; congruence|now apply (H k' a)].
      + intros Hi. apply (H k' a). now right.
  Qed.
End Dict.
Lemma nat_eqb_spec : forall a b : nat, (a =? b) = true <-> (fun x => x) a = (fun x => x) b.
Proof. intros. apply Nat.eqb_eq. Qed.
Lemma str_eqb_spec : forall a b : string, String.eqb a b = true <-> (fun x => x) a = (fun x => x) b.
Proof. intros. apply String.eqb_eq. Qed.

Section Reg.
  Context {X U : Type}.
  Implicit Types (g : register X) (P : ref -> Prop).
  Lemma rget_cong r r' g : norm r = norm r' -> rget r g = rget r' g.
  Proof. apply (aget_cong ref_eqb norm ref_eqb_norm). Qed.
  Lemma rget_aset r r' l g : rget r (aset ref_eqb r' l g) = if ref_eqb r' r then Some l else rget r g.
  Proof. apply (aget_aset ref_eqb norm ref_eqb_norm). Qed.
  Lemma rget_store r r' c e g : rget r (store r' c e g) = if ref_eqb r' r then Some (aset Nat.eqb c e (streams r g)) else rget r g.
  Proof.
    unfold store. rewrite rget_aset. destruct (ref_eqb r' r) eqn:E; [|reflexivity]. apply ref_eqb_norm in E.
    unfold streams. now rewrite (rget_cong _ _ g E).
  Qed.
  Lemma rget_store_all r r' m g : rget r (store_all r' m g) =
    if ref_eqb r' r then Some (fold_left (fun l e => aset Nat.eqb (fst e) (snd e) l) m (streams r g)) else rget r g.
  Proof.
    unfold store_all. rewrite rget_aset. destruct (ref_eqb r' r) eqn:E; [|reflexivity]. apply ref_eqb_norm in E.
    unfold streams. now rewrite (rget_cong _ _ g E).
  Qed.
  Lemma rget_delete r r' g : rget r (delete r' g) = if ref_eqb r' r then None else rget r g.
  Proof. apply (aget_adel ref_eqb norm ref_eqb_norm). Qed.
  Lemma rget_deletes r ts : forall g, rget r (fold_left (fun g t => delete t g) ts g) = if rmem r ts then None else rget r g.
  Proof.
    induction ts as [|t ts IH]; intros g; [reflexivity|]. cbn [fold_left rmem existsb]. rewrite IH, rget_delete. fold (rmem r ts).
    rewrite (ref_eqb_sym t r). destruct (ref_eqb r t); cbn [orb]; [now destruct (rmem r ts)|reflexivity].
  Qed.

  (** the registers agree on some references *)
  Definition agree (P : ref -> Prop) g g' : Prop := forall r, P (norm r) -> rget r g = rget r g'.
  Lemma agree_streams P g g' r : agree P g g' -> P (norm r) -> streams r g = streams r g'.
  Proof. intros A H. unfold streams. now rewrite (A r H). Qed.
  Lemma agree_aset P g g' r l : agree P g g' -> agree P (aset ref_eqb r l g) (aset ref_eqb r l g').
  Proof. intros A x Hx. rewrite !rget_aset. destruct (ref_eqb r x); [reflexivity|now apply A]. Qed.
  Lemma agree_store P g g' r c e : agree P g g' -> P (norm r) -> agree P (store r c e g) (store r c e g').
  Proof. intros A H. unfold store. rewrite (agree_streams P g g' r A H). now apply agree_aset. Qed.
  Lemma agree_stores P r (l : list (nat * entry X)) : P (norm r) -> forall g g', agree P g g' ->
    agree P (fold_left (fun g e => store r (fst e) (snd e) g) l g) (fold_left (fun g e => store r (fst e) (snd e) g) l g').
  Proof. intros H. induction l as [|e l IH]; intros g g' A; [exact A|]. cbn [fold_left]. apply IH. now apply agree_store. Qed.
  Lemma agree_stores1 P r e cs : P (norm r) -> forall g g', agree P g g' ->
    agree P (fold_left (fun g c => store r c e g) cs g) (fold_left (fun g c => store r c e g) cs g').
  Proof. intros H. induction cs as [|c cs IH]; intros g g' A; [exact A|]. cbn [fold_left]. apply IH. now apply agree_store. Qed.
  Lemma agree_items P g g' r : agree P g g' -> P (norm r) -> items_for r g = items_for r g'.
  Proof. intros A H. unfold items_for. now rewrite (A r H). Qed.
  Lemma agree_sub (P Q : ref -> Prop) g g' : (forall r, Q r -> P r) -> agree P g g' -> agree Q g g'.
  Proof. intros S A r H. apply A. now apply S. Qed.
  (** writing outside *)
  Lemma agree_store_r P g g' r c e : agree P g g' -> ~ P (norm r) -> agree P (store r c e g) g'.
  Proof.
    intros A N x Hx. rewrite rget_store. destruct (ref_eqb r x) eqn:E; [|now apply A]. exfalso. apply ref_eqb_norm in E. apply N. now rewrite E.
  Qed.

  Lemma rmapM_ext_in {A B} (f h : A -> result B) l : (forall a, In a l -> f a = h a) -> rmapM f l = rmapM h l.
  Proof.
    induction l as [|a l IH]; intros H; [reflexivity|]. cbn [rmapM]. rewrite (H a) by now left. rewrite IH; [reflexivity|]. intros b Hb. apply H. now right.
  Qed.

  Variable s : semantics X U.
  Lemma agree_dataset P g g' c r : agree P g g' -> (P (norm r) \/ is_const r = true) -> dataset_of s g c r = dataset_of s g' c r.
  Proof.
    intros A [H|H].
    - destruct r; cbn [dataset_of]; try reflexivity; unfold load; now rewrite (A _ H).
    - destruct r; try discriminate. reflexivity.
  Qed.
  Lemma agree_gather P g g' c args kwargs : agree P g g' -> (forall r, In r (args ++ map snd kwargs) -> P (norm r) \/ is_const r = true) ->
    gather s g c args kwargs = gather s g' c args kwargs.
  Proof.
    intros A H. unfold gather.
    rewrite (rmapM_ext_in (dataset_of s g c) (dataset_of s g' c) args).
    - rewrite (rmapM_ext_in (fun e => dataset_of s g c (snd e)) (fun e => dataset_of s g' c (snd e)) kwargs); [reflexivity|].
      intros e He. apply (agree_dataset P); [exact A|]. apply H. rewrite in_app_iff. right. now apply in_map.
    - intros r Hr. apply (agree_dataset P); [exact A|]. apply H. rewrite in_app_iff. now left.
  Qed.
  Lemma agree_calls P g g' m args kwargs pl cs : agree P g g' -> (forall r, In r (args ++ map snd kwargs) -> P (norm r) \/ is_const r = true) ->
    forall u, call_contexts s pl u cs m args kwargs g = call_contexts s pl u cs m args kwargs g'.
  Proof.
    intros A H. induction cs as [|c cs IH]; intros u; [reflexivity|]. cbn [call_contexts].
    assert (E : call_context s pl u c m args kwargs g = call_context s pl u c m args kwargs g').
    { unfold call_context. now rewrite (agree_gather P g g' c args kwargs A H). }
    rewrite E. destruct (call_context s pl u c m args kwargs g') as [[l|e] u']; [|reflexivity]. now rewrite IH.
  Qed.

  (** results that agree *)
  Definition alike (P : ref -> Prop) (a b : world U * result (register X * option (output (X:=X)))) : Prop :=
    fst a = fst b /\
    match snd a, snd b with
    | Ok (g, o), Ok (g', o') => o = o' /\ agree P g g'
    | Err e, Err e' => e = e'
    | _, _ => False
    end.
  Lemma exec_agree (P : ref -> Prop) i w g g' : agree P g g' -> (forall r, In r (mentions i) -> P (norm r) \/ is_const r = true /\ ~ (exists e cs, i = StoreValue r e cs)) ->
    (forall a r t, i = LoadAttribute r t a -> P (norm r)) -> (forall r, In r (produces i) -> P (norm r)) -> (forall d r, i = MoveActivations d r -> P (norm r)) ->
    (forall os, i = ReturnOutputs os -> forall r, In r os -> P (norm r)) ->
    alike P (exec s i w g) (exec s i w g').
  Proof.
    intros A H HL HP HM HR. destruct i as [t e cs|src t a|m args kwargs t cs|m args kwargs d|os|ts|sp m|d r]; unfold alike; cbn [exec].
    - cbn [fst snd rmap]. split; [reflexivity|]. split; [reflexivity|]. apply agree_stores1; [|exact A].
      destruct (H t) as [?|[_ N]]; [now left|assumption|]. exfalso. apply N. eauto.
    - cbn [fst snd]. split; [reflexivity|]. rewrite (agree_items P g g' src A (HL _ _ _ eq_refl)). destruct (items_for src g') as [l|e]; [|reflexivity]. cbn [rbind].
      destruct (rmapM _ l) as [l'|e]; [|reflexivity]. cbn [rbind rmap]. split; [reflexivity|]. apply agree_stores; [|exact A]. apply HP. now left.
    - assert (C : forall u, call_contexts s (w_place w) u cs m args kwargs g = call_contexts s (w_place w) u cs m args kwargs g').
      { apply (agree_calls P); [exact A|]. intros r Hr. destruct (H r) as [?|[? _]]; [|now left|now right]. unfold mentions. rewrite in_app_iff. now left. }
      rewrite C. destruct (call_contexts s (w_place w) (w_user w) cs m args kwargs g') as [[l|e] u']; cbn [rmap fst snd]; [|split; reflexivity].
      split; [reflexivity|]. split; [reflexivity|]. unfold store_all. rewrite (agree_streams P g g' t A (HP t (or_introl eq_refl))). now apply agree_aset.
    - assert (C : rmapM (fun c => gather s g c args kwargs) (d_contexts d) = rmapM (fun c => gather s g' c args kwargs) (d_contexts d)).
      { apply rmapM_ext_in. intros c _. apply (agree_gather P); [exact A|]. intros r Hr. destruct (H r) as [?|[? _]]; [|now left|now right]. unfold mentions. rewrite in_app_iff. now left. }
      rewrite C. clear C. destruct (rmapM _ (d_contexts d)) as [bs|e]; [|split; reflexivity]. destruct (optimize s (w_place w) (w_user w) (d_fn d) m bs) as [[[]|e] u']; cbn [rmap fst snd]; [|split; reflexivity].
      split; [reflexivity|]. split; [reflexivity|exact A].
    - cbn [fst snd]. split; [reflexivity|]. rewrite (rmapM_ext_in (fun r => items_for r g) (fun r => items_for r g') os).
      + destruct (rmapM _ os) as [ls|e]; [|reflexivity]. cbn [rbind]. destruct (rmapM _ (by_context (concat ls) [])) as [o|e]; [|reflexivity]. cbn [rbind]. now split.
      + intros r Hr. apply (agree_items P); [exact A|]. now apply (HR os).
    - cbn [fst snd rmap]. split; [reflexivity|]. split; [reflexivity|]. intros r Hr. rewrite !rget_deletes. destruct (rmem r ts); [reflexivity|now apply A].
    - cbn [fst snd]. split; [reflexivity|]. now split.
    - cbn [fst snd]. split; [reflexivity|]. rewrite (agree_items P g g' r A (HM _ _ eq_refl)). destruct (items_for r g') as [l|e]; [|reflexivity]. cbn [rbind].
      destruct (rmapM _ l) as [l'|e]; [|reflexivity]. cbn [rbind rmap]. split; [reflexivity|]. apply agree_stores; [|exact A]. now apply (HM d).
  Qed.
End Reg.
