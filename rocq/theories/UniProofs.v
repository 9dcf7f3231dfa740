(** Proofs about the placeholders of uninitialised tensors. *)
From Coq Require Import String Ascii Permutation.
From Verif Require Import Prelude UniModel UniSpec.
Local Open Scope nat_scope.
Local Open Scope list_scope.

Arguments has : simpl never.
Lemma has_in l k : has l k = true <-> In k l.
Proof. unfold has. rewrite existsb_exists. split; [intros (x & Hx & E); apply String.eqb_eq in E; now subst|intros H; exists k; split; [exact H|apply String.eqb_refl]]. Qed.
Lemma has_notin l k : has l k = false <-> ~ In k l.
Proof. rewrite <- has_in. now destruct (has l k). Qed.
Lemma put_new k v l : ~ In k (map fst l) -> put k v l = l ++ [(k, v)].
Proof.
  induction l as [|[k' v'] l IH]; cbn; intros H; [reflexivity|]. destruct (String.eqb_spec k k') as [->|]; [exfalso; now apply H; left|].
  rewrite IH; [reflexivity|intros K; apply H; now right].
Qed.
Lemma without_keys {A} k (l : list (string * A)) : map fst (without k l) = filter (fun k' => negb (String.eqb k k')) (map fst l).
Proof. unfold without. induction l as [|[k' v] l IH]; cbn; [reflexivity|]. destruct (String.eqb k k'); cbn; now rewrite IH. Qed.
Lemma without_notin {A} k (l : list (string * A)) : ~ In k (map fst (without k l)).
Proof. rewrite without_keys, filter_In, String.eqb_refl. now intros [_ ?]. Qed.

(** one replacement, when the name is there *)
Definition replaced (u : umod) (k : string) (t : tensor) (is_param : bool) : umod :=
  if is_param then mkU (without k (u_params u) ++ [(k, Some t)]) (u_buffers u) (u_transient u) (u_other u)
  else mkU (u_params u) (without k (u_buffers u) ++ [(k, Some t)]) (filter (fun k' => negb (String.eqb k k')) (u_transient u)) (u_other u).
Definition names (is_param : bool) (u : umod) : list string := map fst (if is_param then u_params u else u_buffers u).

Lemma nodup_parts {A} (a b c : list A) : NoDup (a ++ b ++ c) -> forall x, (In x a -> ~ In x b /\ ~ In x c) /\ (In x b -> ~ In x c).
Proof.
  intros N x. split.
  - intros Ha. induction a as [|y a IH]; [destruct Ha|]. cbn in N. inversion N as [|? ? Ny N']; subst. destruct Ha as [->|Ha]; [|now apply IH].
    rewrite !in_app_iff in Ny. split; intros K; apply Ny; tauto.
  - intros Hb. induction a as [|y a IH]; [|cbn in N; inversion N; subst; now apply IH]. cbn in N.
    induction b as [|y b IH]; [destruct Hb|]. cbn in N. inversion N as [|? ? Ny N']; subst. destruct Hb as [->|Hb]; [|now apply IH].
    intros K. apply Ny, in_app_iff. now right.
Qed.
Lemma without_id {A} k (l : list (string * A)) : ~ In k (map fst l) -> without k l = l.
Proof.
  induction l as [|[k' v] l IH]; cbn; intros H; [reflexivity|]. destruct (String.eqb_spec k k') as [->|]; [exfalso; now apply H; left|].
  cbn. f_equal. apply IH. intros K. apply H. now right.
Qed.
Lemma move_perm {A} k (v : A) l : NoDup (map fst l) -> In k (map fst l) -> Permutation (map fst (without k l ++ [(k, v)])) (map fst l).
Proof.
  intros N H. rewrite map_app. cbn. rewrite Permutation_app_comm. cbn. revert N H. induction l as [|[k' v'] l IH]; cbn; intros N H; [destruct H|].
  inversion N as [|? ? Nk N']; subst. destruct (String.eqb_spec k k') as [<-|Ne]; cbn.
  - fold (without k l). now rewrite without_id.
  - destruct H as [H|H]; [congruence|]. fold (without k l). etransitivity; [apply perm_swap|]. apply perm_skip. now apply IH.
Qed.
Lemma nodup_app_l {A} (a b : list A) : NoDup (a ++ b) -> NoDup a.
Proof. induction a as [|x a IH]; cbn; intros N; [constructor|]. inversion N as [|? ? Nx N']; subst. constructor; [intros K; apply Nx, in_app_iff; now left|now apply IH]. Qed.
Lemma nodup_app_r {A} (a b : list A) : NoDup (a ++ b) -> NoDup b.
Proof. induction a as [|x a IH]; cbn; intros N; [exact N|]. inversion N; subst. now apply IH. Qed.
Lemma ok_params u : module_ok u -> NoDup (map fst (u_params u)).
Proof. intros [N _]. exact (nodup_app_l _ _ N). Qed.
Lemma ok_buffers u : module_ok u -> NoDup (map fst (u_buffers u)).
Proof. intros [N _]. exact (nodup_app_l _ _ (nodup_app_r _ _ N)). Qed.

Lemma replaced_ok u k t p : module_ok u -> In k (names p u) -> module_ok (replaced u k t p) /\ forall q x, In x (names q (replaced u k t p)) <-> In x (names q u).
Proof.
  intros O H. pose proof O as [N I]. destruct p; cbn in H |- *.
  - assert (P : Permutation (map fst (without k (u_params u) ++ [(k, Some t)])) (map fst (u_params u))) by (apply move_perm; [now apply ok_params|exact H]).
    split.
    + split; [|exact I]. cbn. refine (Permutation_NoDup _ N). apply Permutation_app_tail. now apply Permutation_sym.
    + intros [] x; cbn; [|reflexivity]. split; intros K; [now apply (Permutation_in _ P)|now apply (Permutation_in _ (Permutation_sym P))].
  - assert (P : Permutation (map fst (without k (u_buffers u) ++ [(k, Some t)])) (map fst (u_buffers u))) by (apply move_perm; [now apply ok_buffers|exact H]).
    split.
    + split; cbn; [|intros x Hx; apply filter_In in Hx as [Hx _]; apply (Permutation_in _ (Permutation_sym P)); now apply I].
      refine (Permutation_NoDup _ N). apply Permutation_app_head, Permutation_app_tail. now apply Permutation_sym.
    + intros [] x; cbn; [reflexivity|]. split; intros K; [now apply (Permutation_in _ P)|now apply (Permutation_in _ (Permutation_sym P))].
Qed.
Lemma filter_twice (f : string -> bool) l : filter f (filter f l) = filter f l.
Proof. induction l as [|x l IH]; cbn; [reflexivity|]. destruct (f x) eqn:E; cbn; [rewrite E|]; now rewrite IH. Qed.
Lemma replace_replaced (w : heap) m k t p : module_ok (w m) -> In k (names p (w m)) -> replace w m k t p = (upd w m (replaced (w m) k t p), None).
Proof.
  intros [N I] H. unfold replace, delattr, register, replaced. destruct (nodup_parts _ _ _ N k) as [Np Nb]. destruct p; cbn in H.
  - rewrite (proj2 (has_in _ _) H). cbn. destruct (Np H) as [Hb Ho]. rewrite (proj2 (has_notin _ _) Hb), (proj2 (has_notin _ _) Ho). cbn.
    rewrite put_new; [reflexivity|apply without_notin].
  - assert (Hp : ~ In k (map fst (u_params (w m)))) by (intros K; now destruct (Np K)).
    rewrite (proj2 (has_notin _ _) Hp), (proj2 (has_in _ _) H). cbn. rewrite (proj2 (has_notin _ _) Hp), (proj2 (has_notin _ _) (Nb H)). cbn.
    rewrite put_new; [|apply without_notin]. now rewrite filter_twice.
Qed.

(** many replacements *)
Definition i_mod (i : item) : nat := fst (fst (fst i)).
Definition i_name (i : item) : string := snd (fst (fst i)).
Definition i_tensor (i : item) : tensor := snd (fst i).
Definition i_param (i : item) : bool := snd i.
Definition put1 (u : umod) (i : item) : umod := replaced u (i_name i) (i_tensor i) (i_param i).
Definition puts (w : heap) (l : list item) : heap := fold_left (fun w i => upd w (i_mod i) (put1 (w (i_mod i)) i)) l w.
Definition mine (m : nat) (l : list item) : list item := filter (fun i => i_mod i =? m) l.

Lemma puts_at l : forall w m, puts w l m = fold_left put1 (mine m l) (w m).
Proof.
  induction l as [|i l IH]; intros w m; cbn; [reflexivity|]. fold (puts (upd w (i_mod i) (put1 (w (i_mod i)) i)) l). rewrite IH. unfold upd.
  rewrite (Nat.eqb_sym m). destruct (Nat.eqb_spec (i_mod i) m) as [->|]; cbn; reflexivity.
Qed.
Lemma puts_app w a b : puts w (a ++ b) = puts (puts w a) b.
Proof. unfold puts. apply fold_left_app. Qed.
(** all modules in order, all names known *)
Definition fits (w : heap) (l : list item) : Prop := forall i, In i l -> module_ok (w (i_mod i)) /\ In (i_name i) (names (i_param i) (w (i_mod i))).
Lemma fits_upd w l i : fits w (i :: l) -> fits (upd w (i_mod i) (put1 (w (i_mod i)) i)) l.
Proof.
  intros F j Hj. destruct (F i (or_introl eq_refl)) as [Oi Ni]. destruct (F j (or_intror Hj)) as [Oj Nj].
  unfold upd. destruct (Nat.eqb_spec (i_mod j) (i_mod i)) as [E|]; [|now split]. rewrite E in *.
  destruct (replaced_ok _ _ (i_tensor i) _ Oi Ni) as [O K]. split; [exact O|now apply K].
Qed.
Lemma restore_all l : forall w, fits w l -> each restore w l = (puts w l, None).
Proof.
  induction l as [|i l IH]; intros w F; cbn [each]; [reflexivity|]. destruct (F i (or_introl eq_refl)) as [O N].
  destruct i as [[[m k] t] p] eqn:Ei. cbn [restore]. change m with (i_mod (m, k, t, p)) in O, N. cbn in O, N. rewrite (replace_replaced w m k t p O N).
  rewrite IH; [reflexivity|]. exact (fits_upd w l (m, k, t, p) F).
Qed.
Lemma puts_names w l : fits w l -> forall m q x, (module_ok (w m) -> module_ok (puts w l m)) /\ (In x (names q (puts w l m)) <-> In x (names q (w m))).
Proof.
  revert w. induction l as [|i l IH]; intros w F m q x; [cbn; tauto|]. destruct (F i (or_introl eq_refl)) as [O N].
  specialize (IH _ (fits_upd w l i F) m q x). cbn. fold (puts (upd w (i_mod i) (put1 (w (i_mod i)) i)) l).
  destruct (replaced_ok _ _ (i_tensor i) _ O N) as [O' K].
  assert (E : (module_ok (w m) -> module_ok (upd w (i_mod i) (put1 (w (i_mod i)) i) m)) /\ (In x (names q (upd w (i_mod i) (put1 (w (i_mod i)) i) m)) <-> In x (names q (w m)))).
  { unfold upd. destruct (Nat.eqb_spec m (i_mod i)) as [->|]; [|tauto]. split; [intros _; exact O'|apply K]. }
  destruct IH as [IH1 IH2]. destruct E as [E1 E2]. split; [tauto|]. rewrite IH2. exact E2.
Qed.

(** placeholders instead of the tensors *)
Definition shadow (i j : item) : Prop := i_mod j = i_mod i /\ i_name j = i_name i /\ i_param j = i_param i /\ t_uninit (i_tensor j) = false.
Definition picked (m : nat) (p : bool) (l : list (string * tensor)) : list item :=
  map (fun e => (m, fst e, snd e, p)) (filter (fun e => t_uninit (snd e)) l).
Lemma picked_mod m p l i : In i (picked m p l) -> i_mod i = m /\ i_param i = p /\ In (i_name i, i_tensor i) l /\ t_uninit (i_tensor i) = true.
Proof. unfold picked. rewrite in_map_iff. intros ([k t] & <- & H). apply filter_In in H as [H U]. now repeat split. Qed.

Lemma swap_all p m l : forall w next saved, fits w (picked m p l) ->
  exists js next', Forall2 shadow (picked m p l) js /\ each (swap p m) (w, next, saved) l = ((puts w js, next', saved ++ picked m p l), None).
Proof.
  induction l as [|[k t] l IH]; intros w next saved F; cbn [each].
  - exists [], next. split; [constructor|]. cbn. now rewrite app_nil_r.
  - unfold swap at 1. cbn [fst snd]. unfold picked in F |- *. cbn [filter] in F |- *. cbn [snd] in F |- *. destruct (t_uninit t) eqn:U.
    + cbn [map] in F |- *. destruct (F _ (or_introl eq_refl)) as [O N]. cbn in O, N. rewrite (replace_replaced w m k (mkT next false) p O N).
      set (j := (m, k, mkT next false, p) : item).
      assert (F' : fits (upd w m (replaced (w m) k (mkT next false) p)) (picked m p l)).
      { apply (fits_upd w (picked m p l) j). intros i [<-|Hi]; [now split|]. apply F. now right. }
      destruct (IH _ (S next) (saved ++ [(m, k, t, p)]) F') as (js & next' & S & E). exists (j :: js), next'. split.
      * constructor; [now repeat split|exact S].
      * rewrite E. rewrite <- app_assoc. reflexivity.
    + destruct (IH w next saved F) as (js & next' & S & E). now exists js, next'.
Qed.

Definition items_of (m : nat) (u : umod) : list item := picked m true (members [] (u_params u)) ++ picked m false (members [] (u_buffers u)).
Lemma members_in l : forall seen k t, In (k, t) (members seen l) -> In (k, Some t) l.
Proof.
  induction l as [|[k' [t'|]] l IH]; cbn; intros seen k t H; [destruct H| |right; now apply (IH seen)].
  destruct (existsb _ seen); [right; now apply (IH seen)|]. destruct H as [[= -> ->]|H]; [now left|right; now apply (IH (t_id t' :: seen))].
Qed.
Lemma items_fit (w : heap) m : module_ok (w m) -> fits w (items_of m (w m)).
Proof.
  intros O i Hi. unfold items_of in Hi. apply in_app_iff in Hi as [Hi|Hi]; apply picked_mod in Hi as (-> & -> & Hi & _); (split; [exact O|]); cbn;
    apply members_in in Hi; now apply (in_map fst) in Hi.
Qed.
Lemma fits_shadow w l js : Forall2 shadow l js -> fits w l -> fits w js.
Proof.
  intros S F j Hj. induction S as [|i j' l js (E1 & E2 & E3 & _) S IH]; [destruct Hj|].
  destruct Hj as [->|Hj]; [rewrite E1, E2, E3; apply F; now left|]. apply IH; [|exact Hj]. intros x Hx. apply F. now right.
Qed.
Lemma shadow_mods l js : Forall2 shadow l js -> map i_mod js = map i_mod l.
Proof. induction 1 as [|i j l js (E & _) S IH]; cbn; [reflexivity|]. now rewrite E, IH. Qed.
Lemma puts_other w l m : ~ In m (map i_mod l) -> puts w l m = w m.
Proof.
  intros H. rewrite puts_at. replace (mine m l) with (@nil item); [reflexivity|]. unfold mine. induction l as [|i l IH]; cbn; [reflexivity|].
  destruct (Nat.eqb_spec (i_mod i) m) as [E|]; [exfalso; apply H; now left|]. apply IH. intros K. apply H. now right.
Qed.
Lemma items_mods m u i : In i (items_of m u) -> i_mod i = m.
Proof. unfold items_of. rewrite in_app_iff. intros [H|H]; now apply picked_mod in H. Qed.

Lemma fold_true_buffers l : forall u, (forall i, In i l -> i_param i = true) -> u_buffers (fold_left put1 l u) = u_buffers u.
Proof.
  induction l as [|i l IH]; intros u H; cbn; [reflexivity|]. rewrite IH; [|intros j Hj; apply H; now right].
  unfold put1, replaced. rewrite (H i (or_introl eq_refl)). reflexivity.
Qed.
Lemma mine_all m l : (forall i, In i l -> i_mod i = m) -> mine m l = l.
Proof. unfold mine. induction l as [|i l IH]; intros H; cbn; [reflexivity|]. rewrite (H i (or_introl eq_refl)), Nat.eqb_refl. f_equal. apply IH. intros j Hj. apply H. now right. Qed.
Lemma shadow_in l js j : Forall2 shadow l js -> In j js -> exists i, In i l /\ shadow i j.
Proof. induction 1 as [|i j' l js S F IH]; intros [].
  - subst. exists i. split; [now left|exact S].
  - destruct (IH H) as (i' & Hi & Si). exists i'. split; [now right|exact Si].
Qed.
Lemma swap_module_all m (w : heap) next saved : module_ok (w m) ->
  exists js next', Forall2 shadow (items_of m (w m)) js /\ swap_module (w, next, saved) m = ((puts w js, next', saved ++ items_of m (w m)), None).
Proof.
  intros O. pose proof (items_fit w m O) as F. unfold swap_module. cbn [fst]. unfold items_of in *.
  set (a := picked m true (members [] (u_params (w m)))) in *. set (b := picked m false (members [] (u_buffers (w m)))) in *.
  assert (Fa : fits w a) by (intros i Hi; apply F, in_app_iff; now left).
  assert (Fb : fits w b) by (intros i Hi; apply F, in_app_iff; now right).
  destruct (swap_all true m _ w next saved Fa) as (js & n1 & S1 & E1). rewrite E1. cbn [fst]. fold a.
  assert (Eb : u_buffers (puts w js m) = u_buffers (w m)).
  { rewrite puts_at. apply fold_true_buffers. intros j Hj. unfold mine in Hj. apply filter_In in Hj as [Hj _].
    destruct (shadow_in _ _ j S1 Hj) as (i & Hi & (_ & _ & -> & _)). now apply picked_mod in Hi. }
  rewrite Eb.
  assert (Fb' : fits (puts w js) b).
  { intros i Hi. destruct (Fb i Hi) as [Oi Ni]. pose proof (puts_names w js (fits_shadow w a js S1 Fa) (i_mod i) (i_param i) (i_name i)) as [K1 K2]. split; [now apply K1|now apply K2]. }
  destruct (swap_all false m _ (puts w js) n1 (saved ++ a) Fb') as (ks & n2 & S2 & E2). exists (js ++ ks), n2. split; [now apply Forall2_app|].
  rewrite E2, puts_app, <- app_assoc. reflexivity.
Qed.
Lemma enter_all ms : forall (w : heap) next saved, NoDup ms -> (forall m, In m ms -> module_ok (w m)) ->
  exists js next', Forall2 shadow (flat_map (fun m => items_of m (w m)) ms) js /\
    each swap_module (w, next, saved) ms = ((puts w js, next', saved ++ flat_map (fun m => items_of m (w m)) ms), None).
Proof.
  induction ms as [|m ms IH]; intros w next saved N O; cbn [each flat_map].
  - exists [], next. split; [constructor|]. cbn. now rewrite app_nil_r.
  - inversion N as [|? ? Nm N']; subst. destruct (swap_module_all m w next saved (O m (or_introl eq_refl))) as (js & n1 & S1 & E1). rewrite E1.
    assert (U : forall m', In m' ms -> puts w js m' = w m').
    { intros m' H'. apply puts_other. rewrite (shadow_mods _ _ S1). rewrite in_map_iff. intros (i & Ei & Hi). apply items_mods in Hi. congruence. }
    destruct (IH (puts w js) n1 (saved ++ items_of m (w m)) N') as (ks & n2 & S2 & E2).
    { intros m' H'. rewrite (U m' H'). apply O. now right. }
    assert (Efm : flat_map (fun m => items_of m (puts w js m)) ms = flat_map (fun m => items_of m (w m)) ms).
    { clear -U. induction ms as [|x ms IH]; cbn; [reflexivity|]. rewrite (U x (or_introl eq_refl)), IH; [reflexivity|]. intros y Hy. apply U. now right. }
    rewrite Efm in *. exists (js ++ ks), n2. split; [now apply Forall2_app|]. rewrite E2, puts_app, <- app_assoc. reflexivity.
Qed.
Lemma mine_items ms (w : heap) m : NoDup ms -> mine m (flat_map (fun m => items_of m (w m)) ms) = if existsb (Nat.eqb m) ms then items_of m (w m) else [].
Proof.
  induction ms as [|x ms IH]; intros N; cbn [flat_map existsb]; [reflexivity|]. inversion N as [|? ? Nx N']; subst.
  unfold mine. rewrite filter_app. fold (mine m (items_of x (w x))) (mine m (flat_map (fun m => items_of m (w m)) ms)). rewrite IH by exact N'.
  destruct (Nat.eqb_spec m x) as [->|Ne]; cbn [orb].
  - rewrite mine_all by apply items_mods. replace (existsb (Nat.eqb x) ms) with false; [now rewrite app_nil_r|].
    symmetry. apply not_true_is_false. rewrite existsb_exists. intros (y & Hy & E). apply Nat.eqb_eq in E. now subst.
  - replace (mine m (items_of x (w x))) with (@nil item); [reflexivity|]. symmetry. unfold mine.
    assert (H : forall i, In i (items_of x (w x)) -> i_mod i <> m) by (intros i Hi; apply items_mods in Hi; congruence).
    revert H. generalize (items_of x (w x)) as l. induction l as [|i l IHl]; intros H; cbn; [reflexivity|].
    destruct (Nat.eqb_spec (i_mod i) m) as [E|]; [exfalso; now apply (H i (or_introl eq_refl))|]. apply IHl. intros j Hj. apply H. now right.
Qed.
Lemma mine_shadow m l js : Forall2 shadow l js -> Forall2 shadow (mine m l) (mine m js).
Proof. induction 1 as [|i j l js S F IH]; cbn; [constructor|]. destruct S as (E & S). rewrite E. destruct (i_mod i =? m); [constructor; [now split|exact IH]|exact IH]. Qed.

(** the effect on one table *)
Definition entry (i : item) : string * option tensor := (i_name i, Some (i_tensor i)).
Definition keeps (l : list item) (e : string * option tensor) : bool := negb (existsb (fun i => String.eqb (i_name i) (fst e)) l).
Lemma keeps_cons i l (tb : table) : filter (keeps l) (without (i_name i) tb) = filter (keeps (i :: l)) tb.
Proof.
  induction tb as [|[k v] tb IH]; cbn; [reflexivity|]. unfold keeps at 2. cbn. destruct (String.eqb (i_name i) k) eqn:E; cbn.
  - exact IH.
  - fold (keeps l (k, v)). unfold without in IH. rewrite IH. reflexivity.
Qed.
Lemma move_all l : NoDup (map i_name l) -> forall tb, fold_left (fun tb i => without (i_name i) tb ++ [entry i]) l tb = filter (keeps l) tb ++ map entry l.
Proof.
  induction l as [|i l IH]; intros N tb; cbn [fold_left map].
  - rewrite app_nil_r. symmetry. induction tb as [|e tb IHt]; cbn; [reflexivity|]. now rewrite IHt.
  - inversion N as [|? ? Ni N']; subst. rewrite IH by exact N'. rewrite filter_app, keeps_cons. cbn [filter].
    replace (keeps l (entry i)) with true; [now rewrite <- app_assoc|]. symmetry. unfold keeps. apply negb_true_iff, not_true_is_false. rewrite existsb_exists.
    intros (j & Hj & E). apply String.eqb_eq in E. cbn in E. apply Ni. rewrite <- E. now apply in_map.
Qed.
Definition of_kind (p : bool) (l : list item) : list item := filter (fun i => Bool.eqb (i_param i) p) l.
Lemma fold_params l : forall u, u_params (fold_left put1 l u) = fold_left (fun tb i => without (i_name i) tb ++ [entry i]) (of_kind true l) (u_params u).
Proof.
  induction l as [|i l IH]; intros u; cbn; [reflexivity|]. rewrite IH. unfold put1, replaced. destruct (i_param i) eqn:E; cbn; reflexivity.
Qed.
Lemma fold_buffers l : forall u, u_buffers (fold_left put1 l u) = fold_left (fun tb i => without (i_name i) tb ++ [entry i]) (of_kind false l) (u_buffers u).
Proof.
  induction l as [|i l IH]; intros u; cbn; [reflexivity|]. rewrite IH. unfold put1, replaced. destruct (i_param i) eqn:E; cbn; reflexivity.
Qed.
Lemma fold_other l : forall u, u_other (fold_left put1 l u) = u_other u.
Proof. induction l as [|i l IH]; intros u; cbn; [reflexivity|]. rewrite IH. unfold put1, replaced. now destruct (i_param i). Qed.
Lemma fold_transient l : forall u k, In k (u_transient (fold_left put1 l u)) <-> In k (u_transient u) /\ ~ In k (map i_name (of_kind false l)).
Proof.
  induction l as [|i l IH]; intros u k; cbn; [tauto|]. rewrite IH. unfold put1, replaced. destruct (i_param i) eqn:E; cbn; [reflexivity|].
  rewrite filter_In. destruct (String.eqb_spec (i_name i) k) as [->|Ne]; cbn; split; intuition congruence.
Qed.
Lemma of_kind_shadow p l js : Forall2 shadow l js -> Forall2 shadow (of_kind p l) (of_kind p js).
Proof. induction 1 as [|i j l js S F IH]; cbn; [constructor|]. destruct S as (E1 & E2 & E3 & E4). rewrite E3. destruct (Bool.eqb _ p); [constructor; [now repeat split|exact IH]|exact IH]. Qed.
Lemma shadow_names l js : Forall2 shadow l js -> map i_name js = map i_name l.
Proof. induction 1 as [|i j l js (_ & E & _) S IH]; cbn; [reflexivity|]. now rewrite E, IH. Qed.
Lemma keeps_names l js e : map i_name js = map i_name l -> keeps js e = keeps l e.
Proof.
  intros E. unfold keeps. f_equal. revert js E. induction l as [|i l IH]; intros [|j js] E; try discriminate; [reflexivity|]. cbn in *. injection E as E1 E2. now rewrite E1, (IH js E2).
Qed.
Lemma of_kind_items m u : of_kind true (items_of m u) = picked m true (members [] (u_params u)) /\ of_kind false (items_of m u) = picked m false (members [] (u_buffers u)).
Proof.
  unfold items_of, of_kind. rewrite !filter_app.
  assert (A : forall p l, filter (fun i => Bool.eqb (i_param i) p) (picked m p l) = picked m p l).
  { intros p l. unfold picked. induction (filter _ l) as [|e l' IH]; cbn; [reflexivity|]. unfold i_param at 1. cbn. rewrite eqb_reflx. f_equal. exact IH. }
  assert (B : forall p q l, p <> q -> filter (fun i => Bool.eqb (i_param i) p) (picked m q l) = []).
  { intros p q l Ne. unfold picked. induction (filter _ l) as [|e l' IH]; cbn; [reflexivity|]. unfold i_param at 1. cbn. destruct (Bool.eqb q p) eqn:E; [apply eqb_prop in E; congruence|exact IH]. }
  rewrite (A true), (A false), (B true false), (B false true); try discriminate. now rewrite app_nil_r.
Qed.
(** uninitialised entries that have a turn *)
Lemma members_keys l : forall seen, NoDup (map fst l) -> NoDup (map fst (members seen l)).
Proof.
  induction l as [|[k [t|]] l IH]; intros seen N; cbn; [constructor| |inversion N; subst; now apply IH]. inversion N as [|? ? Nk N']; subst.
  destruct (existsb _ seen); [now apply IH|]. cbn. constructor; [|now apply IH]. intros K. apply Nk. apply in_map_iff in K as ([k' t'] & E & H). cbn in E. subst k'.
  apply members_in in H. now apply (in_map fst) in H.
Qed.
Lemma picked_names m p l : map i_name (picked m p l) = map fst (filter (fun e => t_uninit (snd e)) l).
Proof. unfold picked. rewrite map_map. reflexivity. Qed.
Lemma filter_keys {A} (f : string * A -> bool) l : NoDup (map fst l) -> NoDup (map fst (filter f l)).
Proof.
  induction l as [|e l IH]; cbn; intros N; [constructor|]. inversion N as [|? ? Ne N']; subst. destruct (f e); [|now apply IH]. cbn. constructor; [|now apply IH].
  intros K. apply Ne. apply in_map_iff in K as (e' & E & H). apply filter_In in H as [H _]. rewrite <- E. now apply in_map.
Qed.
Definition turns (l : table) : list (string * option tensor) := map (fun e => (fst e, Some (snd e))) (filter (fun e => t_uninit (snd e)) (members [] l)).
Lemma entries_turns m p l : map entry (picked m p (members [] l)) = turns l.
Proof. unfold picked, turns. rewrite map_map. reflexivity. Qed.
Definition stays (l : table) (e : string * option tensor) : bool := negb (existsb (fun x => String.eqb (fst x) (fst e)) (turns l)).
Lemma keeps_stays m p l e : keeps (picked m p (members [] l)) e = stays l e.
Proof. unfold keeps, stays, turns, picked. f_equal. induction (filter _ _) as [|x xs IH]; cbn; [reflexivity|]. now rewrite IH. Qed.

(** What a table is while the body runs, and afterwards. *)
Definition shadows (a b : list (string * option tensor)) : Prop := Forall2 (fun x y => fst y = fst x /\ exists t, snd y = Some t /\ t_uninit t = false) a b.
Lemma kind_during p m l (js : list item) : NoDup (map fst l) -> Forall2 shadow (picked m p (members [] l)) js ->
  exists b, shadows (turns l) b /\ fold_left (fun tb i => without (i_name i) tb ++ [entry i]) js l = filter (stays l) l ++ b.
Proof.
  intros N S. exists (map entry js). split.
  - rewrite <- (entries_turns m p l). unfold shadows. clear N. induction S as [|i j li lj (E1 & E2 & E3 & E4) S IH]; cbn; constructor; [|exact IH].
    split; [exact E2|]. exists (i_tensor j). now split.
  - rewrite move_all.
    + f_equal. apply filter_ext. intros e. rewrite (keeps_names _ js e (shadow_names _ _ S)). apply keeps_stays.
    + rewrite (shadow_names _ _ S), picked_names. apply filter_keys. now apply members_keys.
Qed.
Lemma stays_turns l b : shadows (turns l) b -> filter (stays l) b = [].
Proof.
  unfold stays. intros S. assert (H : forall y, In y b -> existsb (fun x => String.eqb (fst x) (fst y)) (turns l) = true).
  { intros y Hy. apply existsb_exists. clear -S Hy. induction S as [|x y' a b [E _] S IH]; [destruct Hy|]. destruct Hy as [->|Hy].
    - exists x. split; [now left|]. rewrite E. apply String.eqb_refl.
    - destruct (IH Hy) as (x' & Hx & Ex). exists x'. split; [now right|exact Ex]. }
  clear S. induction b as [|y b IH]; cbn; [reflexivity|]. rewrite (H y (or_introl eq_refl)). cbn. apply IH. intros z Hz. apply H. now right.
Qed.
Lemma filter_stays_twice l : filter (stays l) (filter (stays l) l) = filter (stays l) l.
Proof. generalize (stays l) as f. intros f. induction l as [|x l IH]; cbn; [reflexivity|]. destruct (f x) eqn:E; cbn; [rewrite E|]; now rewrite IH. Qed.
Lemma kind_after p m l b : NoDup (map fst l) -> shadows (turns l) b ->
  fold_left (fun tb i => without (i_name i) tb ++ [entry i]) (picked m p (members [] l)) (filter (stays l) l ++ b) = filter (stays l) l ++ turns l.
Proof.
  intros N S. rewrite move_all by (rewrite picked_names; apply filter_keys; now apply members_keys).
  rewrite (entries_turns m p l). f_equal. rewrite (filter_ext _ _ (keeps_stays m p l)). rewrite filter_app, (stays_turns l b S), app_nil_r. apply filter_stays_twice.
Qed.

(** The tables after, in terms of those before. *)
Theorem placeholders_run A ms (body : heap -> nat -> result A * (heap * nat)) (w : heap) next : NoDup ms -> (forall m, In m ms -> module_ok (w m)) -> leaves_modules body ->
  exists w1 n1 w' n',
    with_placeholders ms body w next = (fst (body w1 n1), (w', n')) /\
    (forall m, ~ In m ms -> w1 m = w m /\ w' m = w m) /\
    forall m, In m ms ->
      (exists bp bb, shadows (turns (u_params (w m))) bp /\ shadows (turns (u_buffers (w m))) bb /\
        u_params (w1 m) = filter (stays (u_params (w m))) (u_params (w m)) ++ bp /\
        u_buffers (w1 m) = filter (stays (u_buffers (w m))) (u_buffers (w m)) ++ bb) /\
      u_params (w' m) = filter (stays (u_params (w m))) (u_params (w m)) ++ turns (u_params (w m)) /\
      u_buffers (w' m) = filter (stays (u_buffers (w m))) (u_buffers (w m)) ++ turns (u_buffers (w m)) /\
      u_other (w1 m) = u_other (w m) /\ u_other (w' m) = u_other (w m) /\
      (forall k, In k (u_transient (w' m)) <-> In k (u_transient (w m)) /\ ~ In k (map fst (turns (u_buffers (w m))))).
Proof.
  intros N O L. destruct (enter_all ms w next [] N O) as (js & n1 & S & E). unfold with_placeholders. rewrite E. cbn [app].
  set (saved := flat_map (fun m => items_of m (w m)) ms) in *. set (w1 := puts w js) in *.
  pose proof (L w1 n1) as K. destruct (body w1 n1) as [r [w2 n2]] eqn:Eb. cbn [fst snd] in K.
  assert (Fw : fits w saved).
  { intros i Hi. unfold saved in Hi. apply in_flat_map in Hi as (m & Hm & Hi). exact (items_fit w m (O m Hm) i Hi). }
  assert (F2 : fits w2 saved).
  { intros i Hi. rewrite K. destruct (Fw i Hi) as [Oi Ni]. destruct (puts_names w js (fits_shadow w saved js S Fw) (i_mod i) (i_param i) (i_name i)) as [K1 K2]. split; [now apply K1|now apply K2]. }
  rewrite (restore_all saved w2 F2). exists w1, n1, (puts w2 saved), n2. rewrite Eb. split; [reflexivity|].
  assert (Mi : forall m, mine m saved = if existsb (Nat.eqb m) ms then items_of m (w m) else []) by (intros m; now apply mine_items).
  split.
  - intros m Hm. assert (Z : mine m saved = []).
    { rewrite Mi. replace (existsb (Nat.eqb m) ms) with false; [reflexivity|]. symmetry. apply not_true_is_false. rewrite existsb_exists. intros (y & Hy & Ey). apply Nat.eqb_eq in Ey. now subst. }
    assert (Zj : mine m js = []).
    { pose proof (mine_shadow m saved js S) as M. rewrite Z in M. now inversion M. }
    assert (E1 : w1 m = w m) by (unfold w1; now rewrite puts_at, Zj). split; [exact E1|]. now rewrite puts_at, Z, K.
  - intros m Hm. assert (Z : mine m saved = items_of m (w m)).
    { rewrite Mi. replace (existsb (Nat.eqb m) ms) with true; [reflexivity|]. symmetry. apply existsb_exists. exists m. split; [exact Hm|apply Nat.eqb_refl]. }
    pose proof (mine_shadow m saved js S) as M. rewrite Z in M.
    destruct (of_kind_items m (w m)) as [Kp Kb]. pose proof (of_kind_shadow true _ _ M) as Mp. pose proof (of_kind_shadow false _ _ M) as Mb. rewrite Kp in Mp. rewrite Kb in Mb.
    destruct (kind_during true m (u_params (w m)) _ (ok_params _ (O m Hm)) Mp) as (bp & Sp & Dp).
    destruct (kind_during false m (u_buffers (w m)) _ (ok_buffers _ (O m Hm)) Mb) as (bb & Sb & Db).
    assert (P1 : u_params (w1 m) = filter (stays (u_params (w m))) (u_params (w m)) ++ bp) by (unfold w1; now rewrite puts_at, fold_params, Dp).
    assert (B1 : u_buffers (w1 m) = filter (stays (u_buffers (w m))) (u_buffers (w m)) ++ bb) by (unfold w1; now rewrite puts_at, fold_buffers, Db).
    assert (O1 : u_other (w1 m) = u_other (w m)) by (unfold w1; now rewrite puts_at, fold_other).
    rewrite puts_at, Z, K, fold_params, fold_buffers, fold_other, Kp, Kb, P1, B1.
    rewrite (kind_after true m _ bp (ok_params _ (O m Hm)) Sp), (kind_after false m _ bb (ok_buffers _ (O m Hm)) Sb).
    split; [exists bp, bb; now repeat split|]. split; [reflexivity|]. split; [reflexivity|]. split; [exact O1|]. split; [exact O1|].
    intros k. rewrite fold_transient, Kb. unfold w1. rewrite puts_at, fold_transient, (shadow_names _ _ Mb).
    assert (T : map i_name (picked m false (members [] (u_buffers (w m)))) = map fst (turns (u_buffers (w m)))).
    { rewrite picked_names. unfold turns. now rewrite map_map. }
    rewrite T. tauto.
Qed.
