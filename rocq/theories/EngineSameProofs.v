(** Offloaded programs compute the same, apart from devices. *)
From Coq Require Import String Ascii Permutation Relations.
From Verif Require Import Prelude GraphModel GraphSpec GraphProofs EngineModel EngineSpec EngineBaseProofs EngineLifeProofs EngineOptProofs EngineInputProofs EngineContextProofs EngineSchedProofs EngineOffloadProofs.
Local Open Scope nat_scope.
Local Open Scope list_scope.

Section ValInd.
  Context {X : Type} (P : val X -> Prop).
  Hypothesis H1 : forall d x, P (Tensor d x).
  Hypothesis H2 : forall n l, Forall P l -> P (Tup n l).
  Hypothesis H3 : forall l, Forall P l -> P (Lst l).
  Hypothesis H4 : forall l, Forall (fun e => P (snd e)) l -> P (Dic l).
  Hypothesis H5 : forall x f, Forall (fun e => P (snd e)) f -> P (Obj x f).
  Fixpoint val_ind2 (v : val X) : P v :=
    match v with
    | Tensor d x => H1 d x
    | Tup n l => H2 n l ((fix go l : Forall P l := match l with [] => Forall_nil _ | a :: l' => Forall_cons a (val_ind2 a) (go l') end) l)
    | Lst l => H3 l ((fix go l : Forall P l := match l with [] => Forall_nil _ | a :: l' => Forall_cons a (val_ind2 a) (go l') end) l)
    | Dic l => H4 l ((fix go l : Forall (fun e => P (snd e)) l := match l with [] => Forall_nil _ | a :: l' => Forall_cons a (val_ind2 (snd a)) (go l') end) l)
    | Obj x f => H5 x f ((fix go l : Forall (fun e => P (snd e)) l := match l with [] => Forall_nil _ | a :: l' => Forall_cons a (val_ind2 (snd a)) (go l') end) f)
    end.
End ValInd.

Lemma content_move {X} d (v : val X) : content (move d v) = content v.
Proof.
  induction v as [e x|n l IH|l IH|l IH|x f IH] using val_ind2; cbn [move content]; try reflexivity; f_equal; rewrite map_map; apply map_ext_in; intros a Ha; rewrite Forall_forall in IH.
  - now apply IH.
  - now apply IH.
  - cbn [fst snd]. f_equal. now apply IH.
Qed.

Section SameResult.
  Context {A B : Type}.
  Lemma rmapM_sim {A' B'} (R : A -> A' -> Prop) (S : B -> B' -> Prop) (h : A -> result B) (h' : A' -> result B') l l' : Forall2 R l l' ->
    (forall a a', In a l -> In a' l' -> R a a' -> match h a, h' a' with Ok b, Ok b' => S b b' | Err e, Err e' => e = e' | _, _ => False end) ->
    match rmapM h l, rmapM h' l' with Ok b, Ok b' => Forall2 S b b' | Err e, Err e' => e = e' | _, _ => False end.
  Proof.
    intros F. induction F as [|a a' l l' Ra F IH]; intros H; [constructor|].
    change (rmapM h (a :: l)) with (let? y := h a in let? ys := rmapM h l in Ok (y :: ys)). change (rmapM h' (a' :: l')) with (let? y := h' a' in let? ys := rmapM h' l' in Ok (y :: ys)).
    pose proof (H a a' (or_introl eq_refl) (or_introl eq_refl) Ra) as Ha. destruct (h a), (h' a'); cbn [rbind]; try contradiction; [|exact Ha].
    specialize (IH (fun x x' Hx Hx' => H x x' (or_intror Hx) (or_intror Hx'))). destruct (rmapM h l), (rmapM h' l'); cbn [rbind]; try contradiction; [now constructor|exact IH].
  Qed.
End SameResult.
Lemma f2_firstn {A B} (R : A -> B -> Prop) n : forall l l', Forall2 R l l' -> Forall2 R (firstn n l) (firstn n l').
Proof. induction n as [|n IH]; intros l l' F; [constructor|]. destruct F; cbn [firstn]; constructor; [assumption|now apply IH]. Qed.
Lemma f2_skipn {A B} (R : A -> B -> Prop) n : forall l l', Forall2 R l l' -> Forall2 R (skipn n l) (skipn n l').
Proof. induction n as [|n IH]; intros l l' F; [exact F|]. destruct F; cbn [skipn]; [constructor|now apply IH]. Qed.
Lemma f2_nth {A B} (R : A -> B -> Prop) l l' : Forall2 R l l' -> forall i, match nth_error l i, nth_error l' i with Some a, Some b => R a b | None, None => True | _, _ => False end.
Proof. induction 1 as [|a b l l' H F IH]; intros [|i]; cbn; try exact Logic.I; [exact H|apply IH]. Qed.
Lemma f2_repeat {A B} (R : A -> B -> Prop) a b n : R a b -> Forall2 R (repeat a n) (repeat b n).
Proof. intros H. induction n; constructor; assumption. Qed.
Lemma f2_concat {A B} (R : A -> B -> Prop) l l' : Forall2 (Forall2 R) l l' -> Forall2 R (concat l) (concat l').
Proof. induction 1; [constructor|]. cbn. now apply Forall2_app. Qed.

Section Same.
  Context {X U : Type} (s : semantics X U).
  Hypothesis Bl : device_blind s.
  Notation V := (val X).
  Implicit Types (rg : register X).

  Definition rel_entry (e e' : entry X) : Prop := match e, e' with Data l, Data l' => same_stream l l' | AConst i, AConst j => i = j | _, _ => False end.
  Definition rel_streams (l l' : list (nat * entry X)) : Prop := Forall2 (fun x y => fst x = fst y /\ rel_entry (snd x) (snd y)) l l'.
  Definition rel_reg rg rg' : Prop := forall r, match rget r rg, rget r rg' with Some l, Some l' => rel_streams l l' | None, None => True | _, _ => False end.

  Lemma rel_aget c l l' : rel_streams l l' -> match aget Nat.eqb c l, aget Nat.eqb c l' with Some e, Some e' => rel_entry e e' | None, None => True | _, _ => False end.
  Proof. induction 1 as [|[k e] [k' e'] l l' [E H] F IH]; [exact Logic.I|]. cbn in E. subst k'. cbn [aget]. destruct (k =? c); [exact H|exact IH]. Qed.
  Lemma rel_aset c e e' l l' : rel_entry e e' -> rel_streams l l' -> rel_streams (aset Nat.eqb c e l) (aset Nat.eqb c e' l').
  Proof.
    intros He. induction 1 as [|[k x] [k' x'] l l' [E H] F IH]; [constructor; [now split|constructor]|]. cbn in E. subst k'. cbn [aset]. destruct (k =? c); constructor; try (now split); assumption.
  Qed.
  Lemma rel_get_streams rg rg' r : rel_reg rg rg' -> rel_streams (streams r rg) (streams r rg').
  Proof. intros R. specialize (R r). unfold streams. destruct (rget r rg), (rget r rg'); try contradiction; [exact R|constructor]. Qed.
  Lemma rel_reg_set rg rg' rg1 rg1' t l l' : rel_reg rg rg' -> rel_streams l l' -> (forall r, rget r rg1 = if ref_eqb t r then Some l else rget r rg) -> (forall r, rget r rg1' = if ref_eqb t r then Some l' else rget r rg') -> rel_reg rg1 rg1'.
  Proof. intros R H E E' r. rewrite E, E'. destruct (ref_eqb t r); [exact H|apply R]. Qed.
  Lemma rel_store t c e e' rg rg' : rel_entry e e' -> rel_reg rg rg' -> rel_reg (store t c e rg) (store t c e' rg').
  Proof.
    intros He R r. rewrite !rget_store. destruct (ref_eqb t r); [|apply R]. apply rel_aset; [exact He|]. now apply rel_get_streams.
  Qed.
  Lemma rel_stores t l l' : rel_streams l l' -> forall rg rg', rel_reg rg rg' -> rel_reg (fold_left (fun g e => store t (fst e) (snd e) g) l rg) (fold_left (fun g e => store t (fst e) (snd e) g) l' rg').
  Proof. induction 1 as [|[k e] [k' e'] l l' [E H] F IH]; intros rg rg' R; [exact R|]. cbn in E. subst k'. cbn [fold_left fst snd]. apply IH. now apply rel_store. Qed.
  Lemma rel_stores1 t e cs : rel_entry e e -> forall rg rg', rel_reg rg rg' -> rel_reg (fold_left (fun g c => store t c e g) cs rg) (fold_left (fun g c => store t c e g) cs rg').
  Proof. intros He. induction cs as [|c cs IH]; intros rg rg' R; [exact R|]. cbn [fold_left]. apply IH. now apply rel_store. Qed.
  Lemma rel_store_all t l l' rg rg' : rel_streams l l' -> rel_reg rg rg' -> rel_reg (store_all t l rg) (store_all t l' rg').
  Proof.
    intros H R r. rewrite !rget_store_all. destruct (ref_eqb t r); [|apply R]. pose proof (rel_get_streams rg rg' r R) as S. revert S. generalize (streams r rg), (streams r rg'). clear R.
    induction H as [|[k e] [k' e'] l l' [E H] F IH]; intros a b S; [exact S|]. cbn in E. subst k'. cbn [fold_left fst snd]. apply IH. now apply rel_aset.
  Qed.
  Lemma rel_deletes ts : forall rg rg', rel_reg rg rg' -> rel_reg (fold_left (fun g t => delete t g) ts rg) (fold_left (fun g t => delete t g) ts rg').
  Proof. intros rg rg' R r. rewrite !rget_deletes. destruct (rmem r ts); [exact Logic.I|apply R]. Qed.

  Lemma same_stream_refl (l : list V) : same_stream l l.
  Proof. induction l; constructor; [reflexivity|assumption]. Qed.
  Lemma rel_dataset rg rg' c r : rel_reg rg rg' -> match dataset_of s rg c r, dataset_of s rg' c r with Ok a, Ok b => same_stream a b | Err e, Err e' => e = e' | _, _ => False end.
  Proof.
    intros R. assert (L : match (let? e := load r c rg in match e with Data l => Ok l | AConst _ => Err TypeError end), (let? e := load r c rg' in match e with Data l => Ok l | AConst _ => Err TypeError end) with Ok a, Ok b => same_stream a b | Err e, Err e' => e = e' | _, _ => False end).
    { unfold load. specialize (R r). destruct (rget r rg) as [l|], (rget r rg') as [l'|]; try contradiction; [|reflexivity]. pose proof (rel_aget c l l' R) as A. destruct (aget Nat.eqb c l) as [[d|i]|], (aget Nat.eqb c l') as [[d'|i']|]; try contradiction; cbn [rbind]; try reflexivity. exact A. }
    destruct r; cbn [dataset_of]; try exact L. apply same_stream_refl.
  Qed.
  Lemma same_length (l l' : list V) : same_stream l l' -> length l = length l'.
  Proof. induction 1; cbn; congruence. Qed.
  Lemma rel_broadcast (ds ds' : list (list V)) : Forall2 same_stream ds ds' -> match broadcast ds, broadcast ds' with Ok a, Ok b => Forall2 same_stream a b | Err e, Err e' => e = e' | _, _ => False end.
  Proof.
    intros F. assert (L : map (@length V) ds = map (@length V) ds') by (induction F; cbn; [reflexivity|]; f_equal; [now apply same_length|assumption]).
    unfold broadcast. destruct F as [|d d' ds ds' H F]; [constructor|]. set (D := d :: ds) in *. set (D' := d' :: ds') in *. rewrite <- L. destruct (_ <=? 1); [now constructor|]. destruct (filter _ _) as [|t [|? ?]]; try reflexivity.
    assert (G : Forall2 same_stream D D') by now constructor. clear -G. induction G as [|x y l l' H G IH]; [constructor|]. cbn [map]. constructor; [|exact IH]. destruct H as [|a b l1 l2 Hab Hl]; [constructor|]. destruct Hl; [now apply f2_repeat|]. constructor; [exact Hab|]. constructor; assumption.
  Qed.
  Lemma rel_gather rg rg' c args kwargs : rel_reg rg rg' -> match gather s rg c args kwargs, gather s rg' c args kwargs with Ok a, Ok b => same_bundle a b | Err e, Err e' => e = e' | _, _ => False end.
  Proof.
    intros R. unfold gather.
    assert (Rf : forall A (l : list A), Forall2 eq l l) by (induction l; constructor; [reflexivity|assumption]).
    pose proof (rmapM_sim eq same_stream (dataset_of s rg c) (dataset_of s rg' c) args args (Rf _ args)) as Ha.
    assert (Ha' := Ha ltac:(intros a a' _ _ <-; now apply rel_dataset)). clear Ha. destruct (rmapM (dataset_of s rg c) args) as [a|], (rmapM (dataset_of s rg' c) args) as [a'|]; cbn [rbind]; try contradiction; [|exact Ha'].
    pose proof (rmapM_sim eq same_stream (fun e : string * ref => dataset_of s rg c (snd e)) (fun e => dataset_of s rg' c (snd e)) kwargs kwargs (Rf _ kwargs)) as Hk.
    assert (Hk' := Hk ltac:(intros e e' _ _ <-; now apply rel_dataset)). clear Hk. destruct (rmapM _ kwargs) as [k|], (rmapM (fun e => dataset_of s rg' c (snd e)) kwargs) as [k'|]; cbn [rbind]; try contradiction; [|exact Hk'].
    pose proof (rel_broadcast (a ++ k) (a' ++ k')) as Hb. assert (Hb' := Hb ltac:(now apply Forall2_app)). clear Hb. destruct (broadcast (a ++ k)) as [b|], (broadcast (a' ++ k')) as [b'|]; cbn [rbind]; try contradiction; [|exact Hb'].
    assert (La : length a = length a') by (clear -Ha'; induction Ha'; cbn; congruence). rewrite <- La. split; cbn [b_args b_kwargs].
    - now apply f2_firstn.
    - apply (f2_skipn _ (length a)) in Hb'. revert Hb'. generalize (skipn (length a) b), (skipn (length a) b'). generalize (map fst kwargs). clear. induction l as [|n l IH]; intros x y F; [constructor|]. destruct F; cbn [combine]; constructor; [now split|now apply IH].
  Qed.
  Lemma rel_batch (b b' : bundle V) i : same_bundle b b' ->
    match batch b i, batch b' i with Ok (a, k), Ok (a', k') => Forall2 same_content a a' /\ same_named same_content k k' | Err e, Err e' => e = e' | _, _ => False end.
  Proof.
    intros [Fa Fk].
    set (at_i := fun d : list V => match nth_error d i with Some a => Ok a | None => Err IndexError end).
    assert (At : forall d d', same_stream d d' -> match at_i d, at_i d' with Ok a, Ok b => same_content a b | Err e, Err e' => e = e' | _, _ => False end).
    { intros d d' F. unfold at_i. pose proof (f2_nth _ _ _ F i) as N. destruct (nth_error d i), (nth_error d' i); try contradiction; [exact N|reflexivity]. }
    assert (Eb : forall b : bundle V, batch b i = (let? a := rmapM at_i (b_args b) in let? k := rmapM (fun e => let? v := at_i (snd e) in Ok (fst e, v)) (b_kwargs b) in Ok (a, k))) by reflexivity.
    rewrite !Eb. clear Eb. clearbody at_i.
    pose proof (rmapM_sim same_stream same_content at_i at_i _ _ Fa (fun a a' _ _ H => At a a' H)) as Ha. destruct (rmapM at_i (b_args b)) as [a|], (rmapM at_i (b_args b')) as [a'|]; cbn [rbind]; try contradiction; [|exact Ha].
    pose proof (rmapM_sim _ (fun x y : string * V => fst x = fst y /\ same_content (snd x) (snd y)) (fun e => let? v := at_i (snd e) in Ok (fst e, v)) (fun e => let? v := at_i (snd e) in Ok (fst e, v)) _ _ Fk) as Hk.
    assert (Hk' := Hk ltac:(intros [n d] [n' d'] _ _ [En Hd]; cbn [fst snd] in *; specialize (At d d' Hd); destruct (at_i d), (at_i d'); cbn [rbind]; try contradiction; [now split|exact At])). clear Hk.
    destruct (rmapM _ (b_kwargs b)) as [k|], (rmapM (fun e => let? v := at_i (snd e) in Ok (fst e, v)) (b_kwargs b')) as [k'|]; cbn [rbind]; try contradiction; [now split|exact Hk'].
  Qed.
  Lemma rel_len (b b' : bundle V) : same_bundle b b' -> bundle_len b = bundle_len b'.
  Proof.
    intros [Fa Fk]. unfold bundle_len. destruct Fa as [|d d' l l' H F]; [|now apply same_length]. inversion Fk as [|x y k k' HH F]; [reflexivity|]. destruct x, y, HH as [_ HH]. now apply same_length.
  Qed.
  Lemma rel_batches pl pl' c m (b b' : bundle V) : same_bundle b b' -> forall n i u,
    snd (call_batches s pl u c m b i n) = snd (call_batches s pl' u c m b' i n) /\
    match fst (call_batches s pl u c m b i n), fst (call_batches s pl' u c m b' i n) with Ok a, Ok a' => same_stream a a' | Err e, Err e' => e = e' | _, _ => False end.
  Proof.
    intros Hb. induction n as [|n IH]; intros i u; [split; [reflexivity|constructor]|]. cbn [call_batches]. pose proof (rel_batch b b' i Hb) as B. destruct (batch b i) as [[a k]|], (batch b' i) as [[a' k']|]; try contradiction; [|now split].
    destruct B as [Ba Bk]. destruct (blind_call s Bl pl pl' u c m a a' k k' Ba Bk) as [C1 C2]. destruct (call s pl u c m a k) as [[v|e] u1], (call s pl' u c m a' k') as [[v'|e'] u1']; cbn [fst snd] in *; try contradiction; subst u1'; [|now split].
    destruct (IH (S i) u1) as [I1 I2]. destruct (call_batches s pl u1 c m b (S i) n) as [r u2], (call_batches s pl' u1 c m b' (S i) n) as [r' u2']. cbn [fst snd] in *. split; [exact I1|]. destruct r, r'; cbn [rmap]; try contradiction; [now constructor|exact I2].
  Qed.
  Lemma rel_call_context pl pl' u c m args kwargs rg rg' : rel_reg rg rg' ->
    snd (call_context s pl u c m args kwargs rg) = snd (call_context s pl' u c m args kwargs rg') /\
    match fst (call_context s pl u c m args kwargs rg), fst (call_context s pl' u c m args kwargs rg') with Ok a, Ok a' => same_stream a a' | Err e, Err e' => e = e' | _, _ => False end.
  Proof.
    intros R. unfold call_context. pose proof (rel_gather rg rg' c args kwargs R) as G. destruct (gather s rg c args kwargs) as [b|], (gather s rg' c args kwargs) as [b'|]; try contradiction; [|now split].
    assert (Bt : snd (call_batches s pl u c m b 0 (bundle_len b)) = snd (call_batches s pl' u c m b' 0 (bundle_len b')) /\
      match fst (call_batches s pl u c m b 0 (bundle_len b)), fst (call_batches s pl' u c m b' 0 (bundle_len b')) with Ok a, Ok a' => same_stream a a' | Err e, Err e' => e = e' | _, _ => False end) by (rewrite <- (rel_len b b' G); now apply rel_batches).
    destruct args, kwargs; try exact Bt. destruct (blind_call s Bl pl pl' u c m [] [] [] [] (Forall2_nil _) (Forall2_nil _)) as [C1 C2].
    destruct (call s pl u c m [] []) as [r u1], (call s pl' u c m [] []) as [r' u1']. cbn [fst snd] in *. split; [exact C2|]. destruct r, r'; cbn [rmap]; try contradiction; [constructor; [exact C1|constructor]|exact C1].
  Qed.
  Lemma rel_call_contexts pl pl' m args kwargs rg rg' : rel_reg rg rg' -> forall cs u,
    snd (call_contexts s pl u cs m args kwargs rg) = snd (call_contexts s pl' u cs m args kwargs rg') /\
    match fst (call_contexts s pl u cs m args kwargs rg), fst (call_contexts s pl' u cs m args kwargs rg') with Ok a, Ok a' => rel_streams a a' | Err e, Err e' => e = e' | _, _ => False end.
  Proof.
    intros R. induction cs as [|c cs IH]; intros u; [split; [reflexivity|constructor]|]. cbn [call_contexts]. destruct (rel_call_context pl pl' u c m args kwargs rg rg' R) as [C1 C2].
    destruct (call_context s pl u c m args kwargs rg) as [[l|e] u1], (call_context s pl' u c m args kwargs rg') as [[l'|e'] u1']; cbn [fst snd] in *; try contradiction; subst u1'; [|now split].
    destruct (IH u1) as [I1 I2]. destruct (call_contexts s pl u1 cs m args kwargs rg) as [r u2], (call_contexts s pl' u1 cs m args kwargs rg') as [r' u2']. cbn [fst snd] in *. split; [exact I1|].
    destruct r, r'; cbn [rmap]; try contradiction; [|exact I2]. constructor; [now split|exact I2].
  Qed.
  Lemma rel_extract a e e' : rel_entry e e' -> match extract s a e, extract s a e' with Ok x, Ok y => rel_entry x y | Err x, Err y => x = y | _, _ => False end.
  Proof.
    destruct e as [l|i], e' as [l'|i']; cbn [rel_entry]; try contradiction; intros H; [|reflexivity]. unfold extract.
    pose proof (rmapM_sim same_content same_content (fun v => item s v a) (fun v => item s v a) l l' H (fun v v' _ _ Hv => blind_item s Bl v v' a Hv)) as Hi.
    destruct a as [z|k]; [destruct (rmapM _ l), (rmapM _ l'); cbn [rmap]; try contradiction; exact Hi|].
    pose proof (rmapM_sim same_content same_content (fun v => getattr s v k) (fun v => getattr s v k) l l' H (fun v v' _ _ Hv => blind_getattr s Bl v v' k Hv)) as Hg.
    destruct (rmapM (fun v => item s v (AStr k)) l) as [x|x], (rmapM (fun v => item s v (AStr k)) l') as [y|y]; cbn [rmap]; try contradiction; [exact Hi|]. subst y.
    assert (G : match rmap Data (rmapM (fun v => getattr s v k) l), rmap Data (rmapM (fun v => getattr s v k) l') with Ok x, Ok y => rel_entry x y | Err x, Err y => x = y | _, _ => False end).
    { destruct (rmapM (fun v => getattr s v k) l), (rmapM (fun v => getattr s v k) l'); cbn [rmap]; try contradiction; exact Hg. }
    destruct x; try reflexivity; exact G.
  Qed.
  Lemma rel_each l l' (h h' : entry X -> result (entry X)) : rel_streams l l' -> (forall e e', rel_entry e e' -> match h e, h' e' with Ok x, Ok y => rel_entry x y | Err x, Err y => x = y | _, _ => False end) ->
    match rmapM (fun e => let? x := h (snd e) in Ok (fst e, x)) l, rmapM (fun e => let? x := h' (snd e) in Ok (fst e, x)) l' with Ok a, Ok b => rel_streams a b | Err e, Err e' => e = e' | _, _ => False end.
  Proof.
    intros F H. apply (rmapM_sim (fun x y : nat * entry X => fst x = fst y /\ rel_entry (snd x) (snd y))); [exact F|]. intros [c e] [c' e'] _ _ [E Hr]. cbn [fst snd] in *. specialize (H e e' Hr). destruct (h e), (h' e'); cbn [rbind]; try contradiction; [now split|exact H].
  Qed.
  Lemma rel_data es es' : Forall2 rel_entry es es' -> match rmapM (fun e : entry X => match e with Data l => Ok l | AConst _ => Err TypeError end) es, rmapM (fun e : entry X => match e with Data l => Ok l | AConst _ => Err TypeError end) es' with Ok a, Ok b => Forall2 same_stream a b | Err e, Err e' => e = e' | _, _ => False end.
  Proof.
    intros F. apply (rmapM_sim rel_entry); [exact F|]. intros [l|i] [l'|i'] _ _ H; cbn in H; try contradiction; [exact H|reflexivity].
  Qed.
  Lemma rel_merge es es' : Forall2 rel_entry es es' -> match merge es, merge es' with Ok a, Ok b => same_outs a b | Err e, Err e' => e = e' | _, _ => False end.
  Proof.
    intros F. destruct F as [|e e' es es' He F]; [reflexivity|]. destruct F as [|e2 e2' es es' He2 F].
    - destruct e as [l|i], e' as [l'|i']; cbn in He; try contradiction; [exact He|reflexivity].
    - assert (G : Forall2 rel_entry (e :: e2 :: es) (e' :: e2' :: es')) by (repeat constructor; assumption).
      assert (E : forall e e2 (es : list (entry X)), merge (e :: e2 :: es) = (let? ds := rmapM (fun e => match e with Data l => Ok l | AConst _ => Err TypeError end) (e :: e2 :: es) in
        match ds with [] => Err ValueError | d :: _ => if forallb (fun d' => length d' =? length d) ds then Ok (Multi (map (fun i => flat_map (fun d' => match nth_error d' i with Some v => [v] | None => [] end) ds) (seq 0 (length d)))) else Err ValueError end)) by (intros [x|x]; reflexivity).
      rewrite !E. pose proof (rel_data _ _ G) as D. destruct (rmapM _ (e :: e2 :: es)) as [ds|], (rmapM _ (e' :: e2' :: es')) as [ds'|]; cbn [rbind]; try contradiction; [|exact D].
      destruct D as [|d d' ds ds' Hd D]; [reflexivity|]. assert (Ld := same_length _ _ Hd). set (A := d :: ds). set (A' := d' :: ds').
      assert (FA : Forall2 same_stream A A') by now constructor.
      assert (Eb : forallb (fun x => length x =? length d) A = forallb (fun x => length x =? length d') A'). { rewrite Ld. clear -FA. induction FA as [|x y l l' H F IH]; [reflexivity|]. cbn [forallb]. rewrite IH, (same_length _ _ H). reflexivity. }
      rewrite <- Eb. destruct (forallb _ A); [|reflexivity]. cbn [same_outs]. rewrite <- Ld. generalize (seq 0 (length d)). intros l. clear -FA. induction l as [|i l IH]; [constructor|]. cbn [map]. constructor; [|exact IH].
      clear IH. induction FA as [|x y l1 l1' H F IH]; [constructor|]. cbn [flat_map]. pose proof (f2_nth _ _ _ H i) as N. destruct (nth_error x i), (nth_error y i); try contradiction; cbn [app]; [constructor; [exact N|exact IH]|exact IH].
  Qed.
  Definition rel_ctx (a b : list (nat * list (entry X))) : Prop := Forall2 (fun x y => fst x = fst y /\ Forall2 rel_entry (snd x) (snd y)) a b.
  Lemma rel_by_context l l' : rel_streams l l' -> forall a b, rel_ctx a b -> rel_ctx (by_context (X:=X) l a) (by_context l' b).
  Proof.
    induction 1 as [|[c e] [c' e'] l l' [E H] F IH]; intros a b R; [exact R|]. cbn in E. subst c'. cbn [snd] in H. cbn [by_context]. apply IH.
    assert (Gt : Forall2 rel_entry (match aget Nat.eqb c a with Some es => es | None => [] end) (match aget Nat.eqb c b with Some es => es | None => [] end)).
    { clear -R. induction R as [|[k x] [k' x'] l l' [E H] F IH]; [constructor|]. cbn in E. subst k'. cbn [aget]. destruct (k =? c); [exact H|exact IH]. }
    assert (St : forall x y, Forall2 rel_entry x y -> rel_ctx (aset Nat.eqb c x a) (aset Nat.eqb c y b)).
    { intros x y Hxy. clear -R Hxy. induction R as [|[k v] [k' v'] l l' [E H] F IH]; [constructor; [now split|constructor]|]. cbn in E. subst k'. cbn [aset]. destruct (k =? c); constructor; try (now split); assumption. }
    apply St. apply Forall2_app; [exact Gt|]. constructor; [exact H|constructor].
  Qed.
  Lemma rel_items r rg rg' : rel_reg rg rg' -> match items_for r rg, items_for r rg' with Ok a, Ok b => rel_streams a b | Err e, Err e' => e = e' | _, _ => False end.
  Proof. intros R. unfold items_for. specialize (R r). destruct (rget r rg), (rget r rg'); try contradiction; [exact R|reflexivity]. Qed.

  Definition rel_out (a b : world U * result (register X * option (output (X:=X)))) : Prop :=
    w_user (fst a) = w_user (fst b) /\ same_result (fun p q => rel_reg (fst p) (fst q) /\ same_output (snd p) (snd q)) (snd a) (snd b).
  Lemma exec_rel i w w' rg rg' : is_mm i = false -> is_ma i = false -> w_user w = w_user w' -> rel_reg rg rg' -> rel_out (exec s i w rg) (exec s i w' rg').
  Proof.
    intros N1 N2 Hu R. destruct i as [t e cs|src t a|m args kwargs t cs|m args kwargs d|os|ts|sp m|d r]; try discriminate; unfold rel_out; cbn [exec].
    - cbn [fst snd rmap same_result]. split; [exact Hu|]. split; [|exact Logic.I]. apply rel_stores1; [|exact R]. destruct e; [apply same_stream_refl|reflexivity].
    - cbn [fst snd]. split; [exact Hu|]. pose proof (rel_items src rg rg' R) as I. destruct (items_for src rg) as [l|], (items_for src rg') as [l'|]; cbn [rbind rmap]; try contradiction; [|exact I].
      pose proof (rel_each l l' (extract s a) (extract s a) I (rel_extract a)) as E. destruct (rmapM _ l) as [x|], (rmapM _ l') as [y|]; cbn [rbind rmap]; try contradiction; [|exact E]. cbn [same_result fst snd]. split; [|exact Logic.I]. now apply rel_stores.
    - rewrite <- Hu. destruct (rel_call_contexts (w_place w) (w_place w') m args kwargs rg rg' R cs (w_user w)) as [C1 C2]. destruct (call_contexts s (w_place w) (w_user w) cs m args kwargs rg) as [r u1], (call_contexts s (w_place w') (w_user w) cs m args kwargs rg') as [r' u1']. cbn [fst snd w_user] in *. split; [exact C1|].
      destruct r, r'; cbn [rmap]; try contradiction; [|exact C2]. cbn [same_result fst snd]. split; [|exact Logic.I]. now apply rel_store_all.
    - rewrite <- Hu. assert (Rf : Forall2 eq (d_contexts d) (d_contexts d)) by (generalize (d_contexts d); intros l; induction l; constructor; [reflexivity|assumption]).
      pose proof (rmapM_sim eq same_bundle (fun c => gather s rg c args kwargs) (fun c => gather s rg' c args kwargs) _ _ Rf) as G. assert (G' := G ltac:(intros c c' _ _ <-; now apply rel_gather)). clear G.
      destruct (rmapM (fun c => gather s rg c args kwargs) (d_contexts d)) as [bs|], (rmapM (fun c => gather s rg' c args kwargs) (d_contexts d)) as [bs'|]; try contradiction; [|split; [exact Hu|exact G']].
      rewrite <- (blind_optimize s Bl (w_place w) (w_place w') (w_user w) (d_fn d) m bs bs' G'). destruct (optimize s (w_place w) (w_user w) (d_fn d) m bs) as [r u1]. cbn [fst snd w_user]. split; [reflexivity|]. destruct r; cbn [rmap same_result fst snd]; [|reflexivity]. split; [exact R|exact Logic.I].
    - cbn [fst snd]. split; [exact Hu|]. assert (Rf : Forall2 eq os os) by (generalize os; intros l; induction l; constructor; [reflexivity|assumption]).
      pose proof (rmapM_sim eq rel_streams (fun r => items_for r rg) (fun r => items_for r rg') _ _ Rf) as G. assert (G' := G ltac:(intros c c' _ _ <-; now apply rel_items)). clear G.
      destruct (rmapM (fun r => items_for r rg) os) as [ls|], (rmapM (fun r => items_for r rg') os) as [ls'|]; cbn [rbind]; try contradiction; [|exact G'].
      pose proof (rel_by_context _ _ (f2_concat _ _ _ G') [] [] (Forall2_nil _)) as B.
      pose proof (rmapM_sim _ (fun x y : nat * outs X => fst x = fst y /\ same_outs (snd x) (snd y)) (fun ce => let? v := merge (snd ce) in Ok (fst ce, v)) (fun ce => let? v := merge (snd ce) in Ok (fst ce, v)) _ _ B) as O.
      assert (O' := O ltac:(intros [c es] [c' es'] _ _ [E H]; cbn [fst snd] in *; pose proof (rel_merge es es' H) as Mg; destruct (merge es), (merge es'); cbn [rbind]; try contradiction; [now split|exact Mg])). clear O.
      destruct (rmapM _ (by_context (concat ls) [])) as [o|], (rmapM _ (by_context (concat ls') [])) as [o'|]; cbn [rbind same_result]; try contradiction; [|exact O']. cbn [fst snd same_output]. now split.
    - cbn [fst snd rmap same_result]. split; [exact Hu|]. split; [|exact Logic.I]. now apply rel_deletes.
  Qed.
  (** moves change nothing that matters *)
  Lemma rel_stores_into t l1 : forall rg rg' l, rel_reg rg rg' -> rget t rg = Some l -> (forall c e', In (c, e') l1 -> exists e, aget Nat.eqb c l = Some e /\ rel_entry e e') ->
    rel_reg rg (fold_left (fun g e => store t (fst e) (snd e) g) l1 rg').
  Proof.
    induction l1 as [|[c e'] l1 IH]; intros rg rg' l R G H; [exact R|]. cbn [fold_left fst snd]. apply (IH _ _ l); [|exact G|intros c0 e0 H0; apply H; now right].
    destruct (H c e' (or_introl eq_refl)) as (e & Eg & He). intros r. rewrite rget_store. destruct (ref_eqb t r) eqn:Eq; [|apply R].
    apply ref_eqb_norm in Eq. rewrite <- (rget_cong t r rg Eq), G. pose proof (R r) as Rr. rewrite <- (rget_cong t r rg Eq), G in Rr. unfold streams. destruct (rget r rg') as [l'|]; [|contradiction].
    clear -Eg He Rr. induction Rr as [|[k x] [k' x'] l l' [E H] F IH]; [discriminate|]. cbn in E. subst k'. cbn [aset aget] in *. destruct (k =? c).
    - injection Eg as ->. constructor; [now split|exact F].
    - constructor; [now split|]. now apply IH.
  Qed.
  Lemma move_rel d r w rg rg' : rel_reg rg rg' -> (forall l, rget r rg = Some l -> NoDup (map fst l)) ->
    match exec s (MoveActivations d r) w rg' with
    | (w', Ok (rg1, None)) => w' = w /\ rel_reg rg rg1
    | (w', Err e) => w' = w /\ ((e = KeyError /\ rget r rg = None) \/ (e = TypeError /\ exists l c i, rget r rg = Some l /\ In (c, AConst i) l))
    | _ => False
    end.
  Proof.
    intros R Nd. cbn [exec]. pose proof (R r) as Rr. unfold items_for. destruct (rget r rg) as [l|] eqn:G, (rget r rg') as [l'|] eqn:G'; try contradiction; cbn [rbind rmap]; [|split; [reflexivity|]; left; now split]. specialize (Nd l eq_refl).
    destruct (rmapM (fun e => let? x := move_entry d (snd e) in Ok (fst e, x)) l') as [l1|e] eqn:E; cbn [rbind rmap].
    - split; [reflexivity|]. apply (rel_stores_into r l1 rg rg' l R G). intros c e' Hin. apply rmapM_inv in E. clear -E Rr Hin Nd. revert l Rr Nd. induction E as [|[c1 e1] [c2 e2] l' l1 H F IH]; intros l Rr Nd; [destruct Hin|].
      inversion Rr as [|[c0 e0] ? l0 ? [Hc He] Rr']; subst. cbn [fst snd] in *. subst c0. cbn in Nd. inversion Nd as [|? ? N1 N2]; subst. destruct e1 as [d1|i]; [|discriminate]. cbn [move_entry rbind] in H. injection H as <- <-.
      destruct Hin as [[= <- <-]|Hin].
      + exists e0. cbn [aget]. rewrite Nat.eqb_refl. split; [reflexivity|]. destruct e0 as [d0|]; [|contradiction]. cbn [rel_entry] in *. clear -He. induction He as [|a b l l' H F IH]; [constructor|]. cbn [map]. constructor; [|exact IH]. unfold same_content in *. now rewrite content_move.
      + destruct (IH Hin l0 Rr' N2) as (e & Ee & Hr). exists e. split; [|exact Hr]. cbn [aget]. destruct (Nat.eqb_spec c1 c) as [->|]; [|exact Ee]. exfalso. apply N1. apply nget_in in Ee. now apply (in_map fst l0 (c, e)).
    - split; [reflexivity|]. right. apply rmapM_err in E. destruct E as ([c x] & Hin & Ex). cbn [snd fst] in Ex. destruct x as [d1|i]; [discriminate|]. cbn in Ex. injection Ex as <-. split; [reflexivity|]. exists l, c, i. split; [reflexivity|].
      clear -Rr Hin. induction Rr as [|[k y] [k' y'] l l' [E H] F IH]; [destruct Hin|]. destruct Hin as [[= -> ->]|Hin]; [|right; now apply IH]. cbn [fst snd] in *. subst k. destruct y; [contradiction|]. cbn in H. subst. now left.
  Qed.

  (** ** registers as they come *)
  Definition nodup_reg rg : Prop := forall r l, rget r rg = Some l -> NoDup (map fst l).
  Lemma nodup_streams r rg : nodup_reg rg -> NoDup (map fst (streams r rg)).
  Proof. intros N. unfold streams. destruct (rget r rg) eqn:E; [now apply (N r)|constructor]. Qed.
  Lemma nodup_store t c e rg : nodup_reg rg -> nodup_reg (store t c e rg).
  Proof. intros N r l. rewrite rget_store. destruct (ref_eqb t r); [|apply N]. intros [= <-]. apply aset_nodup. now apply nodup_streams. Qed.
  Lemma nodup_exec i w rg w' rg' o : nodup_reg rg -> exec s i w rg = (w', Ok (rg', o)) -> nodup_reg rg'.
  Proof.
    intros N E. assert (St : forall t (l : list (nat * entry X)) rg, nodup_reg rg -> nodup_reg (fold_left (fun g e => store t (fst e) (snd e) g) l rg)) by (intros t l; induction l as [|x l IH]; intros rg0 N0; [exact N0|]; cbn [fold_left]; apply IH; now apply nodup_store).
    destruct i as [t e cs|src t a|m args kwargs t cs|m args kwargs d|os|ts|sp m|d r]; cbn [exec] in E.
    - injection E as _ <- _. revert rg N. induction cs as [|c cs IH]; intros rg N; [exact N|]. cbn [fold_left]. apply IH. now apply nodup_store.
    - destruct (items_for src rg); cbn [rbind rmap] in E; [|discriminate]. destruct (rmapM _ _); cbn [rbind rmap] in E; [|discriminate]. injection E as _ <- _. now apply St.
    - destruct (call_contexts s _ _ cs m args kwargs rg) as [[l|] ?]; [|discriminate]. injection E as _ <- _. intros r l'. rewrite rget_store_all. destruct (ref_eqb t r); [|apply N]. intros [= <-]. apply fold_nodup. now apply nodup_streams.
    - destruct (rmapM _ _); [|discriminate]. destruct (optimize s _ _ _ _ _) as [[|] ?]; [|discriminate]. injection E as _ <- _. exact N.
    - destruct (rmapM _ os); cbn [rbind] in E; [|discriminate]. destruct (rmapM _ _); [|discriminate]. injection E as _ <- _. exact N.
    - injection E as _ <- _. intros r l. rewrite rget_deletes. destruct (rmem r ts); [discriminate|apply N].
    - injection E as _ <- _. exact N.
    - destruct (items_for r rg); cbn [rbind rmap] in E; [|discriminate]. destruct (rmapM _ _); cbn [rbind rmap] in E; [|discriminate]. injection E as _ <- _. now apply St.
  Qed.

  (** B1: whatever the moves, the results are the same unless a move raises *)
  Theorem strip_same js : forall w w' rg rg', w_user w = w_user w' -> rel_reg rg rg' -> nodup_reg rg ->
    rel_out (run_instructions s (strip js) w rg) (run_instructions s js w' rg') \/
    exists e, snd (run_instructions s js w' rg') = Err e /\ (e = KeyError \/ e = TypeError).
  Proof.
    induction js as [|i js IH]; intros w w' rg rg' Hu R N; [left; split; [exact Hu|split; [exact R|exact Logic.I]]|].
    destruct (is_mm i) eqn:Em; [destruct i; try discriminate; unfold strip in *; cbn [filter is_mm is_ma negb andb]; apply (IH w _ rg rg'); [exact Hu|exact R|exact N]|].
    destruct (is_ma i) eqn:Ea.
    - destruct i; try discriminate. cbn [run_instructions]. pose proof (move_rel d r w' rg rg' R (fun l H => N r l H)) as Mv. destruct (exec s (MoveActivations d r) w' rg') as [w1 [[rg1 [o|]]|e]]; [contradiction| |].
      + destruct Mv as [-> R1]. unfold strip in *. cbn [filter is_mm is_ma negb andb]. now apply IH.
      + right. exists e. split; [reflexivity|]. destruct Mv as [_ [[-> _]|[-> _]]]; auto.
    - unfold strip in *. cbn [filter]. rewrite Em, Ea. cbn [negb andb run_instructions]. pose proof (exec_rel i w w' rg rg' Em Ea Hu R) as [E1 E2]. pose proof (nodup_exec i w rg) as Ne.
      destruct (exec s i w rg) as [w1 [[rg1 [o|]]|e]], (exec s i w' rg') as [w1' [[rg1' [o'|]]|e']]; cbn [fst snd same_result same_output] in *; try (exfalso; tauto).
      + left. split; [exact E1|exact E2].
      + apply IH; [exact E1|apply E2|]. now apply (Ne w1 rg1 None).
      + left. split; [exact E1|exact E2].
  Qed.

  (** B2: the moves inserted do not raise *)
  Definition drop (us fresh : list ref) : list ref := filter (fun r => negb (existsb (fun u => ref_eqb (unwrap u) (unwrap r)) us)) fresh.
  Definition upd (i : instr X) (fresh : list ref) : list ref :=
    match i with
    | MoveModule _ _ | MoveActivations _ _ => fresh
    | CallModule _ _ _ t _ => t :: drop (uses i) fresh
    | _ => drop (uses i) fresh
    end.
  Fixpoint next_use (js : list (instr X)) (r : ref) : Prop :=
    match js with
    | (MoveModule _ _ | MoveActivations _ _) :: js' => next_use js' r
    | (CallModule _ _ _ _ _ | OptimizeModule _ _ _ _) as i :: _ => In r (uses i)
    | _ => False
    end.
  Definition cond (i : instr X) (js : list (instr X)) (fresh : list ref) : Prop :=
    match i with
    | MoveActivations _ r => is_const r = false /\ (In r fresh \/ next_use js r)
    | DeleteRegisterEntries ts => forall r, In r fresh -> rmem r ts = false
    | _ => True
    end.
  Fixpoint justified (js : list (instr X)) (fresh : list ref) : Prop :=
    match js with [] => True | i :: js' => cond i js' fresh /\ justified js' (upd i fresh) end.

  Lemma next_use_cancel compute storage r : forall n js, length js <= n -> next_use js r -> next_use (cancel_module_round_trips compute storage js) r.
  Proof.
    induction n as [|n IH]; intros js L H; [destruct js; [exact H|cbn in L; lia]|]. destruct js as [|a [|b js]]; try exact H. rewrite cancel_cons2. destruct (is_round_trip compute storage a b) eqn:R.
    - apply IH; [cbn in L; lia|]. destruct a as [| | | | | |[da|] ma|]; try discriminate. destruct b as [| | | | | |[db|] mb|]; try discriminate. exact H.
    - assert (Lb : length (b :: js) <= n) by (cbn in *; lia). destruct a; try exact H; cbn [next_use]; apply IH; assumption.
  Qed.
  Lemma justified_cancel compute storage : forall n js fresh, length js <= n -> justified js fresh -> justified (cancel_module_round_trips compute storage js) fresh.
  Proof.
    induction n as [|n IH]; intros js fresh L H; [destruct js; [exact H|cbn in L; lia]|]. destruct js as [|a [|b js]]; try exact H. rewrite cancel_cons2. destruct (is_round_trip compute storage a b) eqn:R.
    - apply IH; [cbn in L; lia|]. destruct a as [| | | | | |[da|] ma|]; try discriminate. destruct b as [| | | | | |[db|] mb|]; try discriminate. exact (proj2 (proj2 H)).
    - assert (Lb : length (b :: js) <= n) by (cbn in *; lia). destruct H as [Hc H]. split; [|now apply IH]. destruct a; try exact Hc. destruct Hc as [H1 H2]. split; [exact H1|]. destruct H2 as [H2|H2]; [now left|right]. now apply (next_use_cancel compute storage r n).
  Qed.

  Definition pend_ok js (fresh : list ref) (pend : list (ref * (nat * ref))) : Prop :=
    forall k d r, In (k, (d, r)) pend -> norm k = norm (unwrap r) /\ is_const r = false /\ (In r fresh \/ next_use js r).
  Definition moves_ok (P : ref -> Prop) (out : list (instr X)) : Prop := Forall (fun i => match i with MoveActivations _ r => is_const r = false /\ P r | _ => False end) out.
  Lemma aset_in_ref {A} k (a : A) (l : list (ref * A)) e : In e (aset ref_eqb k a l) -> (snd e = a /\ norm (fst e) = norm k) \/ In e l.
  Proof.
    induction l as [|[k' b] l IH]; cbn [aset]; [intros [<-|[]]; left; now split|]. destruct (ref_eqb k' k) eqn:E; cbn [In].
    - intros [<-|H]; [left; split; [reflexivity|]; now apply ref_eqb_norm|right; now right].
    - intros [<-|H]; [right; now left|]. apply IH in H. destruct H; [now left|right; now right].
  Qed.
  Lemma flush_ok js fresh l : forall rd pend out rd' pend' out', fold_left (flush (X:=X)) l (rd, pend, out) = (rd', pend', out') -> pend_ok js fresh pend -> moves_ok (fun r => In r fresh \/ next_use js r) out ->
    moves_ok (fun r => In r fresh \/ next_use js r) out' /\ (forall e, In e pend' -> In e pend) /\ (forall r, In r l -> forall k v, In (k, v) pend' -> norm k <> norm (unwrap r)).
  Proof.
    induction l as [|r l IH]; intros rd pend out rd' pend' out' E P M; [injection E as <- <- <-; split; [exact M|]; split; [trivial|intros r []]|]. cbn [fold_left] in E. unfold flush at 2 in E.
    destruct (aget ref_eqb (unwrap r) pend) as [[d r']|] eqn:G.
    - pose proof G as G0. apply (aget_in ref_eqb norm ref_eqb_norm) in G. destruct G as (k' & Hin & Ek). destruct (P k' d r' Hin) as (Q1 & Q2 & Q3).
      assert (P' : pend_ok js fresh (adel ref_eqb (unwrap r) pend)) by (intros k d0 r0 H; apply filter_In in H; exact (P k d0 r0 (proj1 H))).
      assert (Gone : forall k v, In (k, v) (adel ref_eqb (unwrap r) pend) -> norm k <> norm (unwrap r)).
      { intros k v H. apply filter_In in H. destruct H as [_ H]. cbn [fst] in H. intros Z. apply ref_eqb_norm in Z. rewrite Z in H. discriminate. }
      assert (Sub : forall e, In e (adel ref_eqb (unwrap r) pend) -> In e pend) by (intros e H; now apply filter_In in H).
      destruct (match aget ref_eqb (unwrap r) rd with Some d' => d' =? d | None => false end).
      + destruct (IH _ _ _ _ _ _ E P' M) as (A1 & A2 & A3). split; [exact A1|]. split; [intros e He; now apply Sub, A2|]. intros r0 [<-|Hr] k v H; [apply (Gone k v); now apply A2|now apply (A3 r0 Hr k v)].
      + destruct (IH _ _ _ _ _ _ E P') as (A1 & A2 & A3). { apply Forall_app. split; [exact M|]. constructor; [now split|constructor]. }
        split; [exact A1|]. split; [intros e He; now apply Sub, A2|]. intros r0 [<-|Hr] k v H; [apply (Gone k v); now apply A2|now apply (A3 r0 Hr k v)].
    - destruct (IH _ _ _ _ _ _ E P M) as (A1 & A2 & A3). split; [exact A1|]. split; [exact A2|]. intros r0 [<-|Hr] k v H; [|now apply (A3 r0 Hr k v)].
      apply A2 in H. intros Z. apply (proj1 (aget_none ref_eqb norm ref_eqb_norm (unwrap r) pend) G k v H Z).
  Qed.
  Lemma next_use_moves (P : ref -> Prop) out js r : moves_ok P out -> next_use js r -> next_use (out ++ js) r.
  Proof. intros M H. induction M as [|i l Hi M IH]; [exact H|]. destruct i; try contradiction. exact IH. Qed.
  Lemma justified_moves out i js js' fresh : moves_ok (fun r => In r fresh \/ next_use (i :: js) r) out -> is_mm i = false -> is_ma i = false -> justified (i :: js') fresh -> justified (out ++ i :: js') fresh.
  Proof.
    intros M N1 N2 J. induction M as [|x l Hx M IH]; [exact J|]. destruct x; try contradiction. destruct Hx as [H1 H2]. split; [|exact IH]. split; [exact H1|].
    destruct H2 as [H2|H2]; [now left|]. right. apply (next_use_moves (fun r => In r fresh \/ next_use (i :: js) r)); [exact M|]. destruct i; try exact H2; discriminate.
  Qed.
  Lemma justified_cancel_moves compute js : forall rd pend fresh, justified js fresh -> pend_ok js fresh pend -> justified (cancel_moves s compute js rd pend) fresh.
  Proof.
    induction js as [|i js IH]; intros rd pend fresh J P.
    - cbn [cancel_moves]. assert (M : forall p, (forall e, In e p -> In e pend) -> justified (flat_map (fun p => let '(k, (d, r)) := p in if match aget ref_eqb (unwrap r) rd with Some d' => d' =? d | None => false end then [] else [MoveActivations d r]) p) fresh).
      { induction p as [|[k [d r]] p IH]; intros Hp; [exact Logic.I|]. cbn [flat_map]. destruct (P k d r (Hp _ (or_introl eq_refl))) as (_ & Q2 & [Q3|Q3]); [|destruct Q3]. specialize (IH (fun e He => Hp e (or_intror He))).
        destruct (match aget _ _ rd with Some d' => _ | None => _ end); cbn [app]; [exact IH|]. split; [split; auto|exact IH]. }
      now apply M.
    - assert (Other : is_mm i = false -> is_ma i = false -> justified (let '(rd', pend', out) := fold_left flush (uses i) (rd, pend, []) in out ++ i :: cancel_moves s compute js (infer_output s compute i rd') pend') fresh).
      { intros N1 N2. destruct (fold_left flush (uses i) (rd, pend, [])) as [[rd' pend'] out] eqn:E. destruct (flush_ok (i :: js) fresh (uses i) _ _ _ _ _ _ E P (Forall_nil _)) as (A1 & A2 & A3).
        apply (justified_moves out i js _ fresh A1 N1 N2). destruct J as [Jc J]. split; [destruct i; try exact Jc; discriminate|]. apply IH; [exact J|].
        intros k d r H. destruct (P k d r (A2 _ H)) as (Q1 & Q2 & Q3). split; [exact Q1|]. split; [exact Q2|]. left.
        destruct Q3 as [Q3|Q3].
        - assert (Hd : In r (drop (uses i) fresh)). { apply filter_In. split; [exact Q3|]. destruct (existsb _ _) eqn:Ex; [|reflexivity]. apply existsb_exists in Ex. destruct Ex as (u & Hu & Eu). apply ref_eqb_norm in Eu. exfalso. apply (A3 u Hu k _ H). congruence. }
          destruct i; try exact Hd; try discriminate. right. exact Hd.
        - exfalso. assert (In r (uses i)) by (destruct i; try contradiction; try discriminate; exact Q3). apply (A3 r H0 k _ H). exact Q1. }
      destruct i; try (now apply Other).
      + cbn [cancel_moves uses fold_left app]. destruct J as [Jc J]. split; [exact Logic.I|]. apply IH; [exact J|]. intros k d0 r0 H. destruct (P k d0 r0 H) as (Q1 & Q2 & Q3). auto.
      + cbn [cancel_moves]. destruct J as [Jc J3]. destruct Jc as [J1 J2]. apply IH; [exact J3|]. intros k d0 r0 H. apply aset_in_ref in H. destruct H as [[H1 H2]|H].
        * cbn [fst snd] in *. injection H1 as -> ->. split; [exact H2|]. now split.
        * destruct (P k d0 r0 H) as (Q1 & Q2 & Q3). auto.
  Qed.

  Definition target_ok (i : instr X) : Prop := match i with CallModule _ _ _ t _ => is_const t = false | _ => True end.
  Lemma justified_pre compute l i js fresh : (forall r, In r l -> is_const r = false /\ next_use (i :: js) r) -> justified (i :: js) fresh -> justified (map (MoveActivations compute) l ++ i :: js) fresh.
  Proof.
    intros H J. induction l as [|r l IH]; [exact J|]. cbn [map app]. destruct (H r (or_introl eq_refl)) as [H1 H2]. split.
    - split; [exact H1|right]. clear IH J H1 H. induction l as [|x l IH]; [exact H2|exact IH].
    - apply IH. intros x Hx. apply H. now right.
  Qed.
  Lemma justified_activation compute storage js : forall fresh, (forall i, In i js -> is_ma i = false /\ target_ok i) -> justified js fresh -> justified (activation_offloading_pass js compute storage) fresh.
  Proof.
    unfold activation_offloading_pass. induction js as [|i js IH]; intros fresh H J; [exact J|]. destruct J as [Jc J]. destruct (H i (or_introl eq_refl)) as [Ha Ht].
    assert (J' : justified (flat_map (wrap_activations compute storage) js) (upd i fresh)) by (apply IH; [intros; apply H; now right|exact J]).
    cbn [flat_map]. destruct i; try discriminate; cbn [wrap_activations app]; try (split; [exact Jc|exact J']).
    - rewrite <- app_assoc. cbn [app]. apply justified_pre.
      + intros r Hr. apply filter_In in Hr. destruct Hr as [Hr Hc]. apply negb_true_iff in Hc. split; [|exact Hr]. destruct r; [reflexivity|reflexivity|cbn in Hc; discriminate|reflexivity].
      + split; [exact Logic.I|]. split; [|exact J']. split; [exact Ht|]. left. now left.
    - rewrite <- app_assoc. cbn [app]. apply justified_pre.
      + intros r Hr. apply filter_In in Hr. destruct Hr as [Hr Hc]. apply negb_true_iff in Hc. split; [|exact Hr]. destruct r; [reflexivity|reflexivity|cbn in Hc; discriminate|reflexivity].
      + split; [exact Logic.I|exact J'].
  Qed.
  (** programs without moves: what deletions ask for *)
  Fixpoint tidy (js : list (instr X)) (fresh : list ref) : Prop :=
    match js with
    | [] => True
    | i :: js' => match i with DeleteRegisterEntries ts => forall r, In r fresh -> rmem r ts = false | _ => True end /\ tidy js' (upd i fresh)
    end.
  Lemma justified_weights js compute storage g pl : forall fresh, no_moves js -> tidy js fresh -> justified (weight_offloading_pass s js compute storage g pl) fresh.
  Proof.
    intros fresh N T. unfold weight_offloading_pass.
    assert (A : forall ms l fr, justified l fr -> justified (map (fun m => MoveModule (OneDevice storage) m) ms ++ l) fr) by (induction ms as [|m ms IHm]; intros l fr Hl; [exact Hl|]; split; [exact Logic.I|]; now apply IHm).
    apply A. clear A. revert fresh N T. induction js as [|i js IH]; intros fresh N T.
    - cbn [flat_map app]. unfold post_restore. set (l := flat_map _ _). assert (B : Forall (fun i => is_mm i = true) l).
      { apply Forall_forall. intros i Hi. subst l. apply in_flat_map in Hi. destruct Hi as (n & _ & Hi). repeat match type of Hi with context [match ?x with _ => _ end] => destruct x end; cbn in Hi; repeat destruct Hi as [<-|Hi]; try reflexivity; contradiction. }
      clearbody l. clear -B. induction B as [|i l Hi B IH]; [exact Logic.I|]. destruct i; try discriminate. split; [exact Logic.I|exact IH].
    - destruct T as [Tc T]. specialize (IH (upd i fresh) (fun x Hx => N x (or_intror Hx)) T). cbn [flat_map]. rewrite <- app_assoc. pose proof (N i (or_introl eq_refl)) as Ni.
      assert (C : cond i (flat_map (wrap_weights s compute storage) js ++ post_restore s g pl) fresh) by (destruct i; try exact Tc; contradiction).
      assert (W : justified ([i] ++ (flat_map (wrap_weights s compute storage) js ++ post_restore s g pl)) fresh) by (split; [exact C|exact IH]).
      destruct i; try exact W; cbn [wrap_weights].
      + destruct (is_module s m); [|exact W]. cbn [app]. split; [exact Logic.I|]. split; [exact Logic.I|]. split; [exact Logic.I|]. exact IH.
      + destruct (is_module s m); [|exact W]. cbn [app]. split; [exact Logic.I|]. split; [exact Logic.I|]. split; [exact Logic.I|]. exact IH.
  Qed.
  Lemma offload_justified is compute storage g pl : no_moves is -> (forall i, In i is -> target_ok i) -> tidy is [] -> justified (offloading_pass s is compute storage g pl) [].
  Proof.
    intros N Tg T. unfold offloading_pass. apply justified_cancel_moves; [|intros k d r []]. apply (justified_cancel compute storage _ _ [] (le_n _)). apply justified_activation; [|now apply justified_weights].
    intros i Hi. unfold weight_offloading_pass in Hi. rewrite !in_app_iff in Hi. destruct Hi as [Hi|[Hi|Hi]].
    - apply in_map_iff in Hi. destruct Hi as (m & <- & _). split; [reflexivity|exact Logic.I].
    - apply in_flat_map in Hi. destruct Hi as (j & Hj & Hi). pose proof (N j Hj) as Nj. pose proof (Tg j Hj) as Tj. destruct j; cbn [wrap_weights] in Hi; try contradiction; try (destruct Hi as [<-|[]]; now split);
        destruct (is_module s m); cbn [In] in Hi; repeat destruct Hi as [<-|Hi]; try contradiction; split; try reflexivity; try exact Logic.I; exact Tj.
    - unfold post_restore in Hi. apply in_flat_map in Hi. destruct Hi as (n & _ & Hi). repeat match type of Hi with context [match ?x with _ => _ end] => destruct x end; cbn in Hi; repeat destruct Hi as [<-|Hi]; try contradiction; split; reflexivity || exact Logic.I.
  Qed.

  Lemma f2_in_r {A B} (P : A -> B -> Prop) l l' : Forall2 P l l' -> forall b, In b l' -> exists a, In a l /\ P a b.
  Proof. induction 1 as [|a b l l' H F IH]; intros x []; [subst; exists a; split; [now left|exact H]|]. destruct (IH x H0) as (y & Hy & Py). exists y. split; [now right|exact Py]. Qed.
  (** running *)
  Definition data_reg rg : Prop := forall r l c i, rget r rg = Some l -> In (c, AConst i) l -> is_const r = true.
  Definition orderly (i : instr X) : Prop :=
    match i with
    | StoreValue t _ _ => is_const t = true
    | LoadAttribute _ t _ => True
    | CallModule _ _ _ t cs => is_const t = false /\ cs <> []
    | OptimizeModule _ _ _ d => d_contexts d <> []
    | _ => True
    end.
  Lemma const_cong r t : ref_eqb t r = true -> is_const t = is_const r.
  Proof. intros E. apply ref_eqb_norm in E. destruct t, r; cbn in E |- *; try reflexivity; discriminate. Qed.
  Lemma aset_in_nat {A} k (a : A) (l : list (nat * A)) e : In e (aset Nat.eqb k a l) -> e = (k, a) \/ In e l.
  Proof.
    induction l as [|[k' b] l IH]; cbn [aset]; [intros [<-|[]]; now left|]. destruct (k' =? k) eqn:E; cbn [In].
    - apply Nat.eqb_eq in E. subst. intros [<-|H]; [now left|right; now right].
    - intros [<-|H]; [right; now left|]. apply IH in H. destruct H; [now left|right; now right].
  Qed.
  Lemma data_store t c e rg : data_reg rg -> (is_const t = true \/ exists l, e = Data l) -> data_reg (store t c e rg).
  Proof.
    intros D H r l c0 i. rewrite rget_store. destruct (ref_eqb t r) eqn:E; [|apply D]. intros [= <-] Hin. apply aset_in_nat in Hin. destruct Hin as [[= _ <-]|Hin].
    - destruct H as [H|[l H]]; [now rewrite <- (const_cong r t E)|discriminate].
    - unfold streams in Hin. destruct (rget r rg) eqn:F; [|contradiction]. now apply (D r l c0 i).
  Qed.
  Lemma extract_data a e e' : extract s a e = Ok e' -> exists l, e' = Data l.
  Proof.
    destruct e as [l|]; [|discriminate]. cbn [extract]. destruct a as [k|k].
    - destruct (rmapM _ l); cbn [rmap]; [|discriminate]. intros [= <-]. eauto.
    - assert (A : forall r : result (list (val X)), rmap Data r = Ok e' -> exists l, e' = Data l) by (intros [?|?]; cbn; [intros [= <-]; eauto|discriminate]).
      destruct (rmapM _ l) as [?|[]]; apply A.
  Qed.
  Lemma call_contexts_data pl : forall cs u m args kwargs rg l u', call_contexts s pl u cs m args kwargs rg = (Ok l, u') -> forall e, In e l -> exists d, snd e = Data d.
  Proof.
    induction cs as [|c cs IH]; intros u m args kwargs rg l u' E e He; cbn [call_contexts] in E; [injection E as <- _; destruct He|].
    destruct (call_context s pl u c m args kwargs rg) as [[d|] u1]; [|discriminate]. destruct (call_contexts s pl u1 cs m args kwargs rg) as [[l'|] u2] eqn:F; [|discriminate]. injection E as <- _.
    destruct He as [<-|He]; [now exists d|]. now apply (IH _ _ _ _ _ _ _ F).
  Qed.
  Lemma data_exec i w rg w' rg' o : is_ma i = false -> orderly i -> data_reg rg -> exec s i w rg = (w', Ok (rg', o)) -> data_reg rg'.
  Proof.
    intros N O D E. assert (St : forall t (l : list (nat * entry X)) rg, (forall e, In e l -> exists d, snd e = Data d) -> data_reg rg -> data_reg (fold_left (fun g e => store t (fst e) (snd e) g) l rg)).
    { intros t l; induction l as [|x l IH]; intros rg0 Hl D0; [exact D0|]; cbn [fold_left]; apply IH; [intros e He; apply Hl; now right|]. apply data_store; [exact D0|]. right. apply Hl. now left. }
    destruct i as [t e cs|src t a|m args kwargs t cs|m args kwargs d|os|ts|sp m|d r]; cbn [exec orderly] in E, O; try discriminate.
    - injection E as _ <- _. clear N. revert rg D. induction cs as [|c cs IH]; intros rg D; [exact D|]. cbn [fold_left]. apply IH. apply data_store; [exact D|now left].
    - destruct (items_for src rg) as [l0|]; cbn [rbind rmap] in E; [|discriminate]. destruct (rmapM _ _) as [l|] eqn:F; cbn [rbind rmap] in E; [|discriminate]. injection E as _ <- _. apply St; [|exact D].
      intros e He. apply rmapM_inv in F. destruct (f2_in_r _ _ _ F e He) as (x & Hx & Ex). destruct (extract s a (snd x)) eqn:G; [|discriminate]. injection Ex as <-. cbn [snd]. now apply (extract_data a (snd x)).
    - destruct (call_contexts s _ _ cs m args kwargs rg) as [[l|] ?] eqn:F; [|discriminate]. injection E as _ <- _. intros r l' c i. rewrite rget_store_all. destruct (ref_eqb t r) eqn:Eq; [|apply D]. intros [= <-].
      pose proof (call_contexts_data _ _ _ _ _ _ _ _ _ F) as HD. assert (A : forall l l0 : list (nat * entry X), (forall e, In e l -> exists d, snd e = Data d) -> In (c, AConst i) (fold_left (fun l e => aset Nat.eqb (fst e) (snd e) l) l l0) -> In (c, AConst i) l0).
      { clear. induction l as [|x l IH]; intros l0 Hl H; [exact H|]. cbn [fold_left] in H. apply IH in H; [|intros e He; apply Hl; now right]. apply aset_in_nat in H. destruct H as [H|H]; [|exact H]. destruct (Hl x (or_introl eq_refl)) as [d Hd]. rewrite Hd in H. discriminate. }
      intros H. apply (A _ _ HD) in H. unfold streams in H. destruct (rget r rg) eqn:G; [|contradiction]. eapply (D r); eassumption.
    - destruct (rmapM _ _); [|discriminate]. destruct (optimize s _ _ _ _ _) as [[|] ?]; [|discriminate]. injection E as _ <- _. exact D.
    - destruct (rmapM _ os); cbn [rbind] in E; [|discriminate]. destruct (rmapM _ _); [|discriminate]. injection E as _ <- _. exact D.
    - injection E as _ <- _. intros r l c i. rewrite rget_deletes. destruct (rmem r ts); [discriminate|apply D].
    - injection E as _ <- _. exact D.
  Qed.
  Lemma present_exec i w rg w' rg' o r : is_ma i = false -> exec s i w rg = (w', Ok (rg', o)) -> (forall ts, i = DeleteRegisterEntries ts -> rmem r ts = false) -> rget r rg <> None -> rget r rg' <> None.
  Proof.
    intros N E Hd P. assert (S1 : forall t c e rg, rget r rg <> None -> rget r (store t c e rg) <> None) by (intros t c e rg0 P0; rewrite rget_store; destruct (ref_eqb t r); [discriminate|exact P0]).
    assert (St : forall t (l : list (nat * entry X)) rg, rget r rg <> None -> rget r (fold_left (fun g e => store t (fst e) (snd e) g) l rg) <> None) by (intros t l; induction l as [|x l IH]; intros rg0 P0; [exact P0|]; cbn [fold_left]; apply IH; now apply S1).
    destruct i as [t e cs|src t a|m args kwargs t cs|m args kwargs d|os|ts|sp m|d r0]; cbn [exec] in E; try discriminate.
    - injection E as _ <- _. clear N Hd. revert rg P. induction cs as [|c cs IH]; intros rg P; [exact P|]. cbn [fold_left]. apply IH. now apply S1.
    - destruct (items_for src rg); cbn [rbind rmap] in E; [|discriminate]. destruct (rmapM _ _); cbn [rbind rmap] in E; [|discriminate]. injection E as _ <- _. now apply St.
    - destruct (call_contexts s _ _ cs m args kwargs rg) as [[l|] ?]; [|discriminate]. injection E as _ <- _. rewrite rget_store_all. destruct (ref_eqb t r); [discriminate|exact P].
    - destruct (rmapM _ _); [|discriminate]. destruct (optimize s _ _ _ _ _) as [[|] ?]; [|discriminate]. injection E as _ <- _. exact P.
    - destruct (rmapM _ os); cbn [rbind] in E; [|discriminate]. destruct (rmapM _ _); [|discriminate]. injection E as _ <- _. exact P.
    - injection E as _ <- _. rewrite rget_deletes. now rewrite (Hd ts eq_refl).
    - injection E as _ <- _. exact P.
  Qed.
  (** a use of an absent reference raises [KeyError] *)
  Lemma dataset_cases rg c r : data_reg rg -> (exists l, dataset_of s rg c r = Ok l) \/ dataset_of s rg c r = Err KeyError.
  Proof.
    intros D. destruct (is_const r) eqn:C; [destruct r; try discriminate; left; eexists; reflexivity|].
    assert (E : dataset_of s rg c r = let? e := load r c rg in match e with Data l => Ok l | AConst _ => Err TypeError end) by (destruct r; try discriminate; reflexivity).
    rewrite E. unfold load. destruct (rget r rg) as [l|] eqn:G; [|now right]. destruct (aget Nat.eqb c l) as [[d|i]|] eqn:A; cbn [rbind]; [left; now exists d| |now right].
    exfalso. apply (aget_in Nat.eqb (fun n => n)) in A; [|intros; apply Nat.eqb_eq]. destruct A as (c' & Hin & ->). rewrite (D r l c i G Hin) in C. discriminate.
  Qed.
  Lemma dataset_absent rg c r : is_const r = false -> rget r rg = None -> dataset_of s rg c r = Err KeyError.
  Proof. intros C G. destruct r; try discriminate; unfold dataset_of, load; now rewrite G. Qed.
  Lemma rmapM_key {A B} (f : A -> result B) l : (forall a, In a l -> (exists b, f a = Ok b) \/ f a = Err KeyError) -> (exists b, rmapM f l = Ok b) \/ rmapM f l = Err KeyError.
  Proof.
    induction l as [|a l IH]; intros H; [left; now exists []|]. change (rmapM f (a :: l)) with (let? y := f a in let? ys := rmapM f l in Ok (y :: ys)).
    destruct (H a (or_introl eq_refl)) as [[b E]|E]; rewrite E; [|now right]. cbn [rbind]. destruct IH as [[bs IH]|IH]; [intros; apply H; now right| |]; rewrite IH; [left; eexists; reflexivity|now right].
  Qed.
  Lemma rmapM_key_err {A B} (f : A -> result B) l a : (forall a, In a l -> (exists b, f a = Ok b) \/ f a = Err KeyError) -> In a l -> f a = Err KeyError -> rmapM f l = Err KeyError.
  Proof.
    induction l as [|x l IH]; intros H Ha E; [destruct Ha|]. change (rmapM f (x :: l)) with (let? y := f x in let? ys := rmapM f l in Ok (y :: ys)).
    destruct (H x (or_introl eq_refl)) as [[b F]|F]; rewrite F; [|reflexivity]. cbn [rbind]. destruct Ha as [->|Ha]; [congruence|]. rewrite IH; [reflexivity|intros; apply H; now right|exact Ha|exact E].
  Qed.
  Lemma gather_absent rg c args kwargs r : data_reg rg -> is_const r = false -> rget r rg = None -> In r (args ++ map snd kwargs) -> gather s rg c args kwargs = Err KeyError.
  Proof.
    intros D C G H. unfold gather. apply in_app_iff in H. destruct H as [H|H].
    - rewrite (rmapM_key_err (dataset_of s rg c) args r); [reflexivity|intros; now apply dataset_cases|exact H|now apply dataset_absent].
    - destruct (rmapM_key (dataset_of s rg c) args) as [[a E]|E]; [intros; now apply dataset_cases| |]; rewrite E; [|reflexivity]. cbn [rbind]. apply in_map_iff in H. destruct H as ([k r'] & <- & H).
      rewrite (rmapM_key_err (fun e => dataset_of s rg c (snd e)) kwargs (k, r')); [reflexivity|intros; now apply dataset_cases|exact H|now apply dataset_absent].
  Qed.
  Lemma next_use_raises js : forall w rg r, data_reg rg -> (forall i, In i (strip js) -> orderly i) -> is_const r = false -> rget r rg = None -> next_use js r -> run_instructions s (strip js) w rg = (w, Err KeyError).
  Proof.
    induction js as [|i js IH]; intros w rg r D O C G H; [destruct H|]. unfold strip in *. destruct i; cbn [filter is_mm is_ma negb andb] in *; try contradiction; try (now apply (IH w rg r)).
    - cbn [run_instructions exec next_use uses] in *. destruct (O _ (or_introl eq_refl)) as [_ Hc]. destruct cs as [|c cs]; [congruence|]. cbn [call_contexts]. unfold call_context. rewrite (gather_absent rg c args kwargs r D C G H). destruct w. reflexivity.
    - cbn [run_instructions exec next_use uses] in *. pose proof (O _ (or_introl eq_refl)) as Hc. cbn [orderly] in Hc. destruct (d_contexts d) as [|c cs]; [congruence|].
      rewrite (rmapM_key_err _ (c :: cs) c); [reflexivity| |now left|now apply gather_absent with r]. intros c' _. right. now apply gather_absent with r.
  Qed.

  Theorem strip_total js : forall fresh w w' rg rg', justified js fresh -> (forall i, In i (strip js) -> orderly i) -> w_user w = w_user w' -> rel_reg rg rg' -> nodup_reg rg -> data_reg rg -> (forall r, In r fresh -> rget r rg <> None) ->
    rel_out (run_instructions s (strip js) w rg) (run_instructions s js w' rg').
  Proof.
    induction js as [|i js IH]; intros fresh w w' rg rg' J O Hu R N D F; [split; [exact Hu|split; [exact R|exact Logic.I]]|]. destruct J as [Jc J].
    destruct (is_mm i) eqn:Em; [destruct i; try discriminate; unfold strip in *; cbn [filter is_mm is_ma negb andb] in *; apply (IH fresh w _ rg rg'); assumption|].
    destruct (is_ma i) eqn:Ea.
    - destruct i; try discriminate. cbn [run_instructions]. pose proof (move_rel d r w' rg rg' R (fun l H => N r l H)) as Mv. unfold strip in *. cbn [filter is_mm is_ma negb andb] in *. destruct Jc as [J1 J2]. destruct (exec s (MoveActivations d r) w' rg') as [w1 [[rg1 [o|]]|e]]; [contradiction| |].
      + destruct Mv as [-> R1]. now apply (IH fresh).
      + destruct Mv as [-> [[-> G]|[-> (l & c & k & G & Hin)]]].
        * destruct J2 as [J2|J2]; [now apply F in J2|]. pose proof (next_use_raises js w rg r D O J1 G J2) as E. unfold strip in E. rewrite E. split; [exact Hu|reflexivity].
        * exfalso. rewrite (D r _ _ _ G Hin) in J1. discriminate.
    - assert (Oi : orderly i) by (apply O; unfold strip; cbn [filter]; rewrite Em, Ea; now left). assert (O' : forall i, In i (strip js) -> orderly i) by (intros x Hx; apply O; unfold strip; cbn [filter]; rewrite Em, Ea; now right).
      unfold strip in *. cbn [filter]. rewrite Em, Ea. cbn [negb andb run_instructions]. pose proof (exec_rel i w w' rg rg' Em Ea Hu R) as [E1 E2]. pose proof (nodup_exec i w rg) as Ne. pose proof (data_exec i w rg) as De. pose proof (present_exec i w rg) as Pe.
      destruct (exec s i w rg) as [w1 [[rg1 [o|]]|e]] eqn:Ex, (exec s i w' rg') as [w1' [[rg1' [o'|]]|e']]; cbn [fst snd same_result same_output] in *; try (exfalso; tauto).
      + split; [exact E1|exact E2].
      + apply (IH (upd i fresh)); [exact J|exact O'|exact E1|apply E2|now apply (Ne w1 rg1 None)|now apply (De w1 rg1 None)|].
        intros r Hr. assert (Hf : In r fresh -> rget r rg1 <> None). { intros Hf. apply (Pe w1 rg1 None r Ea eq_refl); [|now apply F]. intros ts ->. now apply Jc. }
        assert (Dr : In r (drop (uses i) fresh) -> In r fresh) by (unfold drop; intros H; now apply filter_In in H).
        destruct i; try discriminate; cbn [upd] in Hr; try (now apply Hf, Dr). destruct Hr as [<-|Hr]; [|now apply Hf, Dr].
        cbn [exec] in Ex. destruct (call_contexts s _ _ cs m args kwargs rg) as [[l|] ?]; [|discriminate]. injection Ex as _ <-. rewrite rget_store_all, ref_eqb_refl. discriminate.
      + split; [exact E1|exact E2].
  Qed.

  Lemma tidy_of : forall (js pre : list (instr X)) fresh, used_before_deleted (pre ++ js) -> (forall i, In i js -> is_ma i = false /\ is_mm i = false) ->
    (forall r, In r fresh -> exists l1 m a k cs l2, pre = l1 ++ CallModule m a k r cs :: l2 /\ forall i u, In i l2 -> In u (uses i) -> ref_eqb (unwrap u) (unwrap r) = false) -> tidy js fresh.
  Proof.
    induction js as [|i js IH]; intros pre fresh H N F; [exact Logic.I|]. destruct (N i (or_introl eq_refl)) as [N1 N2]. split.
    - destruct i; try exact Logic.I. intros r Hr. destruct (rmem r ts) eqn:E; [|reflexivity]. exfalso. apply rmem_in in E. destruct E as (t' & Ht & Et). destruct (F r Hr) as (l1 & m & a & k & cs & l2 & -> & Hl2).
      destruct (H l1 m a k r cs l2 ts js t') as (i & u & Hi & Hu & Eu); [now rewrite <- app_assoc|exact Ht|apply same_ref_norm; congruence|]. apply same_ref_norm in Eu. apply ref_eqb_norm in Eu. rewrite (Hl2 i u Hi Hu) in Eu. discriminate.
    - apply (IH (pre ++ [i])); [now rewrite <- app_assoc|intros; apply N; now right|]. intros r Hr.
      assert (Old : In r (drop (uses i) fresh) -> exists l1 m a k cs l2, pre ++ [i] = l1 ++ CallModule m a k r cs :: l2 /\ forall i u, In i l2 -> In u (uses i) -> ref_eqb (unwrap u) (unwrap r) = false).
      { intros Hd. apply filter_In in Hd. destruct Hd as [Hf Hd]. destruct (F r Hf) as (l1 & m & a & k & cs & l2 & -> & Hl2). exists l1, m, a, k, cs, (l2 ++ [i]). split; [now rewrite <- app_assoc|]. intros j u Hj Hu. apply in_app_iff in Hj. destruct Hj as [Hj|[<-|[]]]; [now apply (Hl2 j)|].
        destruct (ref_eqb (unwrap u) (unwrap r)) eqn:E; [|reflexivity]. apply negb_true_iff in Hd. rewrite <- Hd. symmetry. apply existsb_exists. now exists u. }
      destruct i; try discriminate; cbn [upd] in Hr; try (now apply Old). destruct Hr as [<-|Hr]; [|now apply Old]. exists pre, m, args, kwargs, cs, []. split; [reflexivity|intros ? ? []].
  Qed.

  Lemma orderly_no_moves (is : list (instr X)) : orderly_program is -> no_moves is.
  Proof. intros [H _] i Hi. specialize (H i Hi). destruct i; try exact Logic.I; contradiction. Qed.
  Lemma orderly_of (i : instr X) : orderly_instr i -> orderly i.
  Proof. destruct i; cbn; try trivial; try contradiction. - now intros [c ->]. - intros [H1 H2]. split; [|exact H2]. destruct t; try reflexivity. now destruct (H1 id). Qed.
  Lemma f2_refl {A} (R : A -> A -> Prop) : (forall a, R a a) -> forall l, Forall2 R l l.
  Proof. intros H. induction l; constructor; [apply H|assumption]. Qed.
  Lemma rel_reg_refl rg : rel_reg rg rg.
  Proof. intros r. destruct (rget r rg) as [l|]; [|exact Logic.I]. apply f2_refl. intros [c [l'|i]]; split; try reflexivity. cbn. apply f2_refl. reflexivity. Qed.
  Theorem offload_same is compute storage g pl w w' rg : orderly_program is -> w_user w = w_user w' -> nodup_reg rg -> data_reg rg ->
    rel_out (run_instructions s is w rg) (run_instructions s (offloading_pass s is compute storage g pl) w' rg).
  Proof.
    intros O Hu Nr D. pose proof (orderly_no_moves is O) as N. destruct O as [O Ub]. rewrite <- (offload_strip s is compute storage g pl N) at 1. apply (strip_total _ []); [|  |exact Hu|apply rel_reg_refl|exact Nr|exact D|intros r []].
    - apply offload_justified; [exact N|intros i Hi; specialize (O i Hi); destruct i; try exact Logic.I; cbn in *; destruct O as [O _]; destruct t; try reflexivity; now destruct (O id)|].
      apply (tidy_of is [] []); [exact Ub|intros i Hi; specialize (O i Hi); destruct i; now split|intros r []].
    - rewrite (offload_strip s is compute storage g pl N). intros i Hi. apply orderly_of, O, Hi.
  Qed.

  Lemma prepared_ok refs args kwargs cs rg : prepare_input_register refs args kwargs cs = Ok rg -> nodup_reg rg /\ data_reg rg.
  Proof.
    unfold prepare_input_register. destruct (bind_inputs _ _ _) as [ins|]; [|discriminate]. cbn [rbind]. assert (A : forall ins rg0 rg, rfold (fun g e => match aget String.eqb (fst e) refs with None => Err KeyError | Some id => Ok (fold_left (fun g c => store (RInput id (fst e)) c (Data (from_value (snd e))) g) cs g) end) ins rg0 = Ok rg -> nodup_reg rg0 -> data_reg rg0 -> nodup_reg rg /\ data_reg rg).
    { clear. induction ins as [|e ins IH]; intros rg0 rg H N D; [injection H as <-; now split|]. cbn [rfold] in H. destruct (aget _ _ _) as [id|]; [|discriminate]. cbn [rbind] in H. apply (IH _ _ H); clear -N D; revert rg0 N D; induction cs as [|c cs IHc]; intros rg0 N D; try assumption; cbn [fold_left]; apply IHc; try (now apply nodup_store); apply data_store; try exact D; right; eexists; reflexivity. }
    intros H. apply (A _ _ _ H); [intros r l Hr; discriminate|intros r l c i Hr; discriminate].
  Qed.
  Lemma contexts_strip js : flat_map (contexts_of (X:=X)) (strip js) = flat_map contexts_of js.
  Proof. induction js as [|i js IH]; [reflexivity|]. destruct i; unfold strip in *; cbn [filter is_mm is_ma negb andb flat_map contexts_of app]; try exact IH; now rewrite IH. Qed.
  Theorem offload_run order is inputs compute storage g args kwargs w : orderly_program is ->
    let off := offloading_pass s is compute storage g (w_place w) in
    rel_out (run s order (mkProgram is inputs) args kwargs w) (run s order (mkProgram off inputs) args kwargs w).
  Proof.
    intros O off. unfold run, program_contexts. cbn [p_instrs p_inputs]. assert (E : flat_map contexts_of off = flat_map contexts_of is) by (subst off; rewrite <- contexts_strip, offload_strip; [reflexivity|now apply orderly_no_moves]). rewrite E.
    destruct (prepare_input_register _ _ _ _) as [rg|e] eqn:P; [|split; reflexivity]. apply prepared_ok in P. apply offload_same; tauto.
  Qed.
End Same.
