(** Proofs about offloading: weights are restored, results do not change. *)
From Coq Require Import String Ascii Permutation Relations.
From Verif Require Import Prelude GraphModel GraphSpec GraphProofs EngineModel EngineSpec EngineBaseProofs EngineLifeProofs EngineOptProofs EngineInputProofs EngineContextProofs EngineSchedProofs.
Local Open Scope nat_scope.
Local Open Scope list_scope.

Section Shape.
  Context {X U : Type} (s : semantics X U).
  Implicit Types is js : list (instr X).
  Definition is_mm (i : instr X) : bool := match i with MoveModule _ _ => true | _ => false end.
  Definition is_ma (i : instr X) : bool := match i with MoveActivations _ _ => true | _ => false end.
  Definition strip is := filter (fun i => negb (is_mm i) && negb (is_ma i)) is.
  Definition mms is := filter is_mm is.

  Lemma flush_shape l : forall rd (pend : list (ref * (nat * ref))) (out : list (instr X)), Forall (fun i => is_ma i = true) out ->
    Forall (fun i => is_ma i = true) (snd (fold_left flush l (rd, pend, out))).
  Proof.
    induction l as [|r l IH]; intros rd pend out H; [exact H|]. cbn [fold_left]. unfold flush at 2. destruct (aget ref_eqb (unwrap r) pend) as [[d r']|]; [|now apply IH].
    destruct (match aget ref_eqb (unwrap r) rd with Some d' => d' =? d | None => false end); apply IH; [exact H|]. apply Forall_app. split; [exact H|repeat constructor].
  Qed.
  Lemma filter_none (h : instr X -> bool) l : Forall (fun i => is_ma i = true) l -> (forall i, is_ma i = true -> h i = false) -> filter h l = [].
  Proof. intros F H. induction F as [|i l E F IH]; [reflexivity|]. cbn [filter]. now rewrite (H i E). Qed.
  Lemma ma_strip i : is_ma i = true -> negb (is_mm i) && negb (is_ma i) = false.
  Proof. intros ->. now rewrite andb_false_r. Qed.
  Lemma ma_mm i : is_ma i = true -> is_mm i = false.
  Proof. now destruct i. Qed.
  Lemma tail_shape rd (pend : list (ref * (nat * ref))) : Forall (fun i => is_ma i = true)
    (flat_map (fun p => let '(k, (d, r)) := p in if match aget ref_eqb (unwrap r) rd with Some d' => d' =? d | None => false end then [] else [MoveActivations d r]) pend).
  Proof.
    induction pend as [|[k [d r]] l IH]; [constructor|]. cbn [flat_map]. apply Forall_app. split; [|exact IH]. destruct (match aget _ _ rd with Some d' => _ | None => _ end); repeat constructor.
  Qed.
  Lemma cancel_moves_filter (h : instr X -> bool) compute is : (forall i, is_ma i = true -> h i = false) -> forall rd pend,
    filter h (cancel_moves s compute is rd pend) = filter h is.
  Proof.
    intros H. induction is as [|i is IH]; intros rd pend; [cbn [cancel_moves filter]; apply filter_none; [apply tail_shape|exact H]|].
    destruct i as [t e cs|src t a|m args kwargs t cs|m args kwargs d|os|ts|sp m|d r];
      try (cbn [cancel_moves]; match goal with |- context [fold_left flush ?u ?st] => pose proof (flush_shape u rd pend [] (Forall_nil _)) as F; destruct (fold_left flush u st) as [[rd' pend'] out] end;
           cbn [snd] in F; rewrite filter_app, (filter_none h out F H); cbn [app filter]; now rewrite IH).
    cbn [cancel_moves filter]. rewrite (H (MoveActivations d r) eq_refl). apply IH.
  Qed.
  Lemma cancel_cons2 compute storage (x y : instr X) r : cancel_module_round_trips compute storage (x :: y :: r) =
    if is_round_trip compute storage x y then cancel_module_round_trips compute storage r else x :: cancel_module_round_trips compute storage (y :: r).
  Proof. reflexivity. Qed.
  Lemma cancel_rt_strip compute storage : forall n is, length is <= n -> strip (cancel_module_round_trips compute storage is) = strip is.
  Proof.
    induction n as [|n IH]; intros is L; [destruct is; [reflexivity|cbn in L; lia]|]. destruct is as [|a [|b is]]; try reflexivity. rewrite cancel_cons2.
    destruct (is_round_trip compute storage a b) eqn:R.
    - rewrite IH by (cbn in L; lia). destruct a; try discriminate. destruct d; try discriminate. destruct b; try discriminate. reflexivity.
    - unfold strip in *. specialize (IH (b :: is)). cbn [filter] in *. rewrite IH by (cbn in *; lia). reflexivity.
  Qed.
  Lemma strip_nomoves is : no_moves is -> strip is = is.
  Proof.
    intros H. unfold strip. induction is as [|i is IH]; [reflexivity|]. cbn [filter]. rewrite IH by (intros j Hj; apply H; now right).
    specialize (H i (or_introl eq_refl)). destruct i; try reflexivity; destruct H.
  Qed.
  Lemma strip_app a b : strip (a ++ b) = strip a ++ strip b.
  Proof. apply filter_app. Qed.
  Lemma strip_mm l : Forall (fun i => is_mm i = true) l -> strip l = [].
  Proof. intros F. induction F as [|i l E F IH]; [reflexivity|]. unfold strip in *. cbn [filter]. now rewrite E. Qed.
  Lemma pre_mm storage g : Forall (fun i => is_mm i = true) (map (fun m => MoveModule (X:=X) (OneDevice storage) m) (all_modules s g)).
  Proof. apply Forall_map, Forall_forall. reflexivity. Qed.
  Lemma post_mm g pl : Forall (fun i => is_mm i = true) (post_restore s g pl).
  Proof.
    unfold post_restore. induction (all_modules s g) as [|m l IH]; [constructor|]. cbn [flat_map]. apply Forall_app. split; [|exact IH]. destruct (weights s m); repeat constructor.
  Qed.
  Lemma activation_strip compute storage is : strip (activation_offloading_pass is compute storage) = strip is.
  Proof.
    unfold activation_offloading_pass. induction is as [|i is IH]; [reflexivity|]. cbn [flat_map]. rewrite strip_app, IH. change (i :: is) with ([i] ++ is). rewrite strip_app. f_equal.
    assert (Mv : forall l, strip (map (MoveActivations compute) l) = []) by (induction l as [|r l IHl]; [reflexivity|exact IHl]).
    destruct i; try reflexivity; cbn [wrap_activations]; rewrite strip_app, Mv; reflexivity.
  Qed.
  Theorem offload_strip is compute storage g pl : no_moves is -> strip (offloading_pass s is compute storage g pl) = is.
  Proof.
    intros N. unfold offloading_pass, cancel_redundant_activation_moves. unfold strip. rewrite cancel_moves_filter by exact ma_strip. fold (strip (cancel_module_round_trips compute storage (activation_offloading_pass (weight_offloading_pass s is compute storage g pl) compute storage))).
    rewrite (cancel_rt_strip _ _ _ _ (le_n _)), activation_strip. unfold weight_offloading_pass. rewrite !strip_app, (strip_mm _ (pre_mm storage g)), (strip_mm _ (post_mm g pl)), app_nil_r. cbn [app].
    rewrite <- (strip_nomoves is N) at 2. clear N. induction is as [|i is IH]; [reflexivity|]. cbn [flat_map]. rewrite strip_app, IH. change (i :: is) with ([i] ++ is). rewrite strip_app. f_equal.
    destruct i; try reflexivity; cbn [wrap_weights]; destruct (is_module s m); reflexivity.
  Qed.

  (** ** placement *)
  Definition place_of is (pl : nat -> nat) : nat -> nat := fold_left (fun pl i => match i with MoveModule sp m => move_weights s sp m pl | _ => pl end) is pl.
  Lemma place_mms is : forall pl, place_of is pl = place_of (mms is) pl.
  Proof. unfold place_of, mms. induction is as [|i is IH]; intros pl; [reflexivity|]. cbn [fold_left filter]. destruct i; cbn [is_mm fold_left]; apply IH. Qed.
  Lemma exec_place i w (rg : register X) : w_place (fst (exec s i w rg)) = match i with MoveModule sp m => move_weights s sp m (w_place w) | _ => w_place w end.
  Proof.
    destruct i as [t e cs|src t a|m args kwargs t cs|m args kwargs d|os|ts|sp m|d r]; cbn [exec]; try reflexivity.
    - now destruct (call_contexts s (w_place w) (w_user w) cs m args kwargs rg).
    - destruct (rmapM _ _); [|reflexivity]. now destruct (optimize s _ _ _ _ _).
  Qed.
  Lemma exec_none i w (rg : register X) w' rg' o : exec s i w rg = (w', Ok (rg', Some o)) -> is_return i.
  Proof.
    destruct i as [t e cs|src t a|m args kwargs t cs|m args kwargs d|os|ts|sp m|d r]; cbn [exec]; intros H; try exact Logic.I; exfalso.
    - discriminate.
    - destruct (items_for src rg) as [l|]; cbn [rbind rmap] in H; [|discriminate]. destruct (rmapM _ _); discriminate.
    - destruct (call_contexts s (w_place w) (w_user w) cs m args kwargs rg) as [[l|] ?]; discriminate.
    - destruct (rmapM _ _); [|discriminate]. destruct (optimize s _ _ _ _ _) as [[|] ?]; discriminate.
    - discriminate.
    - discriminate.
    - destruct (items_for r rg) as [l|]; cbn [rbind rmap] in H; [|discriminate]. destruct (rmapM _ _); discriminate.
  Qed.
  Lemma run_place is : forall w (rg : register X) w' rg' o, (forall i, In i is -> ~ is_return i) -> run_instructions s is w rg = (w', Ok (rg', o)) -> o = None /\ w_place w' = place_of is (w_place w).
  Proof.
    induction is as [|i is IH]; intros w rg w' rg' o N H; [injection H as <- <- <-; now split|]. cbn [run_instructions] in H.
    pose proof (exec_place i w rg) as Ep. destruct (exec s i w rg) as [w1 [[rg1 [o1|]]|e]] eqn:E; cbn [fst] in Ep.
    - apply exec_none in E. destruct (N i (or_introl eq_refl) E).
    - apply IH in H; [|intros j Hj; apply N; now right]. destruct H as [-> ->]. split; [reflexivity|]. unfold place_of. cbn [fold_left]. rewrite <- Ep. now destruct i.
    - discriminate.
  Qed.

  (** the shape of the moves of modules *)
  Definition is_named (i : instr X) : bool := match i with MoveModule (PerName _) _ => true | _ => false end.
  Lemma cancel_suffix compute storage (r : list (instr X)) : Forall (fun i => is_named i = true) r -> forall n a, length a <= n ->
    exists a', cancel_module_round_trips compute storage (a ++ r) = a' ++ r /\ incl a' a.
  Proof.
    intros F. assert (Fr : cancel_module_round_trips compute storage r = r).
    { induction r as [|x [|y r] IH]; try reflexivity. inversion F as [|? ? E F']; subst. rewrite cancel_cons2. destruct x as [| | | | | |[d|l] m|]; try discriminate. cbn [is_round_trip]. f_equal. now apply IH. }
    induction n as [|n IH]; intros a L; [destruct a; [exists []; split; [exact Fr|intros x []]|cbn in L; lia]|].
    destruct a as [|x [|y a]]; [exists []; split; [exact Fr|intros z []]| |].
    - exists [x]. split; [|intros z; trivial]. destruct r as [|y r]; [reflexivity|]. cbn [app]. assert (Q : is_round_trip compute storage x y = false).
      { inversion F as [|? ? E _]; subst. destruct y as [| | | | | |[d|l] m|]; try discriminate. now destruct x as [| | | | | |[d|l'] m'|]. }
      change (cancel_module_round_trips compute storage (x :: y :: r)) with (if is_round_trip compute storage x y then cancel_module_round_trips compute storage r else x :: cancel_module_round_trips compute storage (y :: r)). now rewrite Q, Fr.
    - cbn [app]. change (cancel_module_round_trips compute storage (x :: y :: a ++ r)) with (if is_round_trip compute storage x y then cancel_module_round_trips compute storage (a ++ r) else x :: cancel_module_round_trips compute storage ((y :: a) ++ r)).
      destruct (is_round_trip compute storage x y).
      + destruct (IH a) as (a' & E & I); [cbn in L; lia|]. exists a'. split; [exact E|]. intros z Hz. right. right. now apply I.
      + destruct (IH (y :: a)) as (a' & E & I); [cbn in *; lia|]. exists (x :: a'). rewrite E. split; [reflexivity|]. intros z [<-|Hz]; [now left|]. right. now apply I.
  Qed.
  Lemma post_named g pl : Forall (fun i => is_named i = true) (post_restore s g pl).
  Proof.
    unfold post_restore. induction (all_modules s g) as [|m l IH]; [constructor|]. cbn [flat_map]. apply Forall_app. split; [|exact IH]. destruct (weights s m); repeat constructor.
  Qed.
  Lemma activation_post compute storage g pl : activation_offloading_pass (post_restore s g pl) compute storage = post_restore s g pl.
  Proof.
    unfold activation_offloading_pass, post_restore. induction (all_modules s g) as [|m l IH]; [reflexivity|]. cbn [flat_map]. rewrite flat_map_app, IH. f_equal. now destruct (weights s m).
  Qed.
  Lemma activation_mm compute storage is i : In i (activation_offloading_pass is compute storage) -> is_mm i = true -> In i is.
  Proof.
    unfold activation_offloading_pass. rewrite in_flat_map. intros (j & Hj & Hi) M. destruct j; cbn [wrap_activations] in Hi; try (destruct Hi as [<-|[]]; exact Hj).
    - rewrite in_app_iff in Hi. destruct Hi as [Hi|[<-|[<-|[]]]]; try discriminate. apply in_map_iff in Hi. destruct Hi as (r & <- & _). discriminate.
    - rewrite in_app_iff in Hi. destruct Hi as [Hi|[<-|[]]]; try discriminate. apply in_map_iff in Hi. destruct Hi as (r & <- & _). discriminate.
  Qed.
  Theorem offload_mms is compute storage g pl : no_moves is ->
    (forall i m, In i is -> (exists a k t cs, i = CallModule m a k t cs) \/ (exists a k d, i = OptimizeModule m a k d) -> is_module s m = true -> In m (all_modules s g)) ->
    exists l, mms (offloading_pass s is compute storage g pl) = l ++ post_restore s g pl /\ forall i, In i l -> exists d m, i = MoveModule (OneDevice d) m /\ In m (all_modules s g).
  Proof.
    intros N Hm. unfold offloading_pass, cancel_redundant_activation_moves, mms. rewrite cancel_moves_filter by exact ma_mm. unfold weight_offloading_pass. rewrite app_assoc.
    set (b := map _ _ ++ flat_map _ _). unfold activation_offloading_pass at 1. rewrite flat_map_app. fold (activation_offloading_pass b compute storage). fold (activation_offloading_pass (post_restore s g pl) compute storage). rewrite activation_post.
    destruct (cancel_suffix compute storage (post_restore s g pl) (post_named g pl) _ (activation_offloading_pass b compute storage) (le_n _)) as (a' & E & I). rewrite E, filter_app.
    assert (Pf : filter is_mm (post_restore s g pl) = post_restore s g pl).
    { pose proof (post_mm g pl) as F. clear -F. induction F as [|x l Ex F IH]; [reflexivity|]. cbn [filter]. now rewrite Ex, IH. }
    rewrite Pf. exists (filter is_mm a'). split; [reflexivity|]. intros i Hi. apply filter_In in Hi. destruct Hi as [Hi M]. apply I in Hi. apply activation_mm in Hi; [|exact M].
    unfold b in Hi. rewrite in_app_iff in Hi. destruct Hi as [Hi|Hi].
    - apply in_map_iff in Hi. destruct Hi as (m & <- & Hm'). eauto.
    - apply in_flat_map in Hi. destruct Hi as (j & Hj & Hi). specialize (N j Hj). destruct j as [| |m args kwargs t cs|m args kwargs d| | | |]; cbn [wrap_weights] in Hi; try (destruct Hi as [<-|[]]; discriminate); try destruct N.
      + destruct (is_module s m) eqn:Mm; [|destruct Hi as [<-|[]]; discriminate]. assert (In m (all_modules s g)) by (apply (Hm _ m Hj); [left; now exists args, kwargs, t, cs|exact Mm]). destruct Hi as [<-|[<-|[<-|[]]]]; try discriminate; eauto.
      + destruct (is_module s m) eqn:Mm; [|destruct Hi as [<-|[]]; discriminate]. assert (In m (all_modules s g)) by (apply (Hm _ m Hj); [right; now exists args, kwargs, d|exact Mm]). destruct Hi as [<-|[<-|[<-|[]]]]; try discriminate; eauto.
  Qed.

  (** moving by name *)
  Lemma move_weights_out sp m pl x : ~ In x (map snd (weights s m)) -> move_weights s sp m pl x = pl x.
  Proof.
    unfold move_weights. generalize (weights s m). intros l. revert pl. induction l as [|[n y] l IH]; intros pl H; [reflexivity|]. cbn [fold_left fst snd]. rewrite IH; [|intros H'; apply H; now right].
    destruct (match sp with OneDevice d => Some d | PerName l0 => aget String.eqb n l0 end) as [d|]; [|reflexivity]. destruct (Nat.eqb_spec x y) as [->|]; [exfalso; apply H; now left|reflexivity].
  Qed.
  Lemma sget_map (pl : nat -> nat) (l : list (string * nat)) n y : NoDup (map fst l) -> In (n, y) l -> aget String.eqb n (map (fun e => (fst e, pl (snd e))) l) = Some (pl y).
  Proof.
    induction l as [|[n' y'] l IH]; intros N H; [destruct H|]. cbn in N. inversion N as [|? ? N1 N2]; subst. cbn [map aget fst snd]. destruct H as [[= -> ->]|H]; [now rewrite String.eqb_refl|].
    destruct (String.eqb_spec n' n) as [->|]; [|now apply IH]. exfalso. apply N1. now apply (in_map fst l (n, y)).
  Qed.
  Lemma restore_in m (pl pl1 : nat -> nat) x : NoDup (map fst (weights s m)) -> In x (map snd (weights s m)) -> move_weights s (PerName (map (fun e => (fst e, pl (snd e))) (weights s m))) m pl1 x = pl x.
  Proof.
    intros N H. unfold move_weights. set (dm := map _ (weights s m)).
    assert (G : forall l pl1, (forall n y, In (n, y) l -> aget String.eqb n dm = Some (pl y)) -> In x (map snd l) \/ pl1 x = pl x ->
      fold_left (fun pl e => match aget String.eqb (fst e) dm with Some d => fun w => if w =? snd e then d else pl w | None => pl end) l pl1 x = pl x).
    { induction l as [|[n y] l IH]; intros pl2 Hl Hx; [destruct Hx as [[]|Hx]; exact Hx|]. cbn [fold_left fst snd]. apply IH; [intros n' y' H'; apply Hl; now right|].
      rewrite (Hl n y (or_introl eq_refl)). cbn [map snd In] in Hx. destruct (Nat.eqb_spec x y) as [->|D]; [now right|]. destruct Hx as [[->|Hx]|Hx]; [contradiction|now left|now right]. }
    apply (G (weights s m) pl1); [|now left]. intros n y Hy. now apply sget_map.
  Qed.
  Lemma restore_place (ms : list nat) (pl : nat -> nat) : (forall m, In m ms -> NoDup (map fst (weights s m))) -> forall pl1 x, (exists m, In m ms /\ In x (map snd (weights s m))) \/ pl1 x = pl x ->
    place_of (flat_map (fun m => match weights s m with [] => [] | ws => [MoveModule (PerName (map (fun e => (fst e, pl (snd e))) ws)) m] end) ms) pl1 x = pl x.
  Proof.
    unfold place_of. induction ms as [|m ms IH]; intros N pl1 x H; [destruct H as [(m & [] & _)|H]; exact H|]. cbn [flat_map]. rewrite fold_left_app. apply IH; [intros m' Hm'; apply N; now right|].
    destruct (in_dec Nat.eq_dec x (map snd (weights s m))) as [Hx|Hx].
    - right. pose proof (restore_in m pl pl1 x (N m (or_introl eq_refl)) Hx) as R. destruct (weights s m) as [|e l] eqn:W; [destruct Hx|]. exact R.
    - destruct H as [(m' & [<-|Hm'] & Hx')|H]; [contradiction|left; eauto|]. right. pose proof (move_weights_out (PerName (map (fun e => (fst e, pl (snd e))) (weights s m))) m pl1 x Hx) as R. destruct (weights s m); cbn [fold_left]; [exact H|]. now rewrite R.
  Qed.

  Theorem offload_restores is compute storage g w (rg : register X) w' rg' o : no_moves is -> (forall i, In i is -> ~ is_return i) ->
    (forall i m, In i is -> (exists a k t cs, i = CallModule m a k t cs) \/ (exists a k d, i = OptimizeModule m a k d) -> is_module s m = true -> exists n, In n (g_nodes g) /\ n_op n = TorchModule /\ n_target n = m) ->
    (forall m, NoDup (map fst (weights s m))) ->
    run_instructions s (offloading_pass s is compute storage g (w_place w)) w rg = (w', Ok (rg', o)) -> forall x, w_place w' x = w_place w x.
  Proof.
    intros N Nr Hm Nw H x.
    assert (Hm' : forall i m, In i is -> (exists a k t cs, i = CallModule m a k t cs) \/ (exists a k d, i = OptimizeModule m a k d) -> is_module s m = true -> In m (all_modules s g)).
    { intros i m Hi Hc Mm. destruct (Hm i m Hi Hc Mm) as (n & Hn & Ho & Ht). unfold all_modules. apply dedup_in. split; [|intros []]. apply in_map_iff. exists n. split; [exact Ht|]. apply filter_In. split; [exact Hn|]. now rewrite Ho, Ht. }
    assert (Nr' : forall i, In i (offloading_pass s is compute storage g (w_place w)) -> ~ is_return i).
    { intros i Hi R. assert (In i (strip (offloading_pass s is compute storage g (w_place w)))) by (apply filter_In; split; [exact Hi|]; now destruct i). rewrite (offload_strip is compute storage g _ N) in H0. now apply (Nr i). }
    apply run_place in H; [|exact Nr']. destruct H as [_ ->]. rewrite place_mms. destruct (offload_mms is compute storage g (w_place w) N Hm') as (l & -> & Hl).
    unfold place_of. rewrite fold_left_app. apply restore_place; [intros m _; apply Nw|].
    destruct (in_dec Nat.eq_dec x (flat_map (fun m => map snd (weights s m)) (all_modules s g))) as [Hx|Hx]; [left; apply in_flat_map in Hx; exact Hx|]. right.
    assert (G : forall l pl, (forall i, In i l -> exists d m, i = MoveModule (X:=X) (OneDevice d) m /\ In m (all_modules s g)) -> fold_left (fun pl i => match i with MoveModule sp m => move_weights s sp m pl | _ => pl end) l pl x = pl x).
    { clear -Hx. induction l as [|i l IH]; intros pl Hl; [reflexivity|]. cbn [fold_left]. rewrite IH by (intros j Hj; apply Hl; now right). destruct (Hl i (or_introl eq_refl)) as (d & m & -> & Hm). apply move_weights_out. intros H. apply Hx. apply in_flat_map. eauto. }
    now apply G.
  Qed.
End Shape.
