(** Offloaded programs run every module on the compute device. *)
From Coq Require Import String Ascii Permutation Relations.
From Verif Require Import Prelude GraphModel GraphSpec GraphProofs EngineModel EngineSpec EngineBaseProofs EngineLifeProofs EngineOptProofs EngineInputProofs EngineContextProofs EngineSchedProofs EngineOffloadProofs EngineSameProofs.
Local Open Scope nat_scope.
Local Open Scope list_scope.

Section Values.
  Context {X : Type}.
  Implicit Types v : val X.
  Lemma tensorless_on d v : tensorless v = true -> on_device d v = true.
  Proof.
    induction v as [e x|n l IH|l IH|l IH|x f IH] using val_ind2; cbn [tensorless on_device]; intros H; try discriminate; rewrite forallb_forall in *; rewrite Forall_forall in IH; intros a Ha; apply IH; auto.
  Qed.
  Lemma move_on d v : movable v = true -> on_device d (move d v) = true.
  Proof.
    induction v as [e x|n l IH|l IH|l IH|x f IH] using val_ind2; cbn [move movable on_device]; intros H; try (apply Nat.eqb_refl); rewrite forallb_forall in *; try rewrite Forall_forall in IH.
    - intros a Ha. apply in_map_iff in Ha. destruct Ha as (b & <- & Hb). apply IH; auto.
    - intros a Ha. apply in_map_iff in Ha. destruct Ha as (b & <- & Hb). apply IH; auto.
    - intros a Ha. apply in_map_iff in Ha. destruct Ha as (b & <- & Hb). apply (IH b); auto.
    - intros a Ha. apply tensorless_on. now apply H.
  Qed.
  Lemma move_movable d v : movable v = true -> movable (move d v) = true.
  Proof.
    induction v as [e x|n l IH|l IH|l IH|x f IH] using val_ind2; cbn [move movable]; intros H; try reflexivity; try exact H; rewrite forallb_forall in *; rewrite Forall_forall in IH; intros a Ha; apply in_map_iff in Ha; destruct Ha as (b & <- & Hb).
    - apply IH; auto.
    - apply IH; auto.
    - apply (IH b); auto.
  Qed.
End Values.

Section Weights.
  Context {X U : Type} (s : semantics X U).
  Variables (compute storage : nat).
  Implicit Types js : list (instr X).

  Definition loaded (d : nat) (pl : nat -> nat) (m : nat) : Prop := forall x, In x (map snd (weights s m)) -> pl x = d.
  Lemma move_one d m pl x : move_weights s (OneDevice d) m pl x = if existsb (Nat.eqb x) (map snd (weights s m)) then d else pl x.
  Proof.
    unfold move_weights. revert pl. induction (weights s m) as [|[n y] l IH]; intros pl; [reflexivity|]. cbn [fold_left snd map existsb]. rewrite IH. destruct (x =? y) eqn:E; cbn [orb]; [|reflexivity]. now destruct (existsb _ _).
  Qed.
  Lemma move_one_loaded d m pl : loaded d (move_weights s (OneDevice d) m pl) m.
  Proof. intros x Hx. rewrite move_one. replace (existsb (Nat.eqb x) (map snd (weights s m))) with true; [reflexivity|]. symmetry. apply existsb_exists. exists x. split; [exact Hx|apply Nat.eqb_refl]. Qed.
  Lemma move_ext sp m pl pl' : (forall x, pl x = pl' x) -> forall x, move_weights s sp m pl x = move_weights s sp m pl' x.
  Proof.
    unfold move_weights. revert pl pl'. induction (weights s m) as [|[n y] l IH]; intros pl pl' H x; [apply H|]. cbn [fold_left]. apply IH. intros z. destruct (match sp with OneDevice d => Some d | PerName l0 => aget String.eqb (fst (n, y)) l0 end); [|apply H]. now destruct (z =? snd (n, y)).
  Qed.
  Lemma loaded_ext d pl pl' m : (forall x, pl x = pl' x) -> loaded d pl m -> loaded d pl' m.
  Proof. intros H L x Hx. rewrite <- H. now apply L. Qed.

  Fixpoint wsafe js (pl : nat -> nat) : Prop :=
    match js with
    | [] => True
    | MoveModule sp m :: js' => wsafe js' (move_weights s sp m pl)
    | (CallModule m _ _ _ _ | OptimizeModule m _ _ _) :: js' => (is_module s m = true -> loaded compute pl m) /\ wsafe js' pl
    | _ :: js' => wsafe js' pl
    end.
  Lemma wsafe_ext js : forall pl pl', (forall x, pl x = pl' x) -> wsafe js pl -> wsafe js pl'.
  Proof.
    induction js as [|i js IH]; intros pl pl' E H; [exact H|]. destruct i; cbn [wsafe] in *; try (now apply (IH pl)).
    - destruct H as [H1 H2]. split; [intros M; now apply (loaded_ext _ pl), H1|now apply (IH pl)].
    - destruct H as [H1 H2]. split; [intros M; now apply (loaded_ext _ pl), H1|now apply (IH pl)].
    - apply (IH (move_weights s d m pl)); [now apply move_ext|exact H].
  Qed.
  Definition step (i : instr X) (pl : nat -> nat) : nat -> nat := match i with MoveModule sp m => move_weights s sp m pl | _ => pl end.
  Lemma step_ext i pl pl' : (forall x, pl x = pl' x) -> forall x, step i pl x = step i pl' x.
  Proof. intros H. destruct i; cbn [step]; try exact H. now apply move_ext. Qed.
  Definition meets (a b : instr X) (pl : nat -> nat) : Prop :=
    match a, b with MoveModule (OneDevice d1) m1, MoveModule (OneDevice d2) m2 => m1 = m2 -> loaded d2 pl m1 | _, _ => True end.
  Fixpoint fine js (pl : nat -> nat) : Prop :=
    match js with
    | a :: js' => match js' with b :: _ => meets a b pl | [] => True end /\ fine js' (step a pl)
    | [] => True
    end.
  Lemma fine_ext js : forall pl pl', (forall x, pl x = pl' x) -> fine js pl -> fine js pl'.
  Proof.
    induction js as [|a js IH]; intros pl pl' E H; [exact H|]. destruct H as [H1 H2]. split; [|apply (IH (step a pl)); [now apply step_ext|exact H2]].
    destruct js as [|b js]; [exact Logic.I|]. unfold meets in *. destruct a as [| | | | | |[da|] ma|]; try exact Logic.I. destruct b as [| | | | | |[db|] mb|]; try exact Logic.I. intros Em. now apply (loaded_ext _ pl), H1.
  Qed.
  Lemma trip_id d1 d2 m pl : loaded d2 pl m -> forall x, move_weights s (OneDevice d2) m (move_weights s (OneDevice d1) m pl) x = pl x.
  Proof. intros L x. rewrite !move_one. destruct (existsb _ _) eqn:E; [|reflexivity]. apply existsb_exists in E. destruct E as (y & Hy & E). apply Nat.eqb_eq in E. subst y. symmetry. now apply L. Qed.
  Lemma cancel_wsafe : forall n js pl, length js <= n -> wsafe js pl -> fine js pl -> wsafe (cancel_module_round_trips compute storage js) pl.
  Proof.
    induction n as [|n IH]; intros js pl L W F; [destruct js; [exact W|cbn in L; lia]|]. destruct js as [|a [|b js]]; try exact W. rewrite cancel_cons2. destruct (is_round_trip compute storage a b) eqn:R.
    - destruct a as [| | | | | |[da|] ma|]; try discriminate. destruct b as [| | | | | |[db|] mb|]; try discriminate. cbn [is_round_trip] in R. apply andb_true_iff in R. destruct R as [R _]. apply Nat.eqb_eq in R. subst mb.
      destruct F as [F1 [_ F2]]. cbn [meets] in F1. specialize (F1 eq_refl). pose proof (trip_id da db ma pl F1) as T. apply IH; [cbn in L; lia| |].
      + exact (wsafe_ext js _ pl T W).
      + exact (fine_ext js _ pl T F2).
    - assert (Lb : length (b :: js) <= n) by (cbn in *; lia). destruct F as [_ F]. set (l := b :: js) in *. clearbody l.
      destruct a; cbn [wsafe step] in *; try (now apply IH).
      + destruct W as [W1 W2]. split; [exact W1|now apply IH].
      + destruct W as [W1 W2]. split; [exact W1|now apply IH].
  Qed.

  Variables (g : graph) (pl0 : nat -> nat).
  Definition body (is : list (instr X)) : list (instr X) := flat_map (wrap_activations compute storage) (flat_map (wrap_weights s compute storage) is) ++ post_restore s g pl0.
  Lemma act_wsafe js : forall pl, wsafe js pl -> wsafe (flat_map (wrap_activations compute storage) js) pl.
  Proof.
    assert (M : forall us l pl, wsafe l pl -> wsafe (map (MoveActivations compute) us ++ l) pl) by (induction us as [|u us IH]; intros l pl H; [exact H|]; cbn [map app wsafe]; now apply IH).
    induction js as [|i js IH]; intros pl W; [exact W|]. cbn [flat_map]. destruct i; cbn [wrap_activations app wsafe] in *; try (now apply IH).
    - rewrite <- app_assoc. apply M. cbn [app wsafe]. destruct W as [W1 W2]. split; [exact W1|now apply IH].
    - rewrite <- app_assoc. apply M. cbn [app wsafe]. destruct W as [W1 W2]. split; [exact W1|now apply IH].
  Qed.
  Lemma weight_wsafe is : no_moves is -> forall pl, wsafe (weight_offloading_pass s is compute storage g pl0) pl.
  Proof.
    intros N pl. unfold weight_offloading_pass. assert (A : forall ms l pl, (forall pl, wsafe l pl) -> wsafe (map (fun m => MoveModule (OneDevice storage) m) ms ++ l) pl) by (induction ms as [|m ms IH]; intros l p H; [apply H|]; cbn [map app wsafe]; now apply IH).
    apply A. clear A pl. induction is as [|i is IH]; intros pl.
    - cbn [flat_map app]. pose proof (post_mm s g pl0) as P. revert pl. induction P as [|i l Hi P IH]; intros pl; [exact Logic.I|]. destruct i; try discriminate. cbn [wsafe]. apply IH.
    - cbn [flat_map]. rewrite <- app_assoc. specialize (IH (fun x Hx => N x (or_intror Hx))). pose proof (N i (or_introl eq_refl)) as Ni.
      destruct i; try contradiction; try apply IH; cbn [wrap_weights]; destruct (is_module s m) eqn:Em; cbn [app wsafe]; (split; [intros Z; first [apply move_one_loaded|congruence]|apply IH]).
  Qed.

  Lemma fine_skip a js pl : is_mm a = false -> fine js pl -> fine (a :: js) pl.
  Proof. intros H F. destruct a; try discriminate; (split; [destruct js; exact Logic.I|exact F]). Qed.
  Lemma fine_mas us js pl : fine js pl -> fine (map (MoveActivations compute) us ++ js) pl.
  Proof. intros F. induction us as [|u us IH]; [exact F|]. now apply fine_skip. Qed.
  Definition runs (i : instr X) (m : nat) : Prop := match i with CallModule m' _ _ _ _ | OptimizeModule m' _ _ _ => m' = m /\ is_module s m = true | _ => False end.
  Lemma body_hd is d m l : no_moves is -> body is = MoveModule (OneDevice d) m :: l -> d = compute /\ exists i is', is = i :: is' /\ runs i m.
  Proof.
    intros N. destruct is as [|i is].
    - unfold body. cbn [flat_map app]. unfold post_restore. induction (all_modules s g) as [|x l0 IH]; [discriminate|]. cbn [flat_map]. destruct (weights s x); [exact IH|discriminate].
    - pose proof (N i (or_introl eq_refl)) as Ni. unfold body. cbn [flat_map]. rewrite flat_map_app, <- app_assoc. destruct i; try contradiction; cbn [wrap_weights flat_map wrap_activations app]; try discriminate.
      + destruct (is_module s m0) eqn:E; cbn [flat_map wrap_activations app].
        * intros [= -> -> _]. split; [reflexivity|]. eexists _, is. split; [reflexivity|]. now split.
        * destruct (filter _ _); discriminate.
      + destruct (is_module s m0) eqn:E; cbn [flat_map wrap_activations app].
        * intros [= -> -> _]. split; [reflexivity|]. eexists _, is. split; [reflexivity|]. now split.
        * destruct (filter _ _); discriminate.
  Qed.
  Lemma post_fine ms : forall pl, fine (flat_map (fun m => match weights s m with [] => [] | ws => [MoveModule (X:=X) (PerName (map (fun e => (fst e, pl0 (snd e))) ws)) m] end) ms) pl.
  Proof.
    induction ms as [|m ms IH]; intros pl; [exact Logic.I|]. cbn [flat_map]. destruct (weights s m); [apply IH|]. cbn [app]. split; [|apply IH]. destruct (flat_map _ ms) as [|b ?]; [exact Logic.I|exact Logic.I].
  Qed.
  Lemma body_fine is : no_moves is -> forall pl, fine (body is) pl.
  Proof.
    intros N. induction is as [|i is IH]; intros pl; [apply post_fine|]. specialize (IH (fun x Hx => N x (or_intror Hx))). pose proof (N i (or_introl eq_refl)) as Ni.
    assert (Nis : no_moves is) by (intros x Hx; apply N; now right).
    assert (Last : forall m pl, loaded compute pl m -> fine (MoveModule (OneDevice storage) m :: body is) pl).
    { intros m pl1 L. split; [|apply IH]. destruct (body is) as [|b l] eqn:B; [exact Logic.I|]. unfold meets. destruct b as [| | | | | |[db|] mb|]; try exact Logic.I. intros <-. destruct (body_hd is db m l Nis B) as [-> _]. exact L. }
    unfold body in *. cbn [flat_map]. rewrite flat_map_app, <- app_assoc. destruct i; try contradiction; cbn [wrap_weights flat_map wrap_activations app]; try (apply fine_skip; [reflexivity|apply IH]).
    - destruct (is_module s m); cbn [flat_map wrap_activations app].
      + assert (F : fine (map (MoveActivations compute) (filter (fun r => negb (is_const (unwrap r))) (uses (CallModule (X:=X) m args kwargs t cs))) ++ CallModule m args kwargs t cs :: MoveActivations storage t :: MoveModule (OneDevice storage) m :: body is) (move_weights s (OneDevice compute) m pl)).
        { apply fine_mas. apply fine_skip; [reflexivity|]. apply fine_skip; [reflexivity|]. apply Last. apply move_one_loaded. }
        unfold body in F. split; [|rewrite <- !app_assoc; cbn [app]; exact F]. destruct (filter _ _); exact Logic.I.
      + rewrite app_nil_r, <- app_assoc. cbn [app]. apply fine_mas. apply fine_skip; [reflexivity|]. apply fine_skip; [reflexivity|]. apply IH.
    - destruct (is_module s m); cbn [flat_map wrap_activations app].
      + assert (F : fine (map (MoveActivations compute) (filter (fun r => negb (is_const (unwrap r))) (uses (OptimizeModule (X:=X) m args kwargs d))) ++ OptimizeModule m args kwargs d :: MoveModule (OneDevice storage) m :: body is) (move_weights s (OneDevice compute) m pl)).
        { apply fine_mas. apply fine_skip; [reflexivity|]. apply Last. apply move_one_loaded. }
        unfold body in F. split; [|rewrite <- !app_assoc; cbn [app]; exact F]. destruct (filter _ _); exact Logic.I.
      + rewrite app_nil_r, <- app_assoc. cbn [app]. apply fine_mas. apply fine_skip; [reflexivity|]. apply IH.
  Qed.
  Lemma pre_fine is ms : no_moves is -> NoDup ms -> forall pl,
    (forall m i is', is = i :: is' -> runs i m -> forall ms', ms = ms' ++ [m] -> loaded compute (place_of s (map (fun m => MoveModule (OneDevice storage) m) ms') pl) m) ->
    fine (map (fun m => MoveModule (OneDevice storage) m) ms ++ body is) pl.
  Proof.
    intros N. induction ms as [|m ms IH]; intros D pl H; [now apply body_fine|]. inversion D as [|? ? Nm D']; subst. cbn [map app]. split.
    - destruct ms as [|m2 ms].
      + cbn [map app]. destruct (body is) as [|b l] eqn:B; [exact Logic.I|]. unfold meets. destruct b as [| | | | | |[db|] mb|]; try exact Logic.I. intros <-. destruct (body_hd is db m l N B) as (-> & i & is' & Ei & R). apply (H m i is' Ei R []). reflexivity.
      + cbn [map app meets]. intros ->. destruct Nm. now left.
    - apply IH; [exact D'|]. intros m' i is' Ei R ms' ->. apply (H m' i is' Ei R (m :: ms')). reflexivity.
  Qed.
  Lemma offload_wsafe is : no_moves is ->
    (forall m i is', is = i :: is' -> runs i m -> forall ms', all_modules s g = ms' ++ [m] -> loaded compute (place_of s (map (fun m => MoveModule (X:=X) (OneDevice storage) m) ms') pl0) m) ->
    wsafe (cancel_module_round_trips compute storage (activation_offloading_pass (weight_offloading_pass s is compute storage g pl0) compute storage)) pl0.
  Proof.
    intros N H. apply (cancel_wsafe _ _ _ (le_n _)).
    - apply act_wsafe, weight_wsafe, N.
    - assert (E : activation_offloading_pass (weight_offloading_pass s is compute storage g pl0) compute storage = map (fun m => MoveModule (OneDevice storage) m) (all_modules s g) ++ body is).
      { unfold activation_offloading_pass, weight_offloading_pass, body. rewrite !flat_map_app. f_equal; [|f_equal].
        - clear H. induction (all_modules s g) as [|m l IH]; [reflexivity|]. cbn [map flat_map wrap_activations app]. now rewrite IH.
        - apply (activation_post s compute storage g pl0). }
      rewrite E. apply pre_fine; [exact N|apply dedup_nodup|exact H].
  Qed.
End Weights.

Section Acts.
  Context {X U : Type} (s : semantics X U).
  Variable c0 : nat.
  Implicit Types rg : register X.
  Implicit Types js : list (instr X).
  Notation sw := (watched c0 s).
  Definition on (v : val X) : Prop := on_device c0 v = true.
  Hypothesis Hconst : forall i, on (constv s i).
  Hypothesis Hcall : forall pl u c m a k v u', call s pl u c m a k = (Ok v, u') ->
    movable v = true /\ (a ++ map snd k <> [] \/ is_module s m = true -> forallb (on_device c0) (a ++ map snd k) = true -> (is_module s m = true -> loaded s c0 pl m) -> on v).

  Definition rd_ok (rd : devmap) rg : Prop := forall r d, aget ref_eqb r rd = Some d -> is_const r = false /\
    forall l c e, rget r rg = Some l -> In (c, e) l -> exists vs, e = Data vs /\ Forall (fun v => on_device d v = true) vs.
  Definition mov_ok rg : Prop := forall r l c vs, is_const r = false -> rget r rg = Some l -> In (c, Data vs) l -> Forall (fun v => movable v = true) vs.
  Definition good (rd : devmap) rg : Prop := rd_ok rd rg /\ mov_ok rg /\ nodup_reg rg /\ data_reg rg.

  Lemma aset_in_nodup {A} k (a : A) (l : list (nat * A)) e : NoDup (map fst l) -> In e (aset Nat.eqb k a l) -> e = (k, a) \/ (In e l /\ fst e <> k).
  Proof.
    induction l as [|[k' b] l IH]; cbn [aset map]; intros N H; [destruct H as [<-|[]]; now left|]. inversion N as [|? ? N1 N2]; subst. destruct (Nat.eqb_spec k' k) as [->|Ne]; cbn [In] in H.
    - destruct H as [<-|H]; [now left|]. right. split; [now right|]. intros <-. apply N1. now apply in_map.
    - destruct H as [<-|H]; [right; split; [now left|exact Ne]|]. destruct (IH N2 H) as [->|[H1 H2]]; [now left|right; split; [now right|exact H2]].
  Qed.
  Lemma stores_in r (l : list (nat * entry X)) : forall rg l0, rget r rg = Some l0 -> NoDup (map fst l0) -> exists l1, rget r (fold_left (fun g e => store r (fst e) (snd e) g) l rg) = Some l1 /\ NoDup (map fst l1) /\ forall e, In e l1 -> In e l \/ (In e l0 /\ ~ In (fst e) (map fst l)).
  Proof.
    induction l as [|x l IH]; intros rg l0 G N; [exists l0; split; [exact G|]; split; [exact N|]; intros e He; right; split; [exact He|intros []]|]. cbn [fold_left].
    destruct (IH (store r (fst x) (snd x) rg) (aset Nat.eqb (fst x) (snd x) l0)) as (l1 & G1 & N1 & H1).
    - rewrite rget_store, ref_eqb_refl. unfold streams. now rewrite G.
    - now apply aset_nodup.
    - exists l1. split; [exact G1|]. split; [exact N1|]. intros e He. destruct (H1 e He) as [H|[H Hn]]; [left; now right|]. apply aset_in_nodup in H; [|exact N]. destruct H as [->|[H Hx]]; [left; left; now destruct x|]. right. split; [exact H|]. cbn [map]. intros [Z|Z]; [now apply Hx|now apply Hn].
  Qed.
  Lemma stores_other {r r'} (l : list (nat * entry X)) : ref_eqb r r' = false -> forall rg, rget r' (fold_left (fun g e => store r (fst e) (snd e) g) l rg) = rget r' rg.
  Proof. intros E. induction l as [|x l IH]; intros rg; [reflexivity|]. cbn [fold_left]. rewrite IH, rget_store, E. reflexivity. Qed.

  Lemma aget_cong_rd r r' (rd : devmap) : ref_eqb r r' = true -> aget ref_eqb r rd = aget ref_eqb r' rd.
  Proof. intros E. apply (aget_cong ref_eqb norm ref_eqb_norm). now apply ref_eqb_norm. Qed.
  Lemma rget_cong_b r r' rg : ref_eqb r r' = true -> rget r rg = rget r' rg.
  Proof. intros E. apply rget_cong. now apply ref_eqb_norm. Qed.
  Lemma move_good d r w rg rd : good rd rg -> is_const r = false ->
    match exec sw (MoveActivations d r) w rg with
    | (w', Ok (rg1, None)) => w' = w /\ good (aset ref_eqb r d rd) rg1 /\ (forall x, rget x rg = None -> rget x rg1 = None) /\ rget r rg <> None
    | (w', Err _) => w' = w
    | _ => False
    end.
  Proof.
    intros (R & M & N & D) C. cbn [exec]. unfold items_for. destruct (rget r rg) as [l|] eqn:G; cbn [rbind rmap]; [|reflexivity]. destruct (rmapM (fun e => let? x := move_entry d (snd e) in Ok (fst e, x)) l) as [l'|] eqn:E; cbn [rbind rmap]; [|reflexivity].
    split; [reflexivity|]. set (rg1 := fold_left _ l' rg). apply rmapM_inv in E.
    assert (K : map fst l' = map fst l) by (clear -E; induction E as [|[c e] [c' e'] l l' H F IH]; [reflexivity|]; cbn [snd fst] in H; destruct (move_entry d e); [|discriminate]; injection H as -> <-; cbn [map fst]; now rewrite IH).
    destruct (stores_in r l' rg l G (N r l G)) as (l1 & G1 & N1 & H1). fold rg1 in G1.
    assert (L1 : forall c e, In (c, e) l1 -> exists vs, e = Data vs /\ Forall (fun v => on_device d v = true) vs /\ Forall (fun v => movable v = true) vs).
    { intros c e He. destruct (H1 _ He) as [H|[H Hn]].
      - destruct (f2_in_r _ _ _ E _ H) as ([c1 e1] & Hin & Ex). cbn [snd fst] in Ex. destruct e1 as [vs|]; [|discriminate]. cbn [move_entry rbind] in Ex. injection Ex as <- <-. exists (map (move d) vs). split; [reflexivity|].
        pose proof (M r l c1 vs C G Hin) as Mv. clear -Mv. split; induction Mv; cbn [map]; constructor; auto; [now apply move_on|now apply move_movable].
      - exfalso. apply Hn. rewrite K. now apply (in_map fst l (c, e)). }
    assert (Oth : forall x, ref_eqb r x = false -> rget x rg1 = rget x rg) by (intros x Hx; now apply stores_other).
    assert (Abs : forall x, rget x rg = None -> rget x rg1 = None).
    { intros x Hx. destruct (ref_eqb r x) eqn:E0; [|now rewrite Oth]. rewrite <- (rget_cong_b r x rg E0), G in Hx. discriminate. }
    split; [|split; [exact Abs|discriminate]]. split; [|split; [|split]].
    - intros x dx Hx. rewrite (aget_aset ref_eqb norm ref_eqb_norm) in Hx. destruct (ref_eqb r x) eqn:E0.
      + injection Hx as <-. split; [now rewrite <- (const_cong x r E0)|]. intros lx c e Gx He. rewrite <- (rget_cong_b r x rg1 E0), G1 in Gx. injection Gx as <-. destruct (L1 c e He) as (vs & -> & Hv & _). eauto.
      + rewrite Oth by exact E0. now apply R.
    - intros x lx c vs Cx Gx He. destruct (ref_eqb r x) eqn:E0.
      + rewrite <- (rget_cong_b r x rg1 E0), G1 in Gx. injection Gx as <-. destruct (L1 c _ He) as (vs' & [= <-] & _ & Hm). exact Hm.
      + rewrite Oth in Gx by exact E0. now apply (M x lx c).
    - intros x lx Gx. destruct (ref_eqb r x) eqn:E0.
      + rewrite <- (rget_cong_b r x rg1 E0), G1 in Gx. now injection Gx as <-.
      + rewrite Oth in Gx by exact E0. now apply (N x).
    - intros x lx c i Gx He. destruct (ref_eqb r x) eqn:E0.
      + rewrite <- (rget_cong_b r x rg1 E0), G1 in Gx. injection Gx as <-. destruct (L1 c _ He) as (vs' & [=] & _).
      + rewrite Oth in Gx by exact E0. now apply (D x lx c i).
  Qed.

  (** pending moves *)
  Definition pend_plain (pend : list (ref * (nat * ref))) : Prop := forall k d r, In (k, (d, r)) pend -> norm k = norm r /\ is_const r = false.
  Definition after (pend : list (ref * (nat * ref))) (r : ref) : list (ref * (nat * ref)) := match aget ref_eqb (unwrap r) pend with None => pend | Some _ => adel ref_eqb (unwrap r) pend end.
  Lemma flush_out l : forall rd pend (out : list (instr X)), fold_left flush l (rd, pend, out) = (let '(a, b, c) := fold_left flush l (rd, pend, []) in (a, b, out ++ c)).
  Proof.
    induction l as [|r l IH]; intros rd pend out; [cbn; now rewrite app_nil_r|]. cbn [fold_left]. unfold flush at 2 4. destruct (aget ref_eqb (unwrap r) pend) as [[d r']|]; [|apply IH].
    destruct (match aget ref_eqb (unwrap r) rd with Some d' => d' =? d | None => false end); [apply IH|]. rewrite IH. rewrite (IH _ _ ([] ++ _)). destruct (fold_left flush l (_, _, [])) as [[a b] c]. cbn [app]. now rewrite <- app_assoc.
  Qed.
  Lemma flush_pend l : forall rd pend (out : list (instr X)), snd (fst (fold_left flush l (rd, pend, out))) = fold_left after l pend.
  Proof.
    induction l as [|r l IH]; intros rd pend out; [reflexivity|]. cbn [fold_left]. unfold flush at 2, after at 2. destruct (aget ref_eqb (unwrap r) pend) as [[d r']|]; [|apply IH].
    destruct (match aget ref_eqb (unwrap r) rd with Some d' => d' =? d | None => false end); apply IH.
  Qed.
  Lemma after_sub l : forall pend e, In e (fold_left after l pend) -> In e pend.
  Proof. induction l as [|r l IH]; intros pend e H; [exact H|]. cbn [fold_left] in H. apply IH in H. unfold after in H. destruct (aget _ _ _); [now apply filter_In in H|exact H]. Qed.
  Lemma flush_rd_none l k : forall rd pend (out : list (instr X)), aget ref_eqb k pend = None -> aget ref_eqb k (fst (fst (fold_left flush l (rd, pend, out)))) = aget ref_eqb k rd.
  Proof.
    induction l as [|r l IH]; intros rd pend out H; [reflexivity|]. cbn [fold_left]. unfold flush at 2. destruct (aget ref_eqb (unwrap r) pend) as [[d r']|] eqn:G; [|now apply IH].
    assert (Ne : ref_eqb (unwrap r) k = false). { destruct (ref_eqb (unwrap r) k) eqn:E; [|reflexivity]. rewrite (aget_cong ref_eqb norm ref_eqb_norm (unwrap r) k pend (proj1 (ref_eqb_norm _ _) E)) in G. congruence. }
    assert (H' : aget ref_eqb k (adel ref_eqb (unwrap r) pend) = None) by (rewrite (aget_adel ref_eqb norm ref_eqb_norm), Ne; exact H).
    destruct (match aget ref_eqb (unwrap r) rd with Some d' => d' =? d | None => false end); rewrite IH by exact H'; [reflexivity|]. now rewrite (aget_aset ref_eqb norm ref_eqb_norm), Ne.
  Qed.
  Lemma flush_rd l k d0 r0 : forall rd pend (out : list (instr X)), aget ref_eqb k pend = Some (d0, r0) -> (exists r, In r l /\ norm (unwrap r) = norm k) -> aget ref_eqb k (fst (fst (fold_left flush l (rd, pend, out)))) = Some d0.
  Proof.
    induction l as [|r l IH]; intros rd pend out H Hr; [destruct Hr as (r & [] & _)|]. cbn [fold_left]. unfold flush at 2. destruct (ref_eqb (unwrap r) k) eqn:E.
    - pose proof (proj1 (ref_eqb_norm _ _) E) as E'. rewrite (aget_cong ref_eqb norm ref_eqb_norm (unwrap r) k pend E'), H.
      assert (H' : aget ref_eqb k (adel ref_eqb (unwrap r) pend) = None) by (rewrite (aget_adel ref_eqb norm ref_eqb_norm), E; reflexivity).
      rewrite (aget_cong ref_eqb norm ref_eqb_norm (unwrap r) k rd E').
      destruct (aget ref_eqb k rd) as [d'|] eqn:Rk; [destruct (Nat.eqb_spec d' d0) as [->|]|]; rewrite flush_rd_none by exact H'; [exact Rk| |]; now rewrite (aget_aset ref_eqb norm ref_eqb_norm), E.
    - assert (Hr' : exists r, In r l /\ norm (unwrap r) = norm k). { destruct Hr as (x & [<-|Hx] & Ex); [|now exists x]. apply ref_eqb_norm in Ex. congruence. }
      destruct (aget ref_eqb (unwrap r) pend) as [[d r']|]; [|now apply IH].
      assert (H' : aget ref_eqb k (adel ref_eqb (unwrap r) pend) = Some (d0, r0)) by (rewrite (aget_adel ref_eqb norm ref_eqb_norm), E; exact H).
      destruct (match aget ref_eqb (unwrap r) rd with Some d' => d' =? d | None => false end); now apply IH.
  Qed.
  Lemma good_rd rd rd' rg : (forall k, aget ref_eqb k rd = aget ref_eqb k rd') -> good rd rg -> good rd' rg.
  Proof. intros E (R & O). split; [|exact O]. intros r d H. rewrite <- E in H. now apply R. Qed.
  Lemma flush_run rest l : forall rd pend rd' pend' out w rg, fold_left flush l (rd, pend, []) = (rd', pend', out) -> (forall r, In r l -> unwrap r = r) -> pend_plain pend -> good rd rg ->
    (exists e, run_instructions sw (out ++ rest) w rg = (w, Err e)) \/
    exists rg1, run_instructions sw (out ++ rest) w rg = run_instructions sw rest w rg1 /\ good rd' rg1 /\ (forall x, rget x rg = None -> rget x rg1 = None) /\ (forall x, aget ref_eqb x rd = None -> rget x rg = None -> aget ref_eqb x rd' = None).
  Proof.
    induction l as [|r l IH]; intros rd pend rd' pend' out w rg E Pl Pp Gd; [injection E as <- <- <-; right; exists rg; split; [reflexivity|]; split; [exact Gd|]; split; auto|]. cbn [fold_left] in E. unfold flush at 2 in E. rewrite (Pl r (or_introl eq_refl)) in E.
    assert (Pl' : forall x, In x l -> unwrap x = x) by (intros; apply Pl; now right).
    destruct (aget ref_eqb r pend) as [[d r']|] eqn:G; [|exact (IH _ _ _ _ _ w rg E Pl' Pp Gd)].
    pose proof G as G0. apply (aget_in ref_eqb norm ref_eqb_norm) in G0. destruct G0 as (k & Hk & Ek). destruct (Pp k d r' Hk) as [Q1 Q2].
    assert (Pp' : pend_plain (adel ref_eqb r pend)) by (intros k1 d1 r1 H1; apply filter_In in H1; exact (Pp k1 d1 r1 (proj1 H1))).
    destruct (match aget ref_eqb r rd with Some d' => d' =? d | None => false end); [exact (IH _ _ _ _ _ w rg E Pl' Pp' Gd)|].
    rewrite flush_out in E. match type of E with context [fold_left ?f0 l ?a0] => destruct (fold_left f0 l a0) as [[a b] c] eqn:F end. cbv beta iota in E. injection E as <- <- <-. cbn [app run_instructions]. pose proof (move_good d r' w rg rd Gd Q2) as Mg.
    destruct (exec sw (MoveActivations d r') w rg) as [w1 [[rg1 [o|]]|e]]; [contradiction| |left; exists e; now subst].
    destruct Mg as (-> & G1 & A1 & B1). assert (G2 : good (aset ref_eqb r d rd) rg1).
    { apply (good_rd (aset ref_eqb r' d rd)); [|exact G1]. intros x. rewrite !(aget_aset ref_eqb norm ref_eqb_norm). replace (ref_eqb r x) with (ref_eqb r' x); [reflexivity|]. apply eq_true_iff_eq. rewrite !ref_eqb_norm. split; congruence. }
    destruct (IH _ _ _ _ _ w rg1 F Pl' Pp' G2) as [[e He]|(rg2 & He & G3 & A3 & B3)]; [left; now exists e|]. right. exists rg2. split; [exact He|]. split; [exact G3|]. split; [intros x Hx; now apply A3, A1|].
    intros x Hx Hg. apply B3; [|now apply A1]. rewrite (aget_aset ref_eqb norm ref_eqb_norm). destruct (ref_eqb r x) eqn:E0; [|exact Hx]. exfalso. apply B1. rewrite <- Hg. apply rget_cong. apply ref_eqb_norm in E0. congruence.
  Qed.

  (** what a call finds *)
  Definition all_on (l : list (val X)) : Prop := Forall on l.
  Lemma broadcast_on (ds ds' : list (list (val X))) : broadcast ds = Ok ds' -> Forall all_on ds -> Forall all_on ds' /\ length ds' = length ds.
  Proof.
    intros H F. apply broadcast_inv in H. destruct H as (N & _ & H). split.
    - clear -H F. induction H as [|d d' ds ds' [_ H] H2 IH]; [constructor|]. inversion F as [|? ? F1 F2]; subst. constructor; [|now apply IH]. destruct H as [->|(a & -> & ->)]; [exact F1|].
      inversion F1; subst. apply Forall_forall. intros x Hx. apply repeat_spec in Hx. now subst.
    - symmetry. clear -H. induction H; cbn; congruence.
  Qed.
  Definition uses_ready rd (us : list ref) : Prop := forall r, In r us -> is_const r = false -> aget ref_eqb r rd = Some c0.
  Lemma dataset_on rd rg c r l us : good rd rg -> uses_ready rd us -> In r us -> dataset_of sw rg c r = Ok l -> all_on l.
  Proof.
    intros (R & _) Hu Hr E. destruct (is_const r) eqn:C; [destruct r; try discriminate; injection E as <-; constructor; [apply Hconst|constructor]|].
    destruct (R r c0 (Hu r Hr C)) as [_ H]. assert (E' : (let? e := load r c rg in match e with Data l => Ok l | AConst _ => Err TypeError end) = Ok l) by (destruct r; try discriminate; exact E).
    unfold load in E'. destruct (rget r rg) as [m|] eqn:G; [|discriminate]. destruct (aget Nat.eqb c m) as [e|] eqn:A; [|discriminate]. cbn [rbind] in E'. apply nget_in in A. destruct (H m c e eq_refl A) as (vs & -> & F). injection E' as <-. exact F.
  Qed.
  Lemma rmapM_f2' {A B} (h : A -> result B) (P : B -> Prop) l l' : rmapM h l = Ok l' -> (forall a b, In a l -> h a = Ok b -> P b) -> Forall P l' /\ length l' = length l.
  Proof.
    intros E H. apply rmapM_inv in E. induction E as [|a b l l' E F IH]; [split; [constructor|reflexivity]|]. destruct IH as [I1 I2]; [intros; apply (H a0); [now right|assumption]|]. split; [constructor; [apply (H a); [now left|exact E]|exact I1]|cbn; now rewrite I2].
  Qed.
  Lemma gather_on rd rg c args kwargs b : good rd rg -> uses_ready rd (args ++ map snd kwargs) -> gather sw rg c args kwargs = Ok b ->
    Forall all_on (b_args b) /\ Forall (fun e => all_on (snd e)) (b_kwargs b) /\ length (b_args b) = length args.
  Proof.
    intros G Hu E. unfold gather in E. destruct (rmapM (dataset_of sw rg c) args) as [a|] eqn:Ea; [|discriminate]. cbn [rbind] in E. destruct (rmapM (fun e => dataset_of sw rg c (snd e)) kwargs) as [k|] eqn:Ek; [|discriminate]. cbn [rbind] in E.
    destruct (broadcast (a ++ k)) as [bs|] eqn:B; [|discriminate]. injection E as <-. cbn [b_args b_kwargs].
    destruct (rmapM_f2' _ all_on _ _ Ea) as [Fa La]. { intros r l Hr El. apply (dataset_on rd rg c r l _ G Hu); [apply in_app_iff; now left|exact El]. }
    destruct (rmapM_f2' _ all_on _ _ Ek) as [Fk Lk]. { intros e l He El. apply (dataset_on rd rg c (snd e) l _ G Hu); [apply in_app_iff; right; now apply in_map|exact El]. }
    destruct (broadcast_on _ _ B) as [Fb Lb]; [apply Forall_app; now split|]. rewrite app_length in Lb. split; [|split].
    - apply Forall_forall. intros d Hd. rewrite Forall_forall in Fb. apply Fb. rewrite <- (firstn_skipn (length a) bs). apply in_app_iff. now left.
    - apply Forall_forall. intros [n d] Hd. apply in_combine_r in Hd. cbn [snd]. rewrite Forall_forall in Fb. apply Fb. rewrite <- (firstn_skipn (length a) bs). apply in_app_iff. now right.
    - rewrite firstn_length. lia.
  Qed.
  Lemma batch_on (b : bundle (val X)) i a k : Forall all_on (b_args b) -> Forall (fun e => all_on (snd e)) (b_kwargs b) -> batch b i = Ok (a, k) -> forallb (on_device c0) (a ++ map snd k) = true /\ length a = length (b_args b).
  Proof.
    intros Fa Fk E0. set (at_i := fun d : list (val X) => match nth_error d i with Some v => Ok v | None => Err IndexError end). assert (E : (let? a := rmapM at_i (b_args b) in let? k := rmapM (fun e => let? v := at_i (snd e) in Ok (fst e, v)) (b_kwargs b) in Ok (a, k)) = Ok (a, k)) by exact E0. clear E0.
    assert (At : forall d v, all_on d -> at_i d = Ok v -> on v) by (intros d v Hd Hv; unfold at_i in Hv; destruct (nth_error d i) eqn:N; [|discriminate]; injection Hv as <-; apply nth_error_In in N; unfold all_on in Hd; rewrite Forall_forall in Hd; now apply Hd).
    clearbody at_i. destruct (rmapM at_i (b_args b)) as [a'|] eqn:Ea; [|discriminate]. cbn [rbind] in E. destruct (rmapM _ (b_kwargs b)) as [k'|] eqn:Ek; [|discriminate]. cbn [rbind] in E. injection E as <- <-. rewrite Forall_forall in Fa, Fk.
    destruct (rmapM_f2' _ on _ _ Ea) as [Ha La]; [intros d v Hd; apply At; now apply Fa|].
    destruct (rmapM_f2' _ (fun e => on (snd e)) _ _ Ek) as [Hk _]. { intros e y He Hy. destruct (at_i (snd e)) as [v|] eqn:Ev; [|discriminate]. injection Hy as <-. cbn [snd]. apply (At (snd e)); [now apply Fk|exact Ev]. }
    split; [|exact La]. rewrite forallb_app. apply andb_true_iff. rewrite !forallb_forall. rewrite Forall_forall in Ha, Hk. split; [exact Ha|]. intros v Hv. apply in_map_iff in Hv. destruct Hv as (e & <- & He). now apply Hk.
  Qed.

  Lemma loaded_b pl m : loaded s c0 pl m -> forallb (fun e => pl (snd e) =? c0) (weights s m) = true.
  Proof. intros L. apply forallb_forall. intros e He. apply Nat.eqb_eq. apply L. now apply in_map. Qed.
  Definition outs_ok (m : nat) (args : list ref) (vs : list (val X)) : Prop := Forall (fun v => movable v = true) vs /\ (args <> [] \/ is_module s m = true -> Forall on vs).
  Lemma call_step pl (u : U * bool) c m a k args : snd u = true -> forallb (on_device c0) (a ++ map snd k) = true -> length a = length args -> (is_module s m = true -> loaded s c0 pl m) ->
    let '(r, u') := call sw pl u c m a k in snd u' = true /\ match r with Ok v => outs_ok m args [v] | Err _ => True end.
  Proof.
    intros Hu Ho La Hl. cbn [watched call]. pose proof (Hcall pl (fst u) c m a k) as Hc. destruct (call s pl (fst u) c m a k) as [r u1]. cbn [snd]. rewrite Hu. split.
    - cbn [andb]. destruct (is_module s m) eqn:M; [|reflexivity]. cbn [negb orb]. unfold ready_at. rewrite Ho. cbn [andb]. now apply loaded_b, Hl.
    - destruct r as [v|]; [|exact Logic.I]. destruct (Hc v u1 eq_refl) as [H1 H2]. split; [constructor; [exact H1|constructor]|]. intros Hn. constructor; [|constructor]. apply H2; [|exact Ho|exact Hl]. destruct Hn as [Hn|Hn]; [left|now right]. intros Z. apply app_eq_nil in Z. destruct Z as [-> _]. destruct args; [congruence|discriminate].
  Qed.
  Lemma batches_step pl c m (b : bundle (val X)) args : Forall all_on (b_args b) -> Forall (fun e => all_on (snd e)) (b_kwargs b) -> length (b_args b) = length args -> (is_module s m = true -> loaded s c0 pl m) -> forall n i (u : U * bool), snd u = true ->
    let '(r, u') := call_batches sw pl u c m b i n in snd u' = true /\ match r with Ok vs => outs_ok m args vs | Err _ => True end.
  Proof.
    intros Fa Fk La Hl. induction n as [|n IH]; intros i u Hu; [split; [exact Hu|split; [constructor|intros; constructor]]|]. cbn [call_batches]. destruct (batch b i) as [[a k]|e] eqn:B; [|split; [exact Hu|exact Logic.I]].
    destruct (batch_on b i a k Fa Fk B) as [Ho Lb]. pose proof (call_step pl u c m a k args Hu Ho ltac:(congruence) Hl) as C. destruct (call sw pl u c m a k) as [[v|e] u1]; [|exact C]. destruct C as [C1 [C2 C3]].
    specialize (IH (S i) u1 C1). destruct (call_batches sw pl u1 c m b (S i) n) as [[vs|e] u2]; cbn [rmap]; [|exact IH]. destruct IH as [I1 [I2 I3]]. split; [exact I1|]. split; [inversion C2; subst; now constructor|]. intros Hn. specialize (C3 Hn). inversion C3; subst. constructor; [assumption|now apply I3].
  Qed.
  Lemma contexts_step rd pl m args kwargs rg : good rd rg -> uses_ready rd (args ++ map snd kwargs) -> (is_module s m = true -> loaded s c0 pl m) -> forall cs (u : U * bool), snd u = true ->
    let '(r, u') := call_contexts sw pl u cs m args kwargs rg in snd u' = true /\ match r with Ok l => forall c e, In (c, e) l -> exists vs, e = Data vs /\ outs_ok m args vs | Err _ => True end.
  Proof.
    intros G Hu Hl. induction cs as [|c cs IH]; intros u Hf; [split; [exact Hf|intros c e []]|]. cbn [call_contexts]. unfold call_context. destruct (gather sw rg c args kwargs) as [b|e] eqn:E; [|split; [exact Hf|exact Logic.I]].
    destruct (gather_on rd rg c args kwargs b G Hu E) as (Fa & Fk & La).
    assert (C : let '(r, u') := (match args, kwargs with [], [] => let '(r, u') := call sw pl u c m [] [] in (rmap (fun v => [v]) r, u') | _, _ => call_batches sw pl u c m b 0 (bundle_len b) end) in snd u' = true /\ match r with Ok vs => outs_ok m args vs | Err _ => True end).
    { assert (Bt := batches_step pl c m b args Fa Fk La Hl (bundle_len b) 0 u Hf). destruct args as [|x args]; [|exact Bt]. destruct kwargs as [|y kwargs]; [|exact Bt].
      pose proof (call_step pl u c m [] [] [] Hf eq_refl eq_refl Hl) as C. destruct (call sw pl u c m [] []) as [[v|e] u1]; cbn [rmap]; exact C. }
    destruct (match args, kwargs with [], [] => _ | _, _ => _ end) as [[vs|e] u1]; [|exact C]. destruct C as [C1 C2]. specialize (IH u1 C1). destruct (call_contexts sw pl u1 cs m args kwargs rg) as [[l|e] u2]; cbn [rmap]; [|exact IH]. destruct IH as [I1 I2]. split; [exact I1|].
    intros c' e' [[= <- <-]|H]; [now exists vs|now apply (I2 c')].
  Qed.
  Lemma opt_step rd pl m args kwargs rg d (u : U * bool) bs : good rd rg -> uses_ready rd (args ++ map snd kwargs) -> loaded s c0 pl m -> snd u = true -> rmapM (fun c => gather sw rg c args kwargs) (d_contexts d) = Ok bs ->
    snd (snd (optimize sw pl u (d_fn d) m bs)) = true.
  Proof.
    intros G Hu Hl Hf E. cbn [watched optimize]. destruct (optimize s pl (fst u) (d_fn d) m bs) as [r u1]. cbn [snd]. rewrite Hf. cbn [andb]. unfold ready_at. rewrite (loaded_b pl m Hl), andb_true_r. apply forallb_forall. intros v Hv. apply in_flat_map in Hv. destruct Hv as (b & Hb & Hv).
    destruct (rmapM_f2' _ (fun b => Forall all_on (b_args b) /\ Forall (fun e => all_on (snd e)) (b_kwargs b)) _ _ E) as [F _]. { intros c b' _ E'. destruct (gather_on rd rg c args kwargs b' G Hu E') as (F1 & F2 & _). now split. }
    rewrite Forall_forall in F. destruct (F b Hb) as [F1 F2]. apply in_concat in Hv. destruct Hv as (l & Hl' & Hv). rewrite Forall_forall in F1, F2. apply in_app_iff in Hl'. destruct Hl' as [Hl'|Hl'].
    - specialize (F1 l Hl'). unfold all_on in F1. rewrite Forall_forall in F1. now apply F1.
    - apply in_map_iff in Hl'. destruct Hl' as (e & <- & He). specialize (F2 e He). unfold all_on in F2. rewrite Forall_forall in F2. now apply F2.
  Qed.

  (** every use is preceded by a move *)
  Fixpoint prep js (pend : list (ref * (nat * ref))) : Prop :=
    match js with
    | [] => True
    | MoveActivations d r :: js' => prep js' (aset ref_eqb (unwrap r) (d, r) pend)
    | i :: js' => match i with CallModule _ _ _ _ _ | OptimizeModule _ _ _ _ => forall r, In r (uses i) -> is_const (unwrap r) = false -> exists r', aget ref_eqb (unwrap r) pend = Some (c0, r') | _ => True end /\ prep js' (fold_left after (uses i) pend)
    end.
  Lemma prep_cancel storage : forall n js pend, length js <= n -> prep js pend -> prep (cancel_module_round_trips c0 storage js) pend.
  Proof.
    induction n as [|n IH]; intros js pend L H; [destruct js; [exact H|cbn in L; lia]|]. destruct js as [|a [|b js]]; try exact H. rewrite cancel_cons2. destruct (is_round_trip c0 storage a b) eqn:R.
    - apply IH; [cbn in L; lia|]. destruct a as [| | | | | |[da|] ma|]; try discriminate. destruct b as [| | | | | |[db|] mb|]; try discriminate. exact (proj2 (proj2 H)).
    - assert (Lb : length (b :: js) <= n) by (cbn in *; lia). set (l := b :: js) in *. clearbody l. destruct a; cbn [prep] in *; try (destruct H as [H1 H2]; split; [exact H1|now apply IH]). now apply IH.
  Qed.
  Lemma prep_pre js us : forall pend, prep js (fold_left (fun p r => aset ref_eqb (unwrap r) (c0, r) p) us pend) -> prep (map (MoveActivations c0) us ++ js) pend.
  Proof. induction us as [|u us IH]; intros pend H; [exact H|]. cbn [map app prep]. now apply IH. Qed.
  Lemma pre_pend us : forall pend r, (exists r', aget ref_eqb (unwrap r) pend = Some (c0, r')) \/ In r us -> exists r', aget ref_eqb (unwrap r) (fold_left (fun p r => aset ref_eqb (unwrap r) (c0, r) p) us pend) = Some (c0, r').
  Proof.
    induction us as [|u us IH]; intros pend r [H|H]; [exact H|destruct H| |]; cbn [fold_left]; apply IH.
    - left. rewrite (aget_aset ref_eqb norm ref_eqb_norm). destruct (ref_eqb _ _); [now exists u|exact H].
    - destruct H as [->|H]; [|now right]. left. rewrite (aget_aset ref_eqb norm ref_eqb_norm), ref_eqb_refl. now exists r.
  Qed.
  Lemma prep_activation storage js : (forall i, In i js -> is_ma i = false) -> forall pend, prep (activation_offloading_pass js c0 storage) pend.
  Proof.
    unfold activation_offloading_pass. induction js as [|i js IH]; intros N pend; [exact Logic.I|]. specialize (IH (fun x Hx => N x (or_intror Hx))). pose proof (N i (or_introl eq_refl)) as Ni. cbn [flat_map].
    destruct i; try discriminate; cbn [wrap_activations app]; try (split; [exact Logic.I|apply IH]).
    - rewrite <- app_assoc. apply prep_pre. cbn [app]. split; [|cbn [prep]; apply IH]. intros r Hr Hc. apply pre_pend. right. apply filter_In. split; [exact Hr|]. now rewrite Hc.
    - rewrite <- app_assoc. apply prep_pre. cbn [app]. split; [|apply IH]. intros r Hr Hc. apply pre_pend. right. apply filter_In. split; [exact Hr|]. now rewrite Hc.
  Qed.

  Definition target_of (i : instr X) : list ref := match i with CallModule _ _ _ t _ => [t] | _ => [] end.
  Definition simple (i : instr X) : Prop :=
    (forall r, In r (uses i) -> unwrap r = r) /\
    match i with
    | StoreValue t _ _ => is_const t = true
    | LoadAttribute _ _ _ => False
    | CallModule _ _ _ t _ => is_const t = false /\ unwrap t = t
    | OptimizeModule m _ _ _ => is_module s m = true
    | MoveActivations _ r => is_const r = false
    | _ => True
    end.
  Lemma store_const_good rd rg t e cs : is_const t = true -> good rd rg -> good rd (fold_left (fun g c => store t c e g) cs rg).
  Proof.
    intros C. revert rg. induction cs as [|c cs IH]; intros rg G; [exact G|]. cbn [fold_left]. apply IH. destruct G as (R & M & N & D).
    assert (Oth : forall x, is_const x = false -> rget x (store t c e rg) = rget x rg). { intros x Hx. rewrite rget_store. destruct (ref_eqb t x) eqn:E; [|reflexivity]. apply const_cong in E. congruence. }
    split; [|split; [|split]].
    - intros x d Hx. destruct (R x d Hx) as [R1 R2]. split; [exact R1|]. rewrite Oth by exact R1. exact R2.
    - intros x l c1 vs Cx. rewrite Oth by exact Cx. now apply M.
    - now apply nodup_store.
    - apply data_store; [exact D|now left].
  Qed.

  Lemma dev_safe js : forall rd pend w rg, prep js pend -> pend_plain pend -> good rd rg -> wsafe s c0 js (w_place w) -> (forall i, In i js -> simple i) ->
    NoDup (map norm (flat_map target_of js)) -> (forall t, In t (flat_map target_of js) -> rget t rg = None /\ aget ref_eqb t rd = None) -> snd (w_user w) = true ->
    snd (w_user (fst (run_instructions sw (cancel_moves s c0 js rd pend) w rg))) = true.
  Proof.
    induction js as [|i js IH]; intros rd pend w rg P Pp G W S Nd Ab Hf.
    - cbn [cancel_moves]. assert (A : forall l w rg, Forall (fun i => is_ma i = true) l -> snd (w_user w) = true -> snd (w_user (fst (run_instructions sw l w rg))) = true).
      { intros l. induction l as [|i l IHl]; intros w0 rg0 F H0; [exact H0|]. inversion F as [|? ? F1 F2]; subst. destruct i; try discriminate. cbn [run_instructions]. pose proof (exec_place sw (MoveActivations d r) w0 rg0) as _.
        cbn [exec]. destruct (rmap _ _) as [[rg1 [o|]]|]; [exact H0| |exact H0]. now apply IHl. }
      apply A; [|exact Hf]. apply tail_shape.
    - assert (S' : forall x, In x js -> simple x) by (intros; apply S; now right). destruct (S i (or_introl eq_refl)) as [Su Si].
      destruct (is_ma i) eqn:Ma.
      { destruct i; try discriminate. cbn [cancel_moves prep wsafe flat_map target_of app] in *. apply IH; try assumption. intros k d0 r0 H. apply aset_in_ref in H. destruct H as [[H1 H2]|H]; [|now apply (Pp k d0 r0)]. cbn [fst snd] in *. injection H1 as -> ->. split; [|exact Si]. rewrite H2. f_equal. apply Su. now left. }
      assert (P' : match i with CallModule _ _ _ _ _ | OptimizeModule _ _ _ _ => forall r, In r (uses i) -> is_const (unwrap r) = false -> exists r', aget ref_eqb (unwrap r) pend = Some (c0, r') | _ => True end /\ prep js (fold_left after (uses i) pend)) by (destruct i; try discriminate; exact P). clear P. destruct P' as [P1 P2].
      assert (Cm : cancel_moves s c0 (i :: js) rd pend = let '(rd', pend', out) := fold_left flush (uses i) (rd, pend, []) in out ++ i :: cancel_moves s c0 js (infer_output s c0 i rd') pend') by (destruct i; try discriminate; reflexivity). rewrite Cm. clear Cm.
      pose proof (flush_pend (uses i) rd pend []) as Fp. pose proof (fun k d0 r0 => flush_rd (uses i) k d0 r0 rd pend []) as Fr.
      destruct (fold_left flush (uses i) (rd, pend, [])) as [[rd' pend'] out] eqn:Fl. cbn [fst snd] in Fp, Fr.
      destruct (flush_run (i :: cancel_moves s c0 js (infer_output s c0 i rd') pend') (uses i) rd pend rd' pend' out w rg Fl Su Pp G) as [[e ->]|(rg1 & -> & G1 & A1 & B1)]; [exact Hf|].
      rewrite <- Fp in P2. assert (Pp' : pend_plain pend') by (intros k d0 r0 H; rewrite Fp in H; apply after_sub in H; now apply (Pp k d0 r0)).
      cbn [flat_map] in Nd, Ab. rewrite map_app in Nd. assert (Nd' : NoDup (map norm (flat_map target_of js))) by (clear -Nd; induction (map norm (target_of i)) as [|x l IHl]; [exact Nd|inversion Nd; auto]).
      assert (Ab2 : forall t, In t (target_of i ++ flat_map target_of js) -> rget t rg1 = None /\ aget ref_eqb t rd' = None) by (intros t Ht; destruct (Ab t Ht); split; [now apply A1|now apply B1]).
      assert (Ab' : forall t, In t (flat_map target_of js) -> rget t rg1 = None /\ aget ref_eqb t rd' = None) by (intros t Ht; apply Ab2, in_app_iff; now right).
      clear Fl. destruct i as [t e cs|src t a|m args kwargs t cs|m args kwargs d|os|ts|sp m|d r]; try discriminate; try contradiction; cbn [run_instructions exec wsafe infer_output] in *.
      + apply IH; try assumption; [now apply store_const_good|]. intros t' Ht'. assert (E : forall rg0, rget t' rg0 = None -> rget t' (fold_left (fun g c => store t c e g) cs rg0) = None).
        { clear -Si S' Ht'. apply in_flat_map in Ht'. destruct Ht' as (j & Hj & Ht'). destruct (S' j Hj) as [_ Sj]. destruct j; try contradiction. destruct Ht' as [<-|[]]. cbn [target_of] in *. destruct Sj as [Sj _]. induction cs as [|c cs IHc]; intros rg0 H0; [exact H0|]. cbn [fold_left]. apply IHc. rewrite rget_store. destruct (ref_eqb t t0) eqn:E; [|exact H0]. apply const_cong in E. congruence. }
        destruct (Ab' t' Ht'). split; [now apply E|assumption].
      + destruct W as [W1 W2]. assert (Ur : uses_ready rd' (args ++ map snd kwargs)).
        { intros r Hr Hc. pose proof (Su r Hr) as Er. destruct (P1 r Hr) as [r' H']; [now rewrite Er|]. rewrite Er in H'. apply (Fr r c0 r' H'). exists r. split; [exact Hr|now rewrite Er]. }
        pose proof (contexts_step rd' (w_place w) m args kwargs rg1 G1 Ur W1 cs (w_user w) Hf) as C. destruct (call_contexts sw (w_place w) (w_user w) cs m args kwargs rg1) as [[l|e] u1] eqn:Ec; cbn [rmap]; [|exact (proj1 C)]. destruct C as [C1 C2].
        cbn [target_of map app] in Nd, Ab. inversion Nd as [|? ? Nt Nd2]; subst. destruct Si as [Ct Et]. destruct (Ab2 t (or_introl eq_refl)) as [Tn Trd].
        assert (Gt : forall x, rget x (store_all t l rg1) = if ref_eqb t x then Some (fold_left (fun l e => aset Nat.eqb (fst e) (snd e) l) l []) else rget x rg1).
        { intros x. rewrite rget_store_all. destruct (ref_eqb t x) eqn:E; [|reflexivity]. unfold streams. now rewrite <- (rget_cong_b t x rg1 E), Tn. }
        assert (In_l : forall c e, In (c, e) (fold_left (fun l e => aset Nat.eqb (fst e) (snd e) l) l []) -> exists vs, e = Data vs /\ outs_ok m args vs).
        { intros c e H. assert (Z : forall l (l0 : list (nat * entry X)), In (c, e) (fold_left (fun l e => aset Nat.eqb (fst e) (snd e) l) l l0) -> In (c, e) l \/ In (c, e) l0). { clear. induction l as [|x l IHl]; intros l0 H; [now right|]. cbn [fold_left] in H. apply IHl in H. destruct H as [H|H]; [left; now right|]. apply aset_in_nat in H. destruct H as [H|H]; [left; left; rewrite H; now destruct x|now right]. }
          apply Z in H. destruct H as [H|[]]. now apply (C2 c). }
        apply IH; try assumption.
        * assert (Base : forall rd2, rd_ok rd2 (store_all t l rg1) -> good rd2 (store_all t l rg1)).
          { intros rd2 R2. destruct G1 as (R & M & N & D). split; [exact R2|]. split; [|split].
            - intros x lx c vs Cx. rewrite Gt. destruct (ref_eqb t x); [|now apply M]. intros [= <-] H. destruct (In_l c _ H) as (vs' & [= <-] & Ho & _). exact Ho.
            - intros x lx. rewrite Gt. destruct (ref_eqb t x); [|apply N]. intros [= <-]. apply fold_nodup. constructor.
            - intros x lx c k. rewrite Gt. destruct (ref_eqb t x); [|apply D]. intros [= <-] H. destruct (In_l c _ H) as (vs' & [=] & _). }
          assert (Keep : forall x, ref_eqb t x = false -> rget x (store_all t l rg1) = rget x rg1) by (intros x Hx; now rewrite Gt, Hx).
          assert (Set_ok : (args <> [] \/ is_module s m = true) -> rd_ok (aset ref_eqb t c0 rd') (store_all t l rg1)).
          { intros Hn x dx Hx. rewrite (aget_aset ref_eqb norm ref_eqb_norm) in Hx. destruct (ref_eqb t x) eqn:E.
            - injection Hx as <-. split; [now rewrite <- (const_cong x t E)|]. intros lx c e Gx He. rewrite Gt, E in Gx. injection Gx as <-. destruct (In_l c e He) as (vs & -> & _ & Ho). exists vs. split; [reflexivity|]. now apply Ho.
            - destruct G1 as (R & _). rewrite (Keep x E). now apply R. }
          destruct (is_module s m) eqn:Em; [apply Base; rewrite Et; apply Set_ok; now right|].
          assert (Devs : forall d, In d (flat_map (fun a => match aget ref_eqb (unwrap a) rd' with Some d => [d] | None => [] end) args) -> d = c0).
          { intros d Hd. apply in_flat_map in Hd. destruct Hd as (a & Ha & Hd). assert (Hu : In a (args ++ map snd kwargs)) by (apply in_app_iff; now left). rewrite (Su a Hu) in Hd. destruct (aget ref_eqb a rd') as [da|] eqn:Ea; [|destruct Hd]. destruct Hd as [<-|[]]. destruct G1 as (R & _). destruct (R a da Ea) as [Ca _]. rewrite (Ur a Hu Ca) in Ea. now injection Ea. }
          assert (Old : good rd' (store_all t l rg1)).
          { apply Base. intros x dx Hx. destruct G1 as (R & _). destruct (R x dx Hx) as [R1 R2]. split; [exact R1|]. intros lx c e Gx He. rewrite Gt in Gx. destruct (ref_eqb t x) eqn:E; [|now apply (R2 lx c e)]. rewrite <- (aget_cong_rd t x rd' E), Trd in Hx. discriminate. }
          destruct (nodup Nat.eq_dec _) as [|d [|d2 ds]] eqn:Ends; try exact Old. assert (Hd : In d (nodup Nat.eq_dec (flat_map (fun a => match aget ref_eqb (unwrap a) rd' with Some d => [d] | None => [] end) args))) by (rewrite Ends; now left). apply nodup_In in Hd. pose proof (Devs d Hd) as ->. apply Base. rewrite Et. apply Set_ok. left. intros ->. destruct Hd.
        * intros t' Ht'. assert (E : ref_eqb t t' = false). { destruct (ref_eqb t t') eqn:E; [|reflexivity]. exfalso. apply Nt. apply ref_eqb_norm in E. rewrite E. now apply in_map. }
          destruct (Ab' t' Ht') as [Q1 Q2]. split; [now rewrite Gt, E|]. assert (Z : forall d, aget ref_eqb t' (aset ref_eqb (unwrap t) d rd') = None) by (intros d; rewrite Et, (aget_aset ref_eqb norm ref_eqb_norm), E; exact Q2).
          destruct (is_module s m); [apply Z|]. destruct (nodup Nat.eq_dec _) as [|d [|d2 ds]]; [exact Q2|apply Z|exact Q2].
      + destruct W as [W1 W2]. assert (Ur : uses_ready rd' (args ++ map snd kwargs)).
        { intros r Hr Hc. pose proof (Su r Hr) as Er. destruct (P1 r Hr) as [r' H']; [now rewrite Er|]. rewrite Er in H'. apply (Fr r c0 r' H'). exists r. split; [exact Hr|now rewrite Er]. }
        destruct (rmapM (fun c => gather sw rg1 c args kwargs) (d_contexts d)) as [bs|e] eqn:Eb; [|exact Hf]. pose proof (opt_step rd' (w_place w) m args kwargs rg1 d (w_user w) bs G1 Ur (W1 Si) Hf Eb) as O.
        destruct (optimize sw (w_place w) (w_user w) (d_fn d) m bs) as [[x|e] u1]; cbn [rmap]; [|exact O]. now apply IH.
      + destruct (let? ls := _ in _) as [[rg2 [o|]]|e] eqn:E; [exact Hf| |exact Hf]. exfalso. destruct (rmapM _ os); cbn [rbind] in E; [|discriminate]. destruct (rmapM _ _); discriminate.
      + apply IH; try assumption.
        * destruct G1 as (R & M & N & D). split; [|split; [|split]].
          -- intros x dx Hx. destruct (R x dx Hx) as [R1 R2]. split; [exact R1|]. intros lx c e Gx. rewrite rget_deletes in Gx. destruct (rmem x ts); [discriminate|]. exact (R2 lx c e Gx).
          -- intros x lx c vs Cx Gx. rewrite rget_deletes in Gx. destruct (rmem x ts); [discriminate|]. exact (M x lx c vs Cx Gx).
          -- intros x lx Gx. rewrite rget_deletes in Gx. destruct (rmem x ts); [discriminate|]. now apply (N x).
          -- intros x lx c k Gx. rewrite rget_deletes in Gx. destruct (rmem x ts); [discriminate|]. exact (D x lx c k Gx).
        * intros t Ht. destruct (Ab' t Ht) as [Q1 Q2]. split; [|exact Q2]. rewrite rget_deletes, Q1. now destruct (rmem t ts).
      + apply IH; assumption.
  Qed.
End Acts.

Lemma dedup_app a : forall seen b, exists seen', (forall x, In x seen' <-> In x seen \/ In x a) /\ dedup seen (a ++ b) = dedup seen a ++ dedup seen' b.
Proof.
  induction a as [|y a IH]; intros seen b; [exists seen; split; [intros x; cbn; tauto|reflexivity]|]. cbn [app dedup]. destruct (existsb (Nat.eqb y) seen) eqn:E.
  - destruct (IH seen b) as (s' & H & ->). exists s'. split; [|reflexivity]. intros x. rewrite H. cbn [In]. apply existsb_exists in E. destruct E as (z & Hz & Ez). apply Nat.eqb_eq in Ez. subst z. split; [tauto|]. intros [?|[<-|?]]; auto.
  - destruct (IH (y :: seen) b) as (s' & H & ->). exists s'. split; [|reflexivity]. intros x. rewrite H. cbn [In]. tauto.
Qed.

Section Top.
  Context {X U : Type} (s : semantics X U).
  Variables (compute storage : nat) (g : graph).
  Definition is_node (n : gnode) : bool := match n_op n with TorchModule => is_module s (n_target n) | _ => false end.
  Lemma is_node_spec n : is_node n = true <-> module_node s n.
  Proof. unfold is_node, module_node. destruct (n_op n); split; try discriminate; try (now intros [? _]); [now split|tauto]. Qed.
  Lemma last_split {A} (l1 l2 : list A) x y z : l1 ++ x :: l2 = y ++ [z] -> z = x \/ In z l2.
  Proof.
    intros H. destruct (@exists_last _ (x :: l2)) as (l & w & E); [discriminate|]. rewrite E, app_assoc in H. apply app_inj_tail in H. destruct H as [_ <-]. destruct l as [|b l]; cbn in E; injection E as -> E; [now left|]. right. rewrite E. apply in_app_iff. right. now left.
  Qed.
  Lemma not_last_modules m ms : not_last s g m -> all_modules s g = ms ++ [m] -> False.
  Proof.
    intros (l1 & n & l2 & E & Hn & Ne & H1 & H2) A. unfold all_modules in A. fold is_node in A. rewrite E in A. rewrite filter_app, map_app in A. cbn [filter] in A. apply is_node_spec in Hn. rewrite Hn in A. cbn [map] in A.
    destruct (dedup_app (map n_target (filter is_node l1)) [] (n_target n :: map n_target (filter is_node l2))) as (s' & Hs & D). rewrite D in A. cbn [dedup] in A.
    assert (Nn : existsb (Nat.eqb (n_target n)) s' = false). { destruct (existsb _ _) eqn:Ex; [|reflexivity]. apply existsb_exists in Ex. destruct Ex as (z & Hz & Ez). apply Nat.eqb_eq in Ez. subst z. apply Hs in Hz. destruct Hz as [[]|Hz]. apply in_map_iff in Hz. destruct Hz as (n' & En & Hn'). apply filter_In in Hn'. destruct Hn' as [Hn' Hm]. exfalso. apply (H1 n' Hn'); [now apply is_node_spec|exact En]. }
    rewrite Nn in A. apply last_split in A. destruct A as [A|A]; [congruence|]. apply dedup_in in A. destruct A as [A1 A2]. apply in_map_iff in A1. destruct A1 as (n' & En & Hn'). apply filter_In in Hn'. destruct Hn' as [Hn' Hm].
    destruct (H2 n' Hn') as (n'' & I1 & I2 & I3); [now apply is_node_spec|exact En|]. apply A2. right. apply Hs. right. apply in_map_iff. exists n''. split; [exact I3|]. apply filter_In. split; [exact I1|now apply is_node_spec].
  Qed.
  Lemma modules_in m : In m (all_modules s g) <-> exists n, In n (g_nodes g) /\ module_node s n /\ n_target n = m.
  Proof.
    unfold all_modules. fold is_node. rewrite dedup_in, in_map_iff. split.
    - intros [(n & E & H) _]. apply filter_In in H. exists n. split; [apply H|]. split; [apply is_node_spec, H|exact E].
    - intros (n & H1 & H2 & H3). split; [|intros []]. exists n. split; [exact H3|]. apply filter_In. split; [exact H1|now apply is_node_spec].
  Qed.

  Theorem offload_device (is : list (instr X)) inputs order args kwargs pl u :
    item_free s is -> single_assignment is -> stays_on s compute -> (forall i, on_device compute (constv s i) = true) ->
    (forall v, In v (args ++ map snd kwargs) -> given_movable v) ->
    (forall m, begins_with s is m -> (forall n, In n (g_nodes g) -> module_node s n -> n_target n <> m) \/ not_last s g m \/ (loaded_on s compute pl m /\ untied s g m)) ->
    snd (w_user (fst (run (watched compute s) order (mkProgram (offloading_pass s is compute storage g pl) inputs) args kwargs (mkWorld pl (u, true))))) = true.
  Proof.
    intros If Sa St Hc Hg Hb. unfold run. cbn [p_inputs p_instrs]. destruct (prepare_input_register _ _ _ _) as [rg|e] eqn:P; [|reflexivity].
    assert (N : no_moves is) by (intros i Hi; destruct (If i Hi) as [_ H]; destruct i; try exact Logic.I; contradiction).
    pose proof (prepared_ok _ _ _ _ _ P) as [Nd Da].
    assert (Rg : mov_ok rg /\ forall id n, rget (RNode id n) rg = None).
    { unfold prepare_input_register in P. destruct (bind_inputs _ _ _) as [ins|] eqn:Bi; [|discriminate]. cbn [rbind] in P.
      assert (Hi : forall e, In e ins -> given_movable (snd e)).
      { clear -Bi Hg. unfold bind_inputs in Bi. destruct (_ <? _); [discriminate|]. destruct (bind_keywords _ _ _) as [l|] eqn:Bk; [|discriminate]. cbn [rbind] in Bi. destruct (forallb _ _); [|discriminate]. injection Bi as <-.
        assert (A : forall kw l0 l, bind_keywords (X:=X) (map fst inputs) kw l0 = Ok l -> forall e, In e l -> In e l0 \/ In e kw).
        { clear. induction kw as [|[k v] kw IH]; intros l0 l H e He; [injection H as <-; now left|]. cbn [bind_keywords] in H. destruct (negb _); [discriminate|]. destruct (existsb _ l0); [discriminate|]. destruct (IH _ _ H e He) as [Q|Q]; [|right; now right]. apply in_app_iff in Q. destruct Q as [Q|[<-|[]]]; [now left|right; now left]. }
        intros e He. destruct (A _ _ _ Bk e He) as [Q|Q]; apply Hg, in_app_iff; [left; destruct e; now apply in_combine_r in Q|right; now apply in_map]. }
      set (cs := program_contexts _ _) in P. clearbody cs. clear -P Hi.
      assert (A : forall ins rg0, (forall e, In e ins -> given_movable (snd e)) -> rfold (fun g e => match aget String.eqb (fst e) inputs with None => Err KeyError | Some id => Ok (fold_left (fun g c => store (RInput id (fst e)) c (Data (from_value (snd e))) g) cs g) end) ins rg0 = Ok rg -> mov_ok rg0 -> (forall id n, rget (RNode id n) rg0 = None) -> mov_ok rg /\ forall id n, rget (RNode id n) rg = None).
      { clear. induction ins as [|e ins IH]; intros rg0 Hi H M Ab; [injection H as <-; now split|]. cbn [rfold] in H. destruct (aget _ _ _) as [id|]; [|discriminate]. cbn [rbind] in H. apply (IH _ (fun x Hx => Hi x (or_intror Hx)) H).
        - assert (F : Forall (fun v => movable v = true) (from_value (snd e))).
          { specialize (Hi e (or_introl eq_refl)). apply Forall_forall. intros v Hv. destruct (snd e) as [l|l|w]; cbn [from_value given_movable] in *; [now apply Hi|now apply Hi|]. destruct w; cbn [In] in Hv; try (destruct Hv as [<-|[]]; exact Hi). cbn [movable] in Hi. rewrite forallb_forall in Hi. now apply Hi. }
          clear -M F. revert rg0 M. induction cs as [|c cs IHc]; intros rg0 M; [exact M|]. cbn [fold_left]. apply IHc. intros r l c1 vs Cr. rewrite rget_store. destruct (ref_eqb _ r) eqn:E; [|now apply M]. intros [= <-] Hin. apply aset_in_nat in Hin. destruct Hin as [[= _ ->]|Hin]; [exact F|]. unfold streams in Hin. destruct (rget r rg0) eqn:Gr; [|contradiction]. now apply (M r l c1).
        - intros id' n. clear -Ab. specialize (Ab id' n). revert rg0 Ab. induction cs as [|c cs IHc]; intros rg0 Ab; [exact Ab|]. cbn [fold_left]. apply IHc. now rewrite rget_store. }
      apply (A ins [] Hi P); [intros r l c vs _ H; discriminate|reflexivity]. }
    destruct Rg as [Mv Ab]. unfold offloading_pass, cancel_redundant_activation_moves.
    set (W := weight_offloading_pass s is compute storage g pl).
    assert (Wm : forall i, In i W -> is_ma i = false).
    { intros i Hi. unfold W, weight_offloading_pass in Hi. rewrite !in_app_iff in Hi. destruct Hi as [Hi|[Hi|Hi]].
      - apply in_map_iff in Hi. now destruct Hi as (m & <- & _).
      - apply in_flat_map in Hi. destruct Hi as (j & Hj & Hi). pose proof (N j Hj) as Nj. destruct j; cbn [wrap_weights] in Hi; try contradiction; try (destruct Hi as [<-|[]]; reflexivity); destruct (is_module s m); cbn [In] in Hi; repeat destruct Hi as [<-|Hi]; try contradiction; reflexivity.
      - pose proof (post_mm s g pl) as Pm. rewrite Forall_forall in Pm. apply Pm in Hi. now destruct i. }
    set (J := cancel_module_round_trips compute storage (activation_offloading_pass W compute storage)).
    assert (Str : strip J = is). { unfold J. rewrite (cancel_rt_strip compute storage _ _ (le_n _)), activation_strip. unfold W, weight_offloading_pass. rewrite !strip_app, (strip_mm _ (pre_mm s storage g)), (strip_mm _ (post_mm s g pl)), app_nil_r. cbn [app].
      clear -N. induction is as [|i is IH]; [reflexivity|]. cbn [flat_map]. rewrite strip_app, IH by (intros x Hx; apply N; now right). pose proof (N i (or_introl eq_refl)) as Ni. destruct i; try contradiction; try reflexivity; cbn [wrap_weights]; destruct (is_module s m); reflexivity. }
    assert (Tg : flat_map target_of J = flat_map target_of is). { rewrite <- Str. generalize J as l. clear. induction l as [|i l IH]; [reflexivity|]. unfold strip in *. cbn [filter flat_map]. rewrite IH. destruct i; reflexivity. }
    assert (Sim : forall i, In i J -> simple s i).
    { intros i Hi. destruct (is_mm i) eqn:Em; [destruct i; try discriminate; split; [intros r []|exact Logic.I]|]. destruct (is_ma i) eqn:Ea.
      - assert (Hx : In i (activation_offloading_pass W compute storage)).
        { revert Hi. unfold J. generalize (activation_offloading_pass W compute storage). intros l. assert (Q : forall n l, length l <= n -> In i (cancel_module_round_trips compute storage l) -> In i l).
          { clear. induction n as [|n IH]; intros l L H; [destruct l; [exact H|cbn in L; lia]|]. destruct l as [|a [|b l]]; try exact H. rewrite cancel_cons2 in H. destruct (is_round_trip _ _ _ _); [right; right; apply IH; [cbn in L; lia|exact H]|]. destruct H as [<-|H]; [now left|]. right. apply IH; [cbn in *; lia|exact H]. }
          apply (Q _ _ (le_n _)). }
        unfold activation_offloading_pass in Hx. apply in_flat_map in Hx. destruct Hx as (j & Hj & Hx). pose proof (Wm j Hj) as Wj.
        assert (Hj' : is_mm j = false -> In j is). { intros Hm. rewrite <- Str. unfold J. rewrite (cancel_rt_strip compute storage _ _ (le_n _)), activation_strip. apply filter_In. split; [exact Hj|]. now rewrite Hm, Wj. }
        assert (Mas : forall us, (forall r b a, In r us -> r <> RAttr b a) -> In i (map (MoveActivations compute) (filter (fun r => negb (is_const (unwrap r))) us)) -> simple s i).
        { intros us Hus H. apply in_map_iff in H. destruct H as (r & <- & H). apply filter_In in H. destruct H as [H1 H2]. assert (Er : unwrap r = r) by (destruct r; try reflexivity; now destruct (Hus _ r a H1)). split; [intros x [<-|[]]; exact Er|]. cbn. rewrite Er in H2. now destruct (is_const r). }
        destruct j; cbn [wrap_activations] in Hx; try discriminate; try (destruct Hx as [<-|[]]; discriminate).
        + destruct (If _ (Hj' eq_refl)) as [I1 _]. apply in_app_iff in Hx. destruct Hx as [Hx|Hx]; [now apply (Mas _ I1)|]. destruct Hx as [<-|[<-|[]]]; [discriminate|]. destruct Sa as [Sa _]. destruct (Sa _ _ _ _ _ (Hj' eq_refl)) as (id & nm & ->). split; [intros x [<-|[]]; reflexivity|reflexivity].
        + destruct (If _ (Hj' eq_refl)) as [I1 _]. apply in_app_iff in Hx. destruct Hx as [Hx|[<-|[]]]; [now apply (Mas _ I1)|discriminate].
      - assert (Hi' : In i is) by (rewrite <- Str; apply filter_In; split; [exact Hi|]; now rewrite Em, Ea). destruct (If i Hi') as [I1 I2]. split.
        + intros r Hr. destruct r; try reflexivity. now destruct (I1 _ r a Hr).
        + destruct i; try discriminate; try exact Logic.I; try contradiction; [now destruct I2 as [c ->]| |exact I2]. destruct Sa as [Sa _]. destruct (Sa _ _ _ _ _ Hi') as (id & nm & ->). now split. }
    assert (HC : forall pl u c m a k v u', call s pl u c m a k = (Ok v, u') -> movable v = true /\ (a ++ map snd k <> [] \/ is_module s m = true -> forallb (on_device compute) (a ++ map snd k) = true -> (is_module s m = true -> loaded s compute pl m) -> on compute v)).
    { intros pl1 u1 c m a k v u' E. destruct (St pl1 u1 c m a k v u' E) as [S1 S2]. split; [exact S1|]. intros Q1 Q2 Q3. rewrite forallb_forall in Q2. apply S2; [exact Q1|exact Q2|]. intros Hm n x Hx. apply (Q3 Hm). apply (in_map snd _ _ Hx). }
    apply (dev_safe s compute).
    - exact Hc.
    - exact HC.
    - apply (prep_cancel s compute Hc storage _ _ _ (le_n _)). now apply prep_activation.
    - intros k d r [].
    - split; [intros r d H; discriminate|]. split; [exact Mv|]. now split.
    - cbn [w_place]. apply offload_wsafe; [exact N|]. intros m i is' -> R ms A.
      assert (Bw : begins_with s (i :: is') m). { destruct i; try contradiction; destruct R as [<- R]; (split; [exact R|]); eexists _, is'; (split; [reflexivity|]); [left; eauto|right; eauto]. }
      destruct (Hb m Bw) as [H|[H|[H1 H2]]].
      + exfalso. destruct (proj1 (modules_in m)) as (n & I1 & I2 & I3); [rewrite A; apply in_app_iff; right; now left|]. now apply (H n I1 I2).
      + exfalso. now apply (not_last_modules m ms).
      + intros x Hx. assert (Em : forall m', In m' ms -> ~ In x (map snd (weights s m'))).
        { intros m' Hm' Hx'. assert (Ne : m' <> m). { intros ->. pose proof (dedup_nodup [] (map n_target (filter is_node (g_nodes g)))) as ND. change (NoDup (all_modules s g)) in ND. rewrite A in ND. apply NoDup_remove_2 in ND. apply ND. rewrite app_nil_r. exact Hm'. }
          destruct (proj1 (modules_in m')) as (n & I1 & I2 & I3); [rewrite A; apply in_app_iff; now left|]. apply in_map_iff in Hx, Hx'. destruct Hx as ([b y] & <- & Hx). destruct Hx' as ([a z] & Ez & Hx'). cbn [snd] in *. subst z. apply (H2 n y a b I1 I2); [congruence|now rewrite I3|exact Hx]. }
        assert (Q : forall ms pl, (forall m', In m' ms -> ~ In x (map snd (weights s m'))) -> place_of s (map (fun m => MoveModule (X:=X) (OneDevice storage) m) ms) pl x = pl x).
        { clear. induction ms as [|m ms IH]; intros pl H; [reflexivity|]. cbn [map]. unfold place_of in *. cbn [fold_left]. rewrite IH by (intros; apply H; now right). apply move_weights_out. apply H. now left. }
        rewrite Q by exact Em. apply in_map_iff in Hx. destruct Hx as ([b y] & <- & Hx). now apply (H1 b).
    - exact Sim.
    - rewrite Tg. destruct Sa as [_ Sa]. clear -Sa. assert (Q : forall pre is', (forall l1 m a k t cs l2 m' a' k' t' cs' l3, pre ++ is' = l1 ++ CallModule m a k t cs :: l2 ++ CallModule m' a' k' t' cs' :: l3 -> ~ same_ref t t') -> NoDup (map norm (flat_map (target_of (X:=X)) is'))).
      { clear. intros pre is'. revert pre. induction is' as [|i is' IH]; intros pre H; [constructor|]. assert (T : NoDup (map norm (flat_map (target_of (X:=X)) is'))) by (apply (IH (pre ++ [i])); intros; rewrite <- app_assoc in *; eapply H; eassumption).
        destruct i; try exact T. cbn [flat_map target_of app map]. constructor; [|exact T]. intros Hin. apply in_map_iff in Hin. destruct Hin as (t' & Et & Ht'). apply in_flat_map in Ht'. destruct Ht' as (j & Hj & Ht'). destruct j; try contradiction. destruct Ht' as [<-|[]]. apply in_split in Hj. destruct Hj as (l2 & l3 & ->).
        apply (H pre m args kwargs t cs l2 m0 args0 kwargs0 t0 cs0 l3 eq_refl). now apply same_ref_norm. }
      now apply (Q [] is).
    - intros t Ht. rewrite Tg in Ht. apply in_flat_map in Ht. destruct Ht as (j & Hj & Ht). destruct j; try contradiction. destruct Ht as [<-|[]]. destruct Sa as [Sa _]. destruct (Sa _ _ _ _ _ Hj) as (id & nm & ->). split; [apply Ab|reflexivity].
    - reflexivity.
  Qed.
End Top.
