(** Scheduled programs compute the meaning of their graph. *)
From Coq Require Import String Ascii Permutation Relations.
From Verif Require Import Prelude GraphModel GraphSpec GraphProofs EngineModel EngineSpec EngineBaseProofs EngineLifeProofs EngineOptProofs EngineInputProofs EngineContextProofs.
Local Open Scope nat_scope.
Local Open Scope list_scope.

Section Assoc2.
  Context {A : Type}.
  Implicit Types l : list (nat * A).
  Lemma fold_keys l2 : forall l x, In x (map fst (fold_left (fun l e => aset Nat.eqb (fst e) (snd e) l) l2 l)) <-> In x (map fst l2) \/ In x (map fst l).
  Proof.
    induction l2 as [|e l2 IH]; intros l x; [cbn; tauto|]. cbn [fold_left map In]. rewrite IH, aset_keys. split; intros H; intuition congruence.
  Qed.
  Lemma aset_in k (a : A) l e : In e (aset Nat.eqb k a l) -> e = (k, a) \/ In e l.
  Proof.
    induction l as [|[k' b] l IH]; cbn [aset]; [intros [<-|[]]; now left|]. destruct (Nat.eqb_spec k' k) as [->|]; cbn [In].
    - intros [<-|H]; [now left|right; now right].
    - intros [<-|H]; [right; now left|]. apply IH in H. destruct H; [now left|right; now right].
  Qed.
  Lemma fold_entries l2 : forall l e, In e (fold_left (fun l e => aset Nat.eqb (fst e) (snd e) l) l2 l) -> In e l2 \/ In e l.
  Proof.
    induction l2 as [|x l2 IH]; intros l e H; [now right|]. cbn [fold_left] in H. apply IH in H. destruct H as [H|H]; [left; now right|].
    apply aset_in in H. destruct H as [->|H]; [left; left; now destruct x|now right].
  Qed.
End Assoc2.

Lemma rmapM_f2 {A B} (h : A -> result B) (R : A -> B -> Prop) l : (forall a, In a l -> exists b, h a = Ok b /\ R a b) -> exists l', rmapM h l = Ok l' /\ Forall2 R l l'.
Proof.
  induction l as [|a l IH]; intros H; [exists []; split; [reflexivity|constructor]|]. destruct (H a (or_introl eq_refl)) as (b & E & Rb).
  destruct IH as (l' & E' & F); [intros x Hx; apply H; now right|]. exists (b :: l'). split; [|now constructor].
  change (rmapM h (a :: l)) with (let? y := h a in let? ys := rmapM h l in Ok (y :: ys)). now rewrite E, E'.
Qed.
Lemma rmapM_inv {A B} (h : A -> result B) : forall l l', rmapM h l = Ok l' -> Forall2 (fun a b => h a = Ok b) l l'.
Proof.
  induction l as [|a l IH]; intros l' H; [injection H as <-; constructor|].
  change (rmapM h (a :: l)) with (let? y := h a in let? ys := rmapM h l in Ok (y :: ys)) in H. destruct (h a) as [b|] eqn:E; [|discriminate]. cbn [rbind] in H.
  destruct (rmapM h l) as [l1|]; [|discriminate]. cbn [rbind] in H. injection H as <-. constructor; [exact E|now apply IH].
Qed.
Lemma rmapM_err {A B} (h : A -> result B) : forall l e, rmapM h l = Err e -> exists a, In a l /\ h a = Err e.
Proof.
  induction l as [|a l IH]; intros e H; [discriminate|].
  change (rmapM h (a :: l)) with (let? y := h a in let? ys := rmapM h l in Ok (y :: ys)) in H. destruct (h a) as [b|e'] eqn:E; cbn [rbind] in H.
  - destruct (rmapM h l) as [l1|e1]; cbn [rbind] in H; [discriminate|]. injection H as ->. destruct (IH e eq_refl) as (x & Hx & Ex). exists x. split; [now right|exact Ex].
  - injection H as ->. exists a. split; [now left|exact E].
Qed.

Section Sched.
  Context {X U : Type} (s : semantics X U).
  Variable f : nat -> nat -> list (val X) -> list (string * val X) -> result (val X).
  Variables (g : graph) (nodes : list gnode) (order : list nat -> list nat) (C : list nat) (inp : nat -> list (val X) -> Prop) (pl0 : nat -> nat).
  Variable Q : list gnode -> U -> Prop.
  Hypothesis Gok : graph_ok g.
  Hypothesis nodes_in : forall n, In n nodes <-> In n (g_nodes g) /\ is_leaf g (n_id n).
  Hypothesis nodes_nodup : NoDup (map n_id nodes).
  Hypothesis nodes_order : forall a b, is_leaf g b -> feeds g a b -> before (map n_id nodes) a b.
  Hypothesis Po : forall l, Permutation (order l) l.
  Hypothesis Cne : C <> [].
  Hypothesis Cbig : forall i c, In i (schedule_nodes s order g nodes) -> In c (contexts_of i) -> In c C.
  Hypothesis refs_ok : refs_usable g.
  Hypothesis call_f : forall ns u c m a k, Q ns u -> call s pl0 u c m a k = (f c m a k, u).
  Hypothesis opt_Q : forall ns u n d bs u', Q ns u -> In n nodes -> n_delegate n = Some d -> is_module s (n_target n) = true ->
    Forall2 (bundle_means s f g inp n) (d_contexts d) bs -> optimize s pl0 u (d_fn d) (n_target n) bs = (Ok tt, u') -> Q (ns ++ [n]) u'.
  Notation M := (means s f g inp).
  Notation cxg := (propagate_contexts g nodes).

  Implicit Types rg : register X.
  Lemma wanted_cx c x : In c (cx_of cxg x) <-> wanted g c x.
  Proof. now apply contexts_wanted. Qed.
  Definition keys (r : ref) (c : nat) : Prop := match unwrap r with RNode x _ => wanted g c x | RInput _ _ => In c C | _ => False end.
  Definition Sound (rg : register X) : Prop := forall r l, rget r rg = Some l -> is_const (unwrap r) = false ->
    NoDup (map fst l) /\ (forall c, In c (map fst l) <-> keys r c) /\ (forall c e, In (c, e) l -> exists d, e = Data d /\ M c r d).

  Lemma means_cong c r : forall r' d, norm r = norm r' -> M c r d -> M c r' d.
  Proof.
    induction r as [i n|i n|i|b IH a]; intros r' d E H; destruct r' as [i' n'|i' n'|i'|b' a']; try discriminate; cbn in E.
    - injection E as ->. inversion H; subst. econstructor; eassumption.
    - injection E as ->. inversion H; subst. now constructor.
    - injection E as ->. exact H.
    - injection E as E ->. inversion H; subst. econstructor; [eapply IH; eassumption|eassumption].
  Qed.
  Lemma unwrap_cong r : forall r', norm r = norm r' -> norm (unwrap r) = norm (unwrap r').
  Proof.
    induction r as [i n|i n|i|b IH a]; intros r' E; destruct r' as [i' n'|i' n'|i'|b' a']; try discriminate; cbn in E |- *; try exact E. injection E as E ->. now apply IH.
  Qed.
  Lemma keys_cong r r' c : norm r = norm r' -> keys r c <-> keys r' c.
  Proof.
    intros E. apply unwrap_cong in E. unfold keys. destruct (unwrap r), (unwrap r'); try discriminate; cbn in E; try (injection E as ->); tauto.
  Qed.
  Lemma const_cong r r' : norm r = norm r' -> is_const (unwrap r) = is_const (unwrap r').
  Proof. intros E. apply unwrap_cong in E. destruct (unwrap r), (unwrap r'); try discriminate; reflexivity. Qed.

  (** writing sound streams *)
  Lemma sound_put t l2 rg rg' : Sound rg -> NoDup (map fst l2) -> (forall c, In c (map fst l2) <-> keys t c) -> (forall c e, In (c, e) l2 -> exists d, e = Data d /\ M c t d) ->
    (forall r, rget r rg' = if ref_eqb t r then Some (fold_left (fun l e => aset Nat.eqb (fst e) (snd e) l) l2 (streams r rg)) else rget r rg) -> Sound rg'.
  Proof.
    intros So N K E R r l. rewrite R. destruct (ref_eqb t r) eqn:Eq; [|apply So]. intros [= <-] Kc. apply ref_eqb_norm in Eq.
    assert (Old : NoDup (map fst (streams r rg)) /\ (forall c, In c (map fst (streams r rg)) -> keys r c) /\ (forall c e, In (c, e) (streams r rg) -> exists d, e = Data d /\ M c r d)).
    { unfold streams. destruct (rget r rg) as [l|] eqn:G; [|split; [constructor|]; split; intros ? ?; try intros []; contradiction].
      destruct (So r l G Kc) as (S1 & S2 & S3). split; [exact S1|]. split; [intros c; apply S2|exact S3]. }
    destruct Old as (O1 & O2 & O3). split; [now apply fold_nodup|]. split.
    - intros c. rewrite fold_keys, K. rewrite (keys_cong t r c Eq). split; [intros [H|H]; [exact H|now apply O2]|now left].
    - intros c e H. apply fold_entries in H. destruct H as [H|H]; [|now apply O3]. destruct (E c e H) as (d & -> & Hm). exists d. split; [reflexivity|]. now apply (means_cong c t).
  Qed.

  (** reading *)
  Lemma read_ok rg c r : Sound rg -> rget r rg <> None -> is_const (unwrap r) = false -> keys r c -> exists d, dataset_of s rg c r = Ok d /\ M c r d.
  Proof.
    intros So Pr Kc Ky. destruct (rget r rg) as [l|] eqn:E; [|contradiction]. destruct (So r l E Kc) as (N & K & V).
    apply K in Ky. apply in_map_iff in Ky. destruct Ky as ([c' e] & Ec & Hin). cbn in Ec. subst c'. destruct (V c e Hin) as (d & -> & Hm). exists d. split; [|exact Hm].
    assert (L : load r c rg = Ok (Data d)) by (unfold load; rewrite E, (nget_nodup c l _ N Hin); reflexivity).
    unfold dataset_of. rewrite L. destruct r; try reflexivity. discriminate Kc.
  Qed.
  Definition readable rg c (r : ref) : Prop := (exists i, r = RConst i) \/ (rget r rg <> None /\ is_const (unwrap r) = false /\ keys r c).
  Lemma read_any rg c r : Sound rg -> readable rg c r -> exists d, dataset_of s rg c r = Ok d /\ M c r d.
  Proof.
    intros So [(i & ->)|(P & K & Ky)]; [|now apply read_ok]. exists [constv s i]. split; [reflexivity|constructor].
  Qed.
  Lemma gather_ok rg c args kwargs : Sound rg -> (forall r, In r (args ++ map snd kwargs) -> readable rg c r) ->
    exists a k, Forall2 (M c) args a /\ Forall2 (M c) (map snd kwargs) k /\
      match broadcast (a ++ k) with
      | Ok b => gather s rg c args kwargs = Ok (mkBundle (firstn (length a) b) (combine (map fst kwargs) (skipn (length a) b)))
      | Err e => gather s rg c args kwargs = Err ValueError /\ args ++ map snd kwargs <> [] /\ forall N, ~ common_length (a ++ k) N
      end.
  Proof.
    intros So H. destruct (rmapM_f2 (dataset_of s rg c) (M c) args) as (a & Ea & Fa); [intros r Hr; apply read_any; [exact So|apply H; rewrite in_app_iff; now left]|].
    destruct (rmapM_f2 (fun e : string * ref => dataset_of s rg c (snd e)) (fun e d => M c (snd e) d) kwargs) as (k & Ek & Fk); [intros e He; apply read_any; [exact So|apply H; rewrite in_app_iff; right; now apply in_map]|].
    exists a, k. split; [exact Fa|]. split; [clear -Fk; induction Fk; constructor; assumption|].
    unfold gather. rewrite Ea. cbn [rbind]. rewrite Ek. cbn [rbind]. destruct (broadcast (a ++ k)) as [b|e] eqn:B; [reflexivity|]. cbn [rbind].
    assert (e = ValueError) as ->.
    { clear -B. unfold broadcast in B. destruct (a ++ k); [discriminate|]. destruct (_ <=? 1); [discriminate|]. destruct (filter _ _) as [|? [|? ?]]; congruence. }
    split; [reflexivity|]. split.
    - intros Z. apply app_eq_nil in Z. destruct Z as [-> Z]. apply map_eq_nil in Z. subst kwargs. inversion Fa; subst. inversion Fk; subst. discriminate.
    - intros N [L1 L2]. destruct (broadcast_ok (a ++ k) N L1 L2) as (b & E & _). congruence.
  Qed.

  Definition bad (e : exn) : Prop := (e = ValueError /\ misfit s f g inp) \/ user_error s f e.

  Lemma batches_ok ns u c m (bd : bundle (val X)) (P : nat -> list (val X) -> list (string * val X) -> Prop) : Q ns u ->
    forall n i, (forall j, i <= j < i + n -> exists xs ks, batch bd j = Ok (xs, ks) /\ P j xs ks) ->
    snd (call_batches s pl0 u c m bd i n) = u /\
    match fst (call_batches s pl0 u c m bd i n) with
    | Ok outs => length outs = n /\ forall j v, nth_error outs j = Some v -> exists xs ks, P (i + j) xs ks /\ f c m xs ks = Ok v
    | Err e => user_error s f e
    end.
  Proof.
    intros HQ. induction n as [|n IH]; intros i H; [split; [reflexivity|]; split; [reflexivity|]; intros [|j] v Hv; discriminate|].
    cbn [call_batches]. destruct (H i) as (xs & ks & Eb & Pb); [lia|]. rewrite Eb. rewrite (call_f ns u c m xs ks HQ). destruct (f c m xs ks) as [v|e] eqn:Ef.
    - destruct (IH (S i)) as [I1 I2]; [intros j Hj; apply H; lia|]. destruct (call_batches s pl0 u c m bd (S i) n) as [r u2]. cbn [fst snd] in *. split; [exact I1|].
      destruct r as [outs|e]; cbn [rmap]; [|exact I2]. destruct I2 as [L I2]. split; [cbn; lia|]. intros [|j] v' Hv.
      + injection Hv as <-. rewrite Nat.add_0_r. eauto.
      + cbn in Hv. destruct (I2 j v' Hv) as (xs' & ks' & H1 & H2). rewrite <- Nat.add_succ_comm. eauto.
    - split; [reflexivity|]. left. eauto.
  Qed.
  Lemma context_ok ns u rg c n : Q ns u -> Sound rg -> In n (g_nodes g) -> (forall r, In r (call_refs n) -> readable rg c r) ->
    snd (call_context s pl0 u c (n_target n) (n_args n) (n_kwargs n) rg) = u /\
    match fst (call_context s pl0 u c (n_target n) (n_args n) (n_kwargs n) rg) with
    | Ok outs => M c (node_ref_of n) outs
    | Err e => bad e
    end.
  Proof.
    intros HQ So Hn H. destruct (gather_ok rg c (n_args n) (n_kwargs n) So H) as (a & k & Fa & Fk & G). unfold call_context.
    destruct (broadcast (a ++ k)) as [b|e] eqn:B; [rewrite G|destruct G as (G & G1 & G2); rewrite G; split; [reflexivity|]; left; split; [reflexivity|]; left; exists c, n, a, k; auto].
    set (bd := mkBundle _ _).
    assert (Lk : length (map fst (n_kwargs n)) = length k). { apply Forall2_length in Fk. rewrite map_length in *. exact Fk. }
    destruct (call_refs n) as [|r0 rs] eqn:Er.
    - unfold call_refs in Er. apply app_eq_nil in Er. destruct Er as [E1 E2]. apply map_eq_nil in E2. rewrite E1, E2 in *.
      rewrite (call_f ns u c (n_target n) [] [] HQ). cbn [fst snd]. split; [reflexivity|]. inversion Fa; subst. inversion Fk; subst.
      destruct (f c (n_target n) [] []) as [v|e] eqn:Ef; cbn [rmap]; [|right; left; eauto].
      apply (means_node s f g inp c n (n_name n) [] []); [exact Hn|rewrite E1; constructor|rewrite E2; constructor|]. now constructor.
    - assert (Call : match n_args n, n_kwargs n with [], [] => let '(r, u') := call s pl0 u c (n_target n) [] [] in (rmap (fun v => [v]) r, u') | _, _ => call_batches s pl0 u c (n_target n) bd 0 (bundle_len bd) end =
        call_batches s pl0 u c (n_target n) bd 0 (bundle_len bd)).
      { destruct (n_args n) eqn:E1, (n_kwargs n) eqn:E2; try reflexivity. unfold call_refs in Er. rewrite E1, E2 in Er. discriminate. }
      rewrite Call. clear Call.
      destruct (batches_ok ns u c (n_target n) bd (fun j xs ks => exists ys, ks = combine (map fst (n_kwargs n)) ys /\ Forall2 (fun d x => element d j x) a xs /\ Forall2 (fun d x => element d j x) k ys) HQ (bundle_len bd) 0) as [I1 I2].
      { intros j Hj. destruct (batch_ok a k (map fst (n_kwargs n)) b j Lk B) as (xs & ys & E & F1 & F2); [fold bd; lia|]. exists xs, (combine (map fst (n_kwargs n)) ys). split; [exact E|]. exists ys. auto. }
      destruct (call_batches s pl0 u c (n_target n) bd 0 (bundle_len bd)) as [r u2]. cbn [fst snd] in *. split; [exact I1|]. destruct r as [outs|e]; [|now right].
      destruct I2 as [L I2]. apply (means_node s f g inp c n (n_name n) a k); [exact Hn|exact Fa|exact Fk|].
      apply broadcast_inv in B. destruct B as (N & Ex & F).
      assert (Ne : a ++ k <> []). { intros Z. apply app_eq_nil in Z. destruct Z as [-> ->]. inversion Fa as [Z1|]. inversion Fk as [Z2|]. unfold call_refs in Er. rewrite <- Z1, <- Z2 in Er. discriminate. }
      assert (LN : bundle_len bd = N).
      { unfold bd, bundle_len. cbn [b_args b_kwargs]. apply f2_app_l in F. destruct F as [F1 F2]. destruct a as [|a0 a].
        - cbn [length firstn skipn] in *. destruct k as [|k0 k]; [contradiction|]. destruct (map fst (n_kwargs n)) as [|x xs]; [discriminate|]. inversion F2 as [|? d ? ? [Ld _] _ E1 E2]; subst. reflexivity.
        - destruct (firstn (length (a0 :: a)) b) as [|d0 l0]; [inversion F1|]. inversion F1 as [|? ? ? ? [Ld _] _]. exact Ld. }
      apply (applied_batches f c n a k N outs); [|congruence|].
      + split; [|now apply Ex]. intros d Hd. clear -F Hd. induction F as [|x y l l' [L H] F IH]; [destruct Hd|]. destruct Hd as [<-|Hd]; [|now apply IH]. destruct H as [->|(v & -> & _)]; [now right|now left].
      + intros i v Hv. destruct (I2 i v Hv) as (xs & ks & (ys & -> & F1 & F2) & Ef). cbn [Nat.add] in *. eauto.
  Qed.
  Lemma contexts_ok ns u rg n : Q ns u -> Sound rg -> In n (g_nodes g) -> forall cs, (forall r c, In c cs -> In r (call_refs n) -> readable rg c r) ->
    snd (call_contexts s pl0 u cs (n_target n) (n_args n) (n_kwargs n) rg) = u /\
    match fst (call_contexts s pl0 u cs (n_target n) (n_args n) (n_kwargs n) rg) with
    | Ok l => map fst l = cs /\ forall c e, In (c, e) l -> exists d, e = Data d /\ M c (node_ref_of n) d
    | Err e => bad e
    end.
  Proof.
    intros HQ So Hn. induction cs as [|c cs IH]; intros H; [split; [reflexivity|]; split; [reflexivity|]; intros c e []|].
    cbn [call_contexts]. destruct (context_ok ns u rg c n HQ So Hn) as [I1 I2]; [intros r Hr; apply H; [now left|exact Hr]|].
    destruct (call_context s pl0 u c (n_target n) (n_args n) (n_kwargs n) rg) as [[outs|e] u1]; cbn [fst snd] in *; subst u1; [|now split].
    destruct IH as [J1 J2]; [intros r c' Hc Hr; apply H; [now right|exact Hr]|].
    destruct (call_contexts s pl0 u cs (n_target n) (n_args n) (n_kwargs n) rg) as [[l|e] u2]; cbn [fst snd rmap] in *; [|now split]. split; [exact J1|]. destruct J2 as [J2 J3].
    split; [cbn; now f_equal|]. intros c' e [[= <- <-]|H']; [eauto|now apply J3].
  Qed.

  (** outcomes *)
  Definition outcome := (world U * result (register X * option (output (X:=X))))%type.
  Definition goes (Post : world U -> register X -> Prop) (r : outcome) : Prop :=
    match snd r with Ok (rg, None) => Post (fst r) rg | Ok (_, Some _) => False | Err e => bad e end.
  Lemma run_app l1 : forall l2 w rg, run_instructions s (l1 ++ l2) w rg =
    match run_instructions s l1 w rg with (w', Ok (rg', None)) => run_instructions s l2 w' rg' | r => r end.
  Proof.
    induction l1 as [|i l1 IH]; intros l2 w rg; [reflexivity|]. cbn [app run_instructions]. destruct (exec s i w rg) as [w' [[rg' [o|]]|e]]; try reflexivity. apply IH.
  Qed.
  Lemma goes_seq (P1 P2 : world U -> register X -> Prop) l1 l2 w rg : goes P1 (run_instructions s l1 w rg) -> (forall w' rg', P1 w' rg' -> goes P2 (run_instructions s l2 w' rg')) ->
    goes P2 (run_instructions s (l1 ++ l2) w rg).
  Proof.
    intros H1 H2. rewrite run_app. destruct (run_instructions s l1 w rg) as [w' [[rg' [o|]]|e]]; cbn in H1; [destruct H1|now apply H2|exact H1].
  Qed.
  Lemma goes_one (P : world U -> register X -> Prop) i w rg : goes P (exec s i w rg) -> goes P (run_instructions s [i] w rg).
  Proof. cbn [run_instructions]. now destruct (exec s i w rg) as [w' [[rg' [o|]]|e]]. Qed.
  Lemma goes_weaken (P1 P2 : world U -> register X -> Prop) r : (forall w rg, P1 w rg -> P2 w rg) -> goes P1 r -> goes P2 r.
  Proof. intros H. destruct r as [w [[rg [o|]]|e]]; cbn; auto. Qed.

  (** what holds between instructions *)
  Record Inv (ns : list gnode) (done : list nat) (w : world U) (rg : register X) : Prop := mkInv {
    inv_sound : Sound rg;
    inv_nodes : forall x m, In x done -> rget (RNode x m) rg <> None;
    inv_inputs : forall i m, In i (map snd (g_inputs g)) -> rget (RInput i m) rg <> None;
    inv_user : Q ns (w_user w);
    inv_place : w_place w = pl0 }.
  Definition ready rg (r : ref) : Prop := (exists i, r = RConst i) \/ (is_const (unwrap r) = false /\ ((exists c, keys r c) -> rget r rg <> None)).
  Definition based done (r : ref) : Prop := match unwrap r with RNode x _ => In x done | RInput i _ => In i (map snd (g_inputs g)) | _ => False end.
  Definition more rg rg' : Prop := forall r, rget r rg <> None -> rget r rg' <> None.
  Lemma ready_more rg rg' r : more rg rg' -> ready rg r -> ready rg' r.
  Proof. intros H [R|[K R]]; [now left|]. right. split; [exact K|]. intros E. apply H. now apply R. Qed.
  Lemma inv_more ns done w rg rg' : Inv ns done w rg -> Sound rg' -> more rg rg' -> Inv ns done w rg'.
  Proof. intros [I1 I2 I3 I4 I5] So Mo. constructor; auto. Qed.
  Lemma put_more t (l2 : list (nat * entry X)) rg rg' : (forall r, rget r rg' = if ref_eqb t r then Some (fold_left (fun l e => aset Nat.eqb (fst e) (snd e) l) l2 (streams r rg)) else rget r rg) -> more rg rg'.
  Proof. intros R r H. rewrite R. destruct (ref_eqb t r); [discriminate|exact H]. Qed.

  Lemma extract_ok a (d : list (val X)) : match extract s a (Data d) with
    | Ok e => exists d', e = Data d' /\ attr_stream s a d d'
    | Err e => user_error s f e
    end.
  Proof.
    unfold extract. destruct (rmapM (fun v => item s v a) d) as [l|e] eqn:E.
    - assert (A : attr_stream s a d l) by (left; now apply rmapM_inv in E). destruct a; cbn [rmap]; eauto.
    - pose proof (rmapM_err _ _ _ E) as (v & Hv & Ev). cbn beta in Ev. destruct a as [i|k]; cbn [rmap].
      + right. right. left. eauto.
      + assert (Fb : (e = KeyError \/ e = TypeError) -> match rmap Data (rmapM (fun v => getattr s v k) d) with Ok e => exists d', e = Data d' /\ attr_stream s (AStr k) d d' | Err e => user_error s f e end).
        { intros He. destruct (rmapM (fun v => getattr s v k) d) as [l|e'] eqn:E'; cbn [rmap].
          - exists l. split; [reflexivity|]. right. exists k. split; [reflexivity|]. split; [exists v; split; [exact Hv|]; destruct He as [->| ->]; auto|]. now apply rmapM_inv in E'.
          - apply rmapM_err in E'. destruct E' as (v' & _ & Ev'). do 4 right. eauto. }
        destruct e; try (apply Fb; tauto); cbn [rmap]; do 3 right; left; exists v, k; repeat split; try exact Ev; discriminate.
  Qed.
  Lemma load_ok ns done w rg b a : Inv ns done w rg -> rget b rg <> None -> is_const (unwrap b) = false ->
    goes (fun w' rg' => w' = w /\ Inv ns done w' rg' /\ more rg rg' /\ ready rg' (RAttr b a)) (exec s (LoadAttribute b (RAttr b a) a) w rg).
  Proof.
    intros I Pr Kc. cbn [exec]. unfold items_for. destruct (rget b rg) as [l|] eqn:E; [|contradiction]. cbn [rbind].
    destruct (inv_sound _ _ _ _ I b l E Kc) as (N & K & V). unfold goes. cbn [fst snd].
    destruct (rmapM (fun e => let? x := extract s a (snd e) in Ok (fst e, x)) l) as [l'|e] eqn:Em; cbn [rbind rmap].
    - assert (R := rmapM_inv _ _ _ Em).
      assert (K' : map fst l' = map fst l) by (now destruct (fst_map_rmapM _ _ _ Em)).
      assert (V' : forall c e, In (c, e) l' -> exists d, e = Data d /\ M c (RAttr b a) d).
      { intros c e H. clear -R H V. induction R as [|[c0 e0] [c1 e1] l l' H1 R IH]; [destruct H|]. destruct H as [[= -> ->]|H]; [|apply IH; [intros c' e' H'; apply V; now right|exact H]].
        cbn [fst snd] in H1. destruct (V c0 e0 (or_introl eq_refl)) as (d & -> & Hm). pose proof (extract_ok a d) as X1. destruct (extract s a (Data d)) as [e2|]; [|discriminate]. cbn [rbind] in H1.
        destruct X1 as (d' & -> & As). injection H1 as <- <-. exists d'. split; [reflexivity|]. econstructor; eassumption. }
      destruct l as [|e0 l].
      + cbn in K'. destruct l'; [|discriminate]. cbn [fold_left]. split; [reflexivity|]. split; [exact I|]. split; [now intros r H|]. right. cbn [unwrap]. split; [exact Kc|]. intros (c & Hc). exfalso.
        assert (keys b c) by exact Hc. apply K in H. destruct H.
      + assert (Ne : l' <> []) by (intros ->; discriminate).
        assert (Rg := fold_store_aset (RAttr b a) l' rg Ne). set (rg' := fold_left _ l' rg) in *.
        assert (Mo : more rg rg') by exact (put_more _ _ _ _ Rg).
        assert (So : Sound rg'). { apply (sound_put (RAttr b a) l' rg rg'); [exact (inv_sound _ _ _ _ I)|now rewrite K'| |exact V'|exact Rg]. intros c. rewrite K', K. reflexivity. }
        split; [reflexivity|]. split; [now apply (inv_more _ _ _ rg)|]. split; [exact Mo|]. right. cbn [unwrap]. split; [exact Kc|]. intros _. rewrite Rg, ref_eqb_refl. discriminate.
    - apply rmapM_err in Em. destruct Em as ([c e0] & Hin & He). cbn [snd fst] in He. destruct (V c e0 Hin) as (d & -> & _). pose proof (extract_ok a d) as X1.
      destruct (extract s a (Data d)) as [e2|e2]; [discriminate|]. cbn [rbind] in He. injection He as ->. now right.
  Qed.
  Lemma store_const_ok ns done w rg i e cs : Inv ns done w rg ->
    goes (fun w' rg' => w' = w /\ Inv ns done w' rg' /\ more rg rg') (exec s (StoreValue (RConst i) e cs) w rg).
  Proof.
    intros I. unfold goes. cbn [exec rmap fst snd]. split; [reflexivity|].
    assert (R := fun r => fold_store_const (RConst i) e cs rg r). set (rg' := fold_left _ cs rg) in *.
    assert (Mo : more rg rg') by (intros r H; rewrite R; destruct (ref_eqb _ r), cs; try exact H; discriminate).
    split; [|exact Mo]. apply (inv_more _ _ _ rg); [exact I| |exact Mo]. intros r l. rewrite R. destruct (ref_eqb (RConst i) r) eqn:Eq; [|apply (inv_sound _ _ _ _ I)].
    intros _ K. destruct r; try discriminate.
  Qed.

  Definition ok_ref done (r : ref) : Prop := (exists i, r = RConst i) \/ (based done r /\ (nested r -> exists c, keys r c)).
  Lemma based_const done r : based done r -> is_const (unwrap r) = false.
  Proof. unfold based. now destruct (unwrap r). Qed.
  Lemma sched_ref_ok r : forall ns done w rg, Inv ns done w rg -> ok_ref done r ->
    goes (fun w' rg' => w' = w /\ Inv ns done w' rg' /\ more rg rg' /\ ready rg' r) (run_instructions s (schedule_ref r) w rg).
  Proof.
    induction r as [x m|x m|i|b IH a]; intros ns done w rg I H; cbn [schedule_ref].
    - destruct H as [[? ?]|[H _]]; [discriminate|]. cbn. split; [reflexivity|]. split; [exact I|]. split; [now intros r|]. right. split; [reflexivity|]. intros _. now apply (inv_nodes _ _ _ _ I).
    - destruct H as [[? ?]|[H _]]; [discriminate|]. cbn. split; [reflexivity|]. split; [exact I|]. split; [now intros r|]. right. split; [reflexivity|]. intros _. now apply (inv_inputs _ _ _ _ I).
    - apply goes_one. eapply goes_weaken; [|apply store_const_ok; exact I]. intros w' rg' (-> & I' & Mo). split; [reflexivity|]. split; [exact I'|]. split; [exact Mo|]. left. eauto.
    - destruct H as [[? ?]|[H Hn]]; [discriminate|]. assert (Kc := based_const _ _ H). cbn [unwrap] in Kc.
      eapply goes_seq.
      + apply (IH ns done w rg I). right. split; [exact H|]. intros Nb. apply Hn. cbn. destruct b; try destruct Nb. exact Logic.I.
      + intros w' rg' (-> & I' & Mo & Rd). apply goes_one. eapply goes_weaken; [|apply (load_ok ns done w rg' b a I'); [|exact Kc]].
        * intros w2 rg2 (-> & I2 & Mo2 & Rd2). split; [reflexivity|]. split; [exact I2|]. split; [|exact Rd2]. intros r Hr. apply Mo2. now apply Mo.
        * destruct b as [x m|x m|i|b' a'].
          -- apply (inv_nodes _ _ _ _ I'). exact H.
          -- apply (inv_inputs _ _ _ _ I'). exact H.
          -- destruct H.
          -- destruct Rd as [[? ?]|[_ Rd]]; [discriminate|]. apply Rd. apply Hn. exact Logic.I.
  Qed.
  Lemma sched_refs_ok rs : forall ns done w rg, Inv ns done w rg -> (forall r, In r rs -> ok_ref done r) ->
    goes (fun w' rg' => w' = w /\ Inv ns done w' rg' /\ more rg rg' /\ forall r, In r rs -> ready rg' r) (run_instructions s (flat_map schedule_ref rs) w rg).
  Proof.
    induction rs as [|r rs IH]; intros ns done w rg I H.
    - cbn. split; [reflexivity|]. split; [exact I|]. split; [now intros r|]. intros r [].
    - cbn [flat_map]. eapply goes_seq; [apply (sched_ref_ok r ns done w rg I); apply H; now left|]. intros w' rg' (-> & I' & Mo & Rd).
      eapply goes_weaken; [|apply (IH ns done w rg' I'); intros r' Hr; apply H; now right]. intros w2 rg2 (-> & I2 & Mo2 & Rd2).
      split; [reflexivity|]. split; [exact I2|]. split; [intros z Hz; apply Mo2; now apply Mo|]. intros z [<-|Hz]; [now apply (ready_more rg')|now apply Rd2].
  Qed.

  (** a node *)
  Definition optimized (n : gnode) : bool := match n_delegate n with Some _ => is_module s (n_target n) | None => false end.
  Definition opt_of (n : gnode) : list gnode := if optimized n then [n] else [].
  Lemma readable_ready rg c r : ready rg r -> is_const r = true \/ keys r c -> readable rg c r.
  Proof.
    intros [R|[K R]] H; [now left|]. destruct H as [H|H]; [destruct r; try discriminate; left; eauto|]. right. split; [apply R; eauto|]. now split.
  Qed.
  Lemma stretched_of N d d' : length d' = N /\ (d' = d \/ exists a, d = [a] /\ d' = repeat a N) -> stretched (X:=X) N d d'.
  Proof.
    intros [L H]. split; [exact L|]. intros i v Hv. destruct H as [->|(a & -> & ->)]; [now left|]. right. apply nth_error_In, repeat_spec in Hv. now subst.
  Qed.
  Lemma map_snd_combine {A B} (l : list A) : forall l' : list B, length l = length l' -> map snd (combine l l') = l' /\ map fst (combine l l') = l.
  Proof. induction l as [|a l IH]; intros [|b l'] L; cbn in *; try discriminate; [now split|]. destruct (IH l') as [E1 E2]; [lia|]. now rewrite E1, E2. Qed.
  Lemma gather_bundle rg c n : Sound rg -> In n (g_nodes g) -> (forall r, In r (call_refs n) -> readable rg c r) ->
    match gather s rg c (n_args n) (n_kwargs n) with Ok b => bundle_means s f g inp n c b | Err e => bad e end.
  Proof.
    intros So Hg H. destruct (gather_ok rg c (n_args n) (n_kwargs n) So H) as (a & k & Fa & Fk & G). destruct (broadcast (a ++ k)) as [b|e] eqn:B; [rewrite G|destruct G as (G & G1 & G2); rewrite G; left; split; [reflexivity|]; left; exists c, n, a, k; auto].
    apply broadcast_inv in B. destruct B as (N & Ex & F). exists N, a, k. split; [exact Fa|]. split; [exact Fk|]. split.
    - intros Ne. assert (a ++ k <> []). { intros Z. apply app_eq_nil in Z. destruct Z as [-> ->]. inversion Fa as [Z1|]. inversion Fk as [Z2|]. unfold call_refs in Ne. rewrite <- Z1, <- Z2 in Ne. now apply Ne. }
      split; [|now apply Ex]. intros d Hd. clear -F Hd. induction F as [|x y l l' [L H] F IH]; [destruct Hd|]. destruct Hd as [<-|Hd]; [|now apply IH]. destruct H as [->|(v & -> & _)]; [now right|now left].
    - pose proof F as Lb. apply Forall2_length in Lb. rewrite app_length in Lb. apply f2_app_l in F. destruct F as [F1 F2]. cbn [b_args b_kwargs].
      assert (Lk : length (map fst (n_kwargs n)) = length (skipn (length a) b)).
      { rewrite skipn_length, <- Lb, map_length. apply Forall2_length in Fk. rewrite map_length in Fk. lia. }
      destruct (map_snd_combine _ _ Lk) as [-> ->]. split; [|split; [reflexivity|]]; [clear -F1; induction F1; constructor; [now apply stretched_of|assumption]|clear -F2; induction F2; constructor; [now apply stretched_of|assumption]].
  Qed.
  Lemma node_ok ns done w rg n : Inv ns done w rg -> In n nodes -> (forall r, In r (call_refs n) -> ok_ref done r) ->
    (forall c, In c (cx_of cxg (n_id n)) -> In c C) -> (forall d c, n_delegate n = Some d -> is_module s (n_target n) = true -> In c (d_contexts d) -> In c C) ->
    goes (fun w' rg' => Inv (ns ++ opt_of n) (done ++ [n_id n]) w' rg') (run_instructions s (schedule_node s order cxg n) w rg).
  Proof.
    intros I Hn Hr Hc Hd. apply nodes_in in Hn as Hn'. destruct Hn' as [Hg Hl]. unfold schedule_node.
    assert (Eq : flat_map schedule_ref (n_args n) ++ flat_map (fun e => schedule_ref (snd e)) (n_kwargs n) = flat_map (schedule_ref (X:=X)) (call_refs n)).
    { unfold call_refs. rewrite flat_map_app. f_equal. clear. induction (n_kwargs n) as [|e l IH]; [reflexivity|]. cbn. now rewrite IH. }
    rewrite app_assoc, Eq. clear Eq. eapply goes_seq; [exact (sched_refs_ok (call_refs n) ns done w rg I Hr)|]. intros w1 rg1 (-> & I1 & _ & Rd).
    assert (Rk : forall r c, In r (call_refs n) -> wanted g c (n_id n) \/ (exists d, n_delegate n = Some d /\ is_module s (n_target n) = true /\ In c (d_contexts d)) -> readable rg1 c r).
    { intros r c Hin W. apply readable_ready; [now apply Rd|]. destruct (Hr r Hin) as [(i & ->)|(Bs & _)]; [now left|]. right. unfold keys. unfold based in Bs. destruct (unwrap r) as [x m|i m|i|b a] eqn:Eu; try destruct Bs.
      - assert (F : feeds g x (n_id n)). { exists n, r. split; [exact Hg|]. split; [reflexivity|]. split; [now apply call_refs_in|]. apply about_unwrap. eauto. }
        destruct W as [W|(d & Dn & _ & Hc')]; [exact (want_input g c x (n_id n) Hl F W)|exact (want_delegate g c x n d Hg Hl F Dn Hc')].
      - destruct W as [W|(d & Dn & Mm & Hc')]; [apply Hc; now apply wanted_cx|eauto]. }
    (* the optimizer *)
    eapply goes_seq with (P1 := fun w' rg' => rg' = rg1 /\ Inv (ns ++ opt_of n) done w' rg').
    { unfold opt_of, optimized. destruct (n_delegate n) as [d|] eqn:Dn; [|cbn; rewrite app_nil_r; now split]. destruct (is_module s (n_target n)) eqn:Mm; [|cbn; rewrite app_nil_r; now split].
      apply goes_one. cbn [exec]. unfold goes.
      destruct (rmapM (fun c => gather s rg1 c (n_args n) (n_kwargs n)) (d_contexts d)) as [bs|e] eqn:Eb; cbn [fst snd].
      - rewrite (inv_place _ _ _ _ I1). destruct (optimize s pl0 (w_user w) (d_fn d) (n_target n) bs) as [[[]|e] u'] eqn:Eo; cbn [rmap fst snd].
        + split; [reflexivity|]. destruct I1 as [A1 A2 A3 A4 A5]. constructor; try assumption; [|reflexivity]. cbn [w_user].
          apply (opt_Q ns (w_user w) n d bs u' A4 Hn Dn Mm); [|exact Eo]. assert (Rk' : forall c, In c (d_contexts d) -> forall r, In r (call_refs n) -> readable rg1 c r) by (intros c Hc' r Hin; apply (Rk r c Hin); right; eauto).
          apply rmapM_inv in Eb.
          assert (L : forall cs bs, Forall2 (fun c b => gather s rg1 c (n_args n) (n_kwargs n) = Ok b) cs bs -> (forall c, In c cs -> forall r, In r (call_refs n) -> readable rg1 c r) -> Forall2 (bundle_means s f g inp n) cs bs).
          { intros cs bs' F. induction F as [|c b cs bs' E F IH]; intros Rc; constructor; [|apply IH; intros c' Hc'; apply Rc; now right].
            pose proof (gather_bundle rg1 c n A1 Hg (Rc c (or_introl eq_refl))) as G. rewrite E in G. exact G. }
          exact (L _ _ Eb Rk').
        + right. right. left. exists pl0, (w_user w), (d_fn d), (n_target n), bs. now rewrite Eo.
      - apply rmapM_err in Eb. destruct Eb as (c & Hc' & Ec). pose proof (gather_bundle rg1 c n (inv_sound _ _ _ _ I1) Hg) as G. rewrite Ec in G. apply G.
        intros r Hin. apply (Rk r c Hin). right. eauto. }
    intros w2 rg2 (-> & I2). apply goes_one. cbn [exec]. rewrite (inv_place _ _ _ _ I2). unfold goes.
    destruct (contexts_ok (ns ++ opt_of n) (w_user w2) rg1 n (inv_user _ _ _ _ I2) (inv_sound _ _ _ _ I2) Hg (order (cx_of cxg (n_id n)))) as [J1 J2].
    { intros r c Hc' Hin. apply (Rk r c Hin). left. apply wanted_cx. now apply (Permutation_in _ (Po _)). }
    destruct (call_contexts s pl0 (w_user w2) (order (cx_of cxg (n_id n))) (n_target n) (n_args n) (n_kwargs n) rg1) as [[l|e] u']; cbn [fst snd rmap] in *; [|exact J2]. subst u'. destruct J2 as [Kl V].
    assert (R := fun r => rget_store_all r (node_ref_of n) l rg1). set (rg' := store_all (node_ref_of n) l rg1) in *.
    assert (Mo : more rg1 rg') by exact (put_more _ _ _ _ R).
    assert (So : Sound rg').
    { apply (sound_put (node_ref_of n) l rg1 rg'); [exact (inv_sound _ _ _ _ I2)| | |exact V|exact R].
      - rewrite Kl. apply (Permutation_NoDup (Permutation_sym (Po _))). apply propagate_nodup.
      - intros c. rewrite Kl. unfold keys. cbn [node_ref_of unwrap]. rewrite <- wanted_cx. split; [apply (Permutation_in _ (Po _))|apply (Permutation_in _ (Permutation_sym (Po _)))]. }
    destruct I2 as [A1 A2 A3 A4 A5]. constructor; cbn [w_user w_place]; try assumption; [|now auto|reflexivity].
    intros x m Hx. rewrite in_app_iff in Hx. destruct Hx as [Hx|[<-|[]]]; [apply Mo; now apply A2|]. rewrite R. cbn [node_ref_of ref_eqb]. rewrite Nat.eqb_refl. discriminate.
  Qed.

  Lemma all_nodes_ok l : forall pre ns w rg, nodes = pre ++ l -> Inv ns (map n_id pre) w rg ->
    goes (fun w' rg' => Inv (ns ++ filter optimized l) (map n_id nodes) w' rg') (run_instructions s (flat_map (schedule_node s order cxg) l) w rg).
  Proof.
    induction l as [|n l IH]; intros pre ns w rg E I.
    - cbn. rewrite app_nil_r in *. now rewrite E.
    - cbn [flat_map]. assert (Hn : In n nodes) by (rewrite E, in_app_iff; right; now left). apply nodes_in in Hn as Hn'. destruct Hn' as [Hg Hl].
      assert (Cn : forall i, In i (schedule_node s order cxg n) -> forall c, In c (contexts_of i) -> In c C).
      { intros i Hi c Hc. apply (Cbig i c); [|exact Hc]. unfold schedule_nodes. rewrite in_app_iff. left. apply in_flat_map. eauto. }
      eapply goes_seq; [apply (node_ok ns (map n_id pre) w rg n I Hn)|].
      + intros r Hr. destruct (proj1 refs_ok n r Hg Hl Hr) as [H|[Av Ne]]; [now left|]. right.
        assert (Bs : based (map n_id pre) r).
        { unfold based. unfold available in Av. destruct (unwrap r) as [x m|i m|i|b a] eqn:Eu; try exact Av.
          assert (F : feeds g x (n_id n)). { exists n, r. split; [exact Hg|]. split; [reflexivity|]. split; [now apply call_refs_in|]. apply about_unwrap. eauto. }
          apply nodes_order in F; [|exact Hl]. destruct F as (l1 & l2 & l3 & F). rewrite E, map_app in F. cbn [map] in F.
          rewrite E, map_app in nodes_nodup. cbn [map] in nodes_nodup.
          assert (Ix : nth_error (map n_id pre ++ n_id n :: map n_id l) (length l1) = Some x) by (rewrite F, nth_error_app2 by lia; now rewrite Nat.sub_diag).
          assert (In' : nth_error (map n_id pre ++ n_id n :: map n_id l) (length l1 + S (length l2)) = Some (n_id n)).
          { rewrite F, nth_error_app2 by lia. replace (length l1 + S (length l2) - length l1) with (S (length l2)) by lia. cbn [nth_error]. rewrite nth_error_app2 by lia. now rewrite Nat.sub_diag. }
          assert (Jn : nth_error (map n_id pre ++ n_id n :: map n_id l) (length (map n_id pre)) = Some (n_id n)) by (rewrite nth_error_app2 by lia; now rewrite Nat.sub_diag).
          assert (Qn : length l1 + S (length l2) = length (map n_id pre)) by (apply (proj1 (NoDup_nth_error _) nodes_nodup); [now apply nth_error_Some_lt in In'|congruence]).
          rewrite nth_error_app1 in Ix by lia. now apply nth_error_In in Ix. }
        split; [exact Bs|]. intros Nr. unfold keys. unfold available in Av. destruct (unwrap r) as [x m|i m|i|b a] eqn:Eu; try destruct Av.
        * apply (Ne Nr). apply about_unwrap. eauto.
        * destruct C as [|c C']; [contradiction|]. exists c. now left.
      + intros c Hc. apply (Cn (CallModule (n_target n) (n_args n) (n_kwargs n) (node_ref_of n) (order (cx_of cxg (n_id n))))).
        * unfold schedule_node. rewrite !in_app_iff. do 3 right. now left.
        * cbn. now apply (Permutation_in _ (Permutation_sym (Po _))).
      + intros d c Dn Mm Hc. apply (Cn (OptimizeModule (n_target n) (n_args n) (n_kwargs n) d)); [|exact Hc]. unfold schedule_node. rewrite Dn, Mm, !in_app_iff. do 2 right. left. now left.
      + intros w1 rg1 I1. rewrite <- (app_nil_r [n_id n]) in I1. change ([n_id n] ++ []) with (map n_id [n]) in I1. rewrite <- map_app in I1.
        eapply goes_weaken; [|apply (IH (pre ++ [n]) (ns ++ opt_of n) w1 rg1); [now rewrite <- app_assoc|exact I1]]. intros w2 rg2. cbn [filter]. unfold opt_of.
        destruct (optimized n); rewrite <- ?app_assoc; cbn [app]; trivial; now rewrite ?app_nil_r.
  Qed.

  (** returning *)
  Lemma by_context_get c l : forall acc, aget Nat.eqb c (by_context (X:=X) l acc) =
    match map snd (filter (fun e => fst e =? c) l), aget Nat.eqb c acc with [], o => o | es, Some es0 => Some (es0 ++ es) | es, None => Some es end.
  Proof.
    induction l as [|[c' e] l IH]; intros acc; [reflexivity|]. cbn [by_context filter fst]. rewrite IH, nget_aset. destruct (Nat.eqb_spec c' c) as [->|D]; [|reflexivity]. cbn [map snd].
    destruct (map snd (filter _ l)) as [|e2 es]; destruct (aget Nat.eqb c acc); cbn [app]; try reflexivity. now rewrite <- app_assoc.
  Qed.
  Lemma filter_key c (l : list (nat * entry X)) e : NoDup (map fst l) -> In (c, e) l -> filter (fun e => fst e =? c) l = [(c, e)].
  Proof.
    induction l as [|[c' e'] l IH]; intros N H; [destruct H|]. cbn in N. inversion N as [|? ? N1 N2]; subst. cbn [filter fst]. destruct H as [[= -> ->]|H].
    - rewrite Nat.eqb_refl. f_equal. clear -N1. induction l as [|[c' e'] l IH]; [reflexivity|]. cbn [filter fst]. destruct (Nat.eqb_spec c' c) as [->|]; [exfalso; apply N1; now left|]. apply IH. intros H. apply N1. now right.
    - destruct (Nat.eqb_spec c' c) as [->|]; [exfalso; apply N1; now apply (in_map fst l (c, e))|now apply IH].
  Qed.
  Lemma merge_ok (ds : list (list (val X))) : ds <> [] -> match merge (map Data ds) with Ok o => returned_for ds o | Err e => e = ValueError /\ exists d d', In d ds /\ In d' ds /\ length d <> length d' end.
  Proof.
    intros Ne. destruct ds as [|d [|d2 ds]]; [contradiction|reflexivity|]. cbn [map merge]. set (es := Data d :: Data d2 :: map Data ds).
    assert (E : rmapM (fun e : entry X => match e with Data l => Ok l | AConst _ => Err TypeError end) es = Ok (d :: d2 :: ds)).
    { unfold es. change (Data d :: Data d2 :: map Data ds) with (map (@Data X) (d :: d2 :: ds)). generalize (d :: d2 :: ds). clear. induction l as [|a l IH]; [reflexivity|]. cbn [map].
      match goal with |- rmapM ?h (?x :: ?y) = _ => change (rmapM h (x :: y)) with (let? b := h x in let? bs := rmapM h y in Ok (b :: bs)) end. cbn [rbind]. now rewrite IH. }
    change (Data d :: Data d2 :: map Data ds) with es. fold es. rewrite E. cbn [rbind].
    destruct (forallb (fun d' => length d' =? length d) (d :: d2 :: ds)) eqn:F; cycle 1.
    { split; [reflexivity|]. assert (Z : exists x, In x (d :: d2 :: ds) /\ (length x =? length d) = false).
      { clear -F. revert F. generalize (d :: d2 :: ds). induction l as [|x l IH]; cbn [forallb]; [discriminate|]. destruct (length x =? length d) eqn:Ex; [|intros _; exists x; split; [now left|exact Ex]]. cbn [andb]. intros H. destruct (IH H) as (y & H1 & H2). exists y. split; [now right|exact H2]. }
      destruct Z as (x & Hx & Ex). exists x, d. split; [exact Hx|]. split; [now left|]. now apply Nat.eqb_neq. }
    rewrite forallb_forall in F.
    set (all := d :: d2 :: ds) in *. cbn [returned_for]. eexists. split; [reflexivity|]. rewrite map_length, seq_length. split; [intros x Hx; apply F in Hx; now apply Nat.eqb_eq|].
    intros i row Hi. assert (Li : i < length d). { apply nth_error_Some_lt in Hi. now rewrite map_length, seq_length in Hi. }
    assert (Si : nth_error (seq 0 (length d)) i = Some i). { rewrite (nth_error_nth' _ 0) by now rewrite seq_length. now rewrite seq_nth. }
    rewrite (map_nth_error _ _ _ Si) in Hi. injection Hi as <-. 
    assert (Gen : forall l, (forall x, In x l -> (length x =? length d) = true) -> Forall2 (fun d0 v => nth_error d0 i = Some v) l (flat_map (fun d' : list (val X) => match nth_error d' i with Some v => [v] | None => [] end) l)).
    { clear -Li. induction l as [|x l IH]; intros F; [constructor|]. cbn [flat_map].
      assert (Lx : length x = length d) by (apply Nat.eqb_eq, F; now left). destruct (nth_error_lt_some x i) as [v Hv]; [lia|]. rewrite Hv. cbn [app]. constructor; [exact Hv|]. apply IH. intros y Hy. apply F. now right. }
    exact (Gen all F).
  Qed.
  Lemma return_ok ns w rg os : Inv ns (map n_id nodes) w rg -> os <> [] -> (forall o, In o os -> rget o rg <> None /\ exists x, about o x /\ wanted g default_context x) ->
    fst (exec s (ReturnOutputs os) w rg) = w /\
    match snd (exec s (ReturnOutputs os) w rg) with
    | Ok (rg', Some out) => exists ds o, Forall2 (M default_context) os ds /\ aget Nat.eqb default_context out = Some o /\ returned_for ds o
    | Ok (_, None) => False
    | Err e => e = ValueError /\ exists c o o' d d', In o os /\ In o' os /\ M c o d /\ M c o' d' /\ length d <> length d'
    end.
  Proof.
    intros I Ne H. cbn [exec fst snd]. split; [reflexivity|].
    destruct (rmapM_f2 (fun r => items_for r rg) (fun r l => rget r rg = Some l) os) as (ls & El & Fl).
    { intros o Ho. destruct (H o Ho) as [P _]. unfold items_for. destruct (rget o rg) as [l|]; [eauto|contradiction]. }
    rewrite El. cbn [rbind].
    assert (Ds : exists ds, Forall2 (M default_context) os ds /\ map snd (filter (fun e => fst e =? default_context) (concat ls)) = map Data ds).
    { clear El Ne. induction Fl as [|o l os ls E Fl IH]; [exists []; split; [constructor|reflexivity]|].
      destruct IH as (ds & F & Em); [intros o' Ho; apply H; now right|]. destruct (H o (or_introl eq_refl)) as (_ & x & Ab & Wx). apply about_unwrap in Ab. destruct Ab as (nm & Eu).
      destruct (inv_sound _ _ _ _ I o l E) as (N & K & V); [now rewrite Eu|]. assert (Kd : keys o default_context) by (unfold keys; rewrite Eu; exact Wx).
      apply K in Kd. apply in_map_iff in Kd. destruct Kd as ([c e] & Ec & Hin). cbn in Ec. subst c. destruct (V _ _ Hin) as (d & -> & Hm).
      exists (d :: ds). split; [now constructor|]. cbn [concat]. rewrite filter_app, map_app, Em, (filter_key _ _ _ N Hin). reflexivity. }
    destruct Ds as (ds & F & Em).
    assert (Dn : ds <> []) by (intros ->; inversion F; subst; contradiction).
    assert (Gc := by_context_get default_context (concat ls) []). rewrite Em in Gc. cbn [aget] in Gc.
    assert (Gc' : aget Nat.eqb default_context (by_context (concat ls) []) = Some (map Data ds)) by (rewrite Gc; destruct ds; [contradiction|reflexivity]). clear Gc.
    (* every context has data *)
    assert (AllData : forall c e, In (c, e) (concat ls) -> exists d, e = Data d /\ exists o, In o os /\ M c o d).
    { intros c e Hin. apply in_concat in Hin. destruct Hin as (l & Hl & Hin). clear -Fl Hl Hin I H. induction Fl as [|o l0 os ls E Fl IH]; [destruct Hl|]. destruct Hl as [->|Hl].
      - destruct (H o (or_introl eq_refl)) as (_ & x & Ab & _). apply about_unwrap in Ab. destruct Ab as (nm & Eu).
        destruct (inv_sound _ _ _ _ I o l E) as (_ & _ & V); [now rewrite Eu|]. destruct (V _ _ Hin) as (d & -> & Hm). exists d. split; [reflexivity|]. exists o. split; [now left|exact Hm].
      - destruct IH as (d & -> & o' & Ho & Hm); [intros o' Ho; apply H; now right|exact Hl|]. exists d. split; [reflexivity|]. exists o'. split; [now right|exact Hm]. }
    assert (Bd : forall l acc, (forall c es, In (c, es) acc -> es <> []) -> forall c es, In (c, es) (by_context (X:=X) l acc) -> es <> [] /\ forall e, In e es -> In (c, e) l \/ exists es0, In (c, es0) acc /\ In e es0).
    { clear. induction l as [|[c' e'] l IH]; intros acc Ha c es Hin; [split; [exact (Ha c es Hin)|]; intros e He; right; eauto|]. cbn [by_context] in Hin.
      apply IH in Hin.
      - destruct Hin as [Hn Hin]. split; [exact Hn|]. intros e He. destruct (Hin e He) as [H1|(es0 & H1 & H2)]; [left; now right|]. apply aset_in in H1. destruct H1 as [[= -> ->]|H1]; [|right; eauto].
        rewrite in_app_iff in H2. destruct H2 as [H2|[<-|[]]]; [|left; now left]. destruct (aget Nat.eqb c' acc) as [es1|] eqn:E1; [|destruct H2]. apply nget_in in E1. right. eauto.
      - intros c2 es2 H2. apply aset_in in H2. destruct H2 as [[= -> ->]|H2]; [|now apply (Ha c2)]. now destruct (match aget Nat.eqb c' acc with Some es => es | None => [] end). }
    assert (Bd' : forall c es, In (c, es) (by_context (X:=X) (concat ls) []) -> es <> [] /\ forall e, In e es -> exists d, e = Data d /\ exists o, In o os /\ M c o d).
    { intros c es Hin. destruct (Bd (concat ls) [] (fun c es H => match H with end) c es Hin) as [H1 H2]. split; [exact H1|]. intros e He. destruct (H2 e He) as [Hc|(es0 & [] & _)]. now apply AllData. }
    assert (Dt : forall c (es : list (entry X)), (forall e, In e es -> exists d, e = Data d /\ exists o, In o os /\ M c o d) -> exists ds, es = map Data ds /\ forall d, In d ds -> exists o, In o os /\ M c o d).
    { clear. induction es as [|e es IH]; intros H; [exists []; split; [reflexivity|intros d []]|]. destruct (H e (or_introl eq_refl)) as (d & -> & Ho). destruct IH as (ds & -> & Hd); [intros x Hx; apply H; now right|]. exists (d :: ds). split; [reflexivity|]. intros d' [<-|H']; [exact Ho|now apply Hd]. }
    destruct (rmapM (fun ce => let? v := merge (snd ce) in Ok (fst ce, v)) (by_context (concat ls) [])) as [out|e] eqn:Er; cbn [rbind].
    - destruct (fst_map_rmapM _ _ _ Er) as [_ A]. specialize (A default_context). rewrite Gc' in A. destruct A as (o & Eo & Ao). exists ds, o. split; [exact F|]. split; [exact Ao|].
      pose proof (merge_ok ds Dn) as Mk. rewrite Eo in Mk. exact Mk.
    - apply rmapM_err in Er. destruct Er as ([c es] & Hin & Ee). cbn [fst snd] in Ee. destruct (Bd' c es Hin) as [Ne' Ad]. destruct (Dt c es Ad) as (ds' & -> & Hd).
      assert (Dn' : ds' <> []) by (intros ->; now apply Ne'). pose proof (merge_ok ds' Dn') as Mk. destruct (merge (map Data ds')) as [v|e']; [discriminate|]. cbn [rbind] in Ee. injection Ee as ->. destruct Mk as (-> & d & d' & H1 & H2 & H3). split; [reflexivity|].
      destruct (Hd d H1) as (o & Ho & Hm), (Hd d' H2) as (o' & Ho' & Hm'). exists c, o, o', d, d'. auto.
  Qed.

  Theorem schedule_run w rg : Inv [] [] w rg ->
    match run_instructions s (schedule_nodes s order g nodes) w rg with
    | (w', Ok (_, None)) => g_outputs g = [] /\ Q (filter optimized nodes) (w_user w') /\ w_place w' = pl0
    | (w', Ok (_, Some out)) => Q (filter optimized nodes) (w_user w') /\ w_place w' = pl0 /\
        exists ds o, Forall2 (M default_context) (g_outputs g) ds /\ aget Nat.eqb default_context out = Some o /\ returned_for ds o
    | (_, Err e) => bad e
    end.
  Proof.
    intros I. unfold schedule_nodes. rewrite run_app. pose proof (all_nodes_ok nodes [] [] w rg eq_refl I) as H. cbn [app] in H. unfold goes in H.
    destruct (run_instructions s (flat_map (schedule_node s order cxg) nodes) w rg) as [w1 [[rg1 [o|]]|e]]; cbn [fst snd] in H; [destruct H| |exact H].
    destruct (g_outputs g) as [|o0 os0] eqn:Eo.
    - cbn. split; [reflexivity|]. split; [exact (inv_user _ _ _ _ H)|exact (inv_place _ _ _ _ H)].
    - rewrite <- Eo in *. assert (Ne : g_outputs g <> []) by congruence. clear Eo o0 os0. rewrite run_app.
      assert (Ho : forall o, In o (g_outputs g) -> exists x, about o x /\ wanted g default_context x /\ In x (map n_id nodes)).
      { intros o Ho. destruct (proj2 refs_ok o Ho) as (x & Ab & Lx). exists x. split; [exact Ab|]. split; [now apply (want_output g o)|]. destruct Lx as [L1 L2]. unfold node_in in L1. apply in_map_iff in L1. destruct L1 as (n & <- & Hn).
        apply in_map. apply nodes_in. split; [exact Hn|]. split; [now apply in_map|exact L2]. }
      pose proof (sched_refs_ok (g_outputs g) _ _ w1 rg1 H) as G. unfold goes in G.
      destruct (run_instructions s (flat_map schedule_ref (g_outputs g)) w1 rg1) as [w2 [[rg2 [o|]]|e]]; cbn [fst snd] in G.
      + destruct G. intros o' Ho'. destruct (Ho o' Ho') as (x & Ab & Wx & Ix). right. apply about_unwrap in Ab. destruct Ab as (nm & Eu). split; [unfold based; now rewrite Eu|]. intros _. exists default_context. unfold keys. now rewrite Eu.
      + destruct G as (-> & I2 & _ & Rd).
        { intros o' Ho'. destruct (Ho o' Ho') as (x & Ab & Wx & Ix). right. apply about_unwrap in Ab. destruct Ab as (nm & Eu). split; [unfold based; now rewrite Eu|]. intros _. exists default_context. unfold keys. now rewrite Eu. }
        destruct (return_ok _ w1 rg2 (g_outputs g) I2 Ne) as [R1 R2].
        { intros o Hin. destruct (Ho o Hin) as (x & Ab & Wx & _). split; [|eauto]. destruct (Rd o Hin) as [(i & ->)|[_ P]]; [inversion Ab|]. apply P. exists default_context. unfold keys. apply about_unwrap in Ab. destruct Ab as (nm & ->). exact Wx. }
        cbn [run_instructions]. destruct (exec s (ReturnOutputs (g_outputs g)) w1 rg2) as [w3 [[rg3 [out|]]|e]]; cbn [fst snd] in R1, R2.
        * subst w3. split; [exact (inv_user _ _ _ _ I2)|]. split; [exact (inv_place _ _ _ _ I2)|exact R2].
        * destruct R2.
        * left. destruct R2 as [-> R2]. split; [reflexivity|]. now right.
      + apply G. intros o' Ho'. destruct (Ho o' Ho') as (x & Ab & Wx & Ix). right. apply about_unwrap in Ab. destruct Ab as (nm & Eu). split; [unfold based; now rewrite Eu|]. intros _. exists default_context. unfold keys. now rewrite Eu.
  Qed.
End Sched.
