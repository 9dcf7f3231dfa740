(** Delegates of the reduced graph; regions that can be computed in one go. *)
From Coq Require Import String Ascii DecimalString DecimalZ Relations Permutation.
From Verif Require Import Prelude GraphModel GraphSpec GraphProofs EngineModel EngineSpec EngineOptProofs EngineSchedProofs CoarseModel CoarseSpec CoarseValueProofs CoarseBaseProofs CoarseSubProofs CoarseProofs CoarseSuccessProofs CoarseTotalProofs.
Local Open Scope nat_scope.
Local Open Scope list_scope.

Lemma list_max_in l x : In x l -> x <= list_max l.
Proof. intros H. assert (K := proj1 (list_max_le l (list_max l)) (le_n _)). rewrite Forall_forall in K. now apply K. Qed.

Lemma resolve_all_targets ord ord' g : forall specs k seen0 targets subs ts, resolve_all ord ord' g k specs seen0 = Ok (targets, subs, ts) ->
  length ts = length specs /\ NoDup ts /\ forall t, In t ts -> (exists n, node_of_target g t = Ok n /\ ~ In (n_id n) seen0) \/ first_free g + k <= t.
Proof.
  induction specs as [|sp specs IH]; intros k seen0 targets subs ts E; cbn [resolve_all] in E.
  - injection E as <- <- <-. repeat split; [constructor|intros ? []].
  - destruct (resolve_spec ord ord' g sp) as [[nodes sub]|] eqn:Er; [|discriminate]. cbn [rbind] in E. destruct (existsb _ nodes) eqn:Ex; [discriminate|].
    assert (Ne : forall x, In x nodes -> ~ In x seen0). { intros x Hx I. assert (existsb (fun x => nmem x seen0) nodes = true) by (apply existsb_exists; exists x; split; [exact Hx|now apply nmem_in]). congruence. }
    assert (Bd : forall t n, node_of_target g t = Ok n -> t < first_free g).
    { intros t n H. unfold node_of_target in H. destruct (find _ _) as [m|] eqn:F; [|discriminate]. injection H as ->. apply find_some in F. destruct F as [Hn Et]. apply Nat.eqb_eq in Et. unfold first_free. assert (L := list_max_in _ _ (in_map n_target _ _ Hn)). lia. }
    destruct sub as [sg|].
    + destruct (resolve_all ord ord' g (S k) specs (seen0 ++ nodes)) as [[[t1 s1] ts1]|] eqn:Ea; [|discriminate]. cbn [rbind] in E. injection E as <- <- <-. destruct (IH _ _ _ _ _ Ea) as (I0 & I1 & I2).
      split; [cbn; now rewrite I0|]. split.
      * constructor; [|exact I1]. intros H. destruct (I2 _ H) as [(n & En & _)|L]; [apply Bd in En; unfold first_free in *; lia|unfold first_free in *; lia].
      * intros t [<-|H]; [right; unfold first_free; lia|]. destruct (I2 t H) as [(n & En & N)|L]; [left; exists n; split; [exact En|]; intros I; apply N; apply in_app_iff; now left|right; lia].
    + destruct (resolve_all ord ord' g k specs (seen0 ++ nodes)) as [[[t1 s1] ts1]|] eqn:Ea; [|discriminate]. cbn [rbind] in E. injection E as <- <- <-. destruct (IH _ _ _ _ _ Ea) as (I0 & I1 & I2).
      assert (Hm : exists t n, s_region sp = RModule t /\ node_of_target g t = Ok n /\ nodes = [n_id n]).
      { unfold resolve_spec in Er. destruct (s_region sp) as [t|a b|l].
        - destruct (node_of_target g t) as [n|] eqn:En; [|discriminate]. cbn [rbind] in Er. injection Er as <-. now exists t, n.
        - destruct (node_of_target g a); [|discriminate]. destruct (node_of_target g b); [|discriminate]. cbn [rbind] in Er. destruct (ancestors _ _ _ _ _) as [[path reached]|]; [|discriminate]. cbn [rbind] in Er. destruct reached; [|discriminate]. cbn [negb] in Er.
          destruct (create_subgraph ord ord' g path); discriminate.
        - destruct (rmapM _ l); [|discriminate]. cbn [rbind] in Er. destruct (siblings _ _); [|discriminate]. destruct (create_subgraph _ _ _ _); discriminate. }
      destruct Hm as (t & n & Et & En & ->). rewrite Et. split; [cbn; now rewrite I0|]. split.
      * constructor; [|exact I1]. intros H. destruct (I2 _ H) as [(n' & En' & N)|L].
        -- rewrite En in En'. injection En' as <-. apply N. apply in_app_iff. right. now left.
        -- apply Bd in En. lia.
      * intros t' [<-|H]; [left; exists n; split; [exact En|]; apply Ne; now left|]. destruct (I2 t' H) as [(n' & En' & N)|L]; [left; exists n'; split; [exact En'|]; intros I; apply N; apply in_app_iff; now left|right; lia].
Qed.

Lemma set_delegate_spec t d l : forall l', set_delegate t d l = Ok l' -> (exists n, In n l' /\ n_target n = t /\ n_delegate n = Some d) /\ (forall n, In n l -> n_target n <> t -> In n l') /\ (forall n, In n l' -> n_target n <> t -> In n l).
Proof.
  induction l as [|n l IH]; intros l' E; [discriminate|]. cbn [set_delegate] in E. destruct (Nat.eqb_spec (n_target n) t) as [Et|Et].
  - injection E as <-. split; [eexists; split; [now left|split; [exact Et|reflexivity]]|]. split.
    + intros m [->|H] N; [contradiction|now right].
    + intros m [<-|H] N; [now cbn in N|now right].
  - destruct (set_delegate t d l) as [l1|] eqn:E1; [|discriminate]. injection E as <-. destruct (IH l1 eq_refl) as ((m & Hm & M) & I1 & I2). split; [exists m; split; [now right|exact M]|]. split.
    + intros x [->|H] N; [now left|right; now apply I1].
    + intros x [->|H] N; [now left|right; now apply I2].
Qed.
Lemma delegates_spec : forall ts (specs : list subgraph_spec) nodes nodes', NoDup ts -> length ts = length specs ->
  rfold (fun l e => set_delegate (fst e) (s_delegate (snd e)) l) (combine ts specs) nodes = Ok nodes' ->
  Forall2 (fun sp t => exists n, In n nodes' /\ n_target n = t /\ n_delegate n = Some (s_delegate sp)) specs ts /\ (forall n, In n nodes -> ~ In (n_target n) ts -> In n nodes') /\ (forall n, In n nodes' -> ~ In (n_target n) ts -> In n nodes).
Proof.
  induction ts as [|t ts IH]; intros [|sp specs] nodes nodes' N L E; try discriminate; cbn [combine] in E.
  - injection E as <-. split; [constructor|]. now split.
  - rewrite rfold_cons in E. cbn [fst snd] in E. destruct (set_delegate t (s_delegate sp) nodes) as [n1|] eqn:E1; [|discriminate]. cbn [rbind] in E. inversion N as [|? ? Nt Nts]; subst. injection L as L.
    destruct (IH specs n1 nodes' Nts L E) as (F & I1 & I2). destruct (set_delegate_spec t (s_delegate sp) nodes n1 E1) as ((m & Hm & Em & Dm) & J1 & J2). split; [|split].
    + constructor; [|exact F]. exists m. split; [apply I1; [exact Hm|now rewrite Em]|now split].
    + intros n Hn Nn. apply I1; [apply J1; [exact Hn|intros K; apply Nn; now left]|intros K; apply Nn; now right].
    + intros n Hn Nn. apply J2; [apply I2; [exact Hn|intros K; apply Nn; now right]|intros K; apply Nn; now left].
Qed.

Lemma place_no_delegate g us : forall cx nodes cx' nodes', (forall n, In n nodes -> n_delegate n = None) -> rfold (place g) us (cx, nodes) = Ok (cx', nodes') -> forall n, In n nodes' -> n_delegate n = None.
Proof.
  induction us as [|u us IH]; intros cx nodes cx' nodes' N E; [injection E as <- <-; exact N|]. rewrite rfold_cons in E. destruct (place g (cx, nodes) u) as [[cx1 n1]|] eqn:Ep; [|discriminate]. cbn [rbind] in E.
  refine (IH cx1 n1 cx' nodes' _ E). assert (H : exists n, n1 = nodes ++ [n] /\ n_delegate n = None).
  { destruct u as [i|k sub]; cbn [place] in Ep.
    - destruct (get_node g i) as [n|]; [|discriminate]. destruct (remap_args cx [] "" (n_args n)) as [a|]; [|discriminate]. cbn [rbind] in Ep. destruct (remap_kwargs cx [] "" (n_kwargs n)) as [kw|]; [|discriminate]. cbn [rbind] in Ep.
      injection Ep as <- <-. eexists. split; reflexivity.
    - destruct (rmapM _ _) as [a|] in Ep; [|discriminate]. cbn [rbind] in Ep. injection Ep as <- <-. eexists. split; reflexivity. }
  destruct H as (n & -> & Dn). intros m Hm. apply in_app_iff in Hm. destruct Hm as [Hm|[<-|[]]]; [now apply N|exact Dn].
Qed.

Lemma reduce_delegates ord ord' g specs g' subs ts : reduce_resolution ord ord' g specs = Ok (g', subs, ts) ->
  NoDup ts /\ Forall2 (fun sp t => exists n, In n (g_nodes g') /\ n_target n = t /\ n_delegate n = Some (s_delegate sp)) specs ts /\
  (forall n, In n (g_nodes g') -> ~ In (n_target n) ts -> n_delegate n = None).
Proof.
  unfold reduce_resolution. destruct (resolve_all ord ord' g 0 specs []) as [[[targets sb] ts0]|] eqn:Ea; [|discriminate]. cbn [rbind].
  destruct (coarse_complement g targets) as [comp|]; [|discriminate]. cbn [rbind]. destruct (node_order _ _) as [order|]; [|discriminate]. cbn [rbind].
  destruct (rfold (place g) order _) as [[cx nodes]|] eqn:Ep; [|discriminate]. cbn [rbind]. destruct (remap_args _ _ _ _) as [outs|]; [|discriminate]. cbn [rbind]. destruct (existsb _ outs); [discriminate|].
  destruct (rfold _ (combine ts0 specs) nodes) as [nodes'|] eqn:Ed; [|discriminate]. cbn [rbind]. intros H. injection H as <- _ <-.
  destruct (resolve_all_targets ord ord' g specs 0 [] targets sb ts0 Ea) as (L & N & _). destruct (delegates_spec ts0 specs nodes nodes' N L Ed) as (F & _ & I2). split; [exact N|]. split; [exact F|].
  intros n Hn Nn. exact (place_no_delegate g order _ [] cx nodes (fun _ K => match K with end) Ep n (I2 n Hn Nn)).
Qed.

(** ** Regions *)
Lemma span_orderly g P b : tidy g -> (forall x, In x P -> clos_refl_trans nat (feeds g) x b) -> (forall x, seen g P x <-> x = b) -> orderly g (fun x => In x P) (seen g P).
Proof.
  intros T R S. split; [exists b; now apply S|]. split.
  - intros x Hx. exists b. split; [now apply S|now apply R].
  - intros e x y He Hx Ly Ny F. apply S in He. subst e. assert (x = b) as <-; [|now constructor]. apply S. split; [exact Hx|]. split; [exact (feeds_leaf g T x y F)|]. left. exists y. split; [exact (proj1 Ly)|]. now split.
Qed.
Lemma group_orderly g P z : tidy g -> node_in g z -> ~ In z P -> (exists x, In x P) -> (forall x, In x P -> feeds g x z) -> (forall x x' y, In x P -> In x' P -> feeds g x y -> feeds g x' y) -> orderly g (fun x => In x P) (seen g P).
Proof.
  intros T Nz Pz [x0 H0] Rd Sib. assert (Sn : forall x, In x P -> seen g P x).
  { intros x Hx. split; [exact Hx|]. split; [exact (feeds_leaf g T x z (Rd x Hx))|]. left. exists z. split; [exact Nz|]. split; [exact Pz|now apply Rd]. }
  split; [exists x0; now apply Sn|]. split.
  - intros x Hx. exists x. split; [now apply Sn|apply rt_refl].
  - intros e x y He Hx _ _ F. constructor. exact (Sib x e y Hx (proj1 He) F).
Qed.
