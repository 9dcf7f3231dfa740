(** Building graphs: which calls are accepted, and what holds of every graph built. *)
From Coq Require Import String Ascii Relations.
From Verif Require Import Prelude GraphModel GraphSpec GraphProofs EngineModel EngineSpec EngineOptProofs CoarseModel CoarseSpec CoarseValueProofs CoarseBaseProofs BuildModel BuildSpec BuildProofs.
Local Open Scope nat_scope.
Local Open Scope list_scope.

(** ** Acceptance *)
Lemma remap_total_in cx sub name r : (forall k i, In (k, i) (g_inputs sub) -> exists r, cget k cx = Some r) -> well_named sub r -> exists r', remap cx (map n_name (g_nodes sub)) name r = Ok r'.
Proof.
  intros H W. induction W as [n Hn _|k i Hi|i|b a W [b' IH]]; cbn [remap].
  - assert (S : smem (n_name n) (map n_name (g_nodes sub)) = true) by (apply smem_in; now apply in_map). rewrite S. eauto.
  - destruct (H k i Hi) as [r Hr]. unfold clookup. rewrite Hr. eauto.
  - eauto.
  - destruct (match _ with Some k => cget k cx | None => None end); [eauto|]. rewrite IH. cbn [rbind]. eauto.
Qed.
Lemma rmapM_total {A B} (f : A -> result B) l : (forall a, In a l -> exists b, f a = Ok b) -> exists l', rmapM f l = Ok l'.
Proof.
  induction l as [|a l IH]; intros H; cbn [rmapM]; [eauto|]. destruct (H a (or_introl eq_refl)) as [b ->]. cbn [rbind]. destruct IH as [l' ->]; [intros x Hx; apply H; now right|]. cbn [rbind]. eauto.
Qed.
Lemma inline_nodes_total cx sub name fold folds : tidy sub -> (forall k i, In (k, i) (g_inputs sub) -> exists r, cget k cx = Some r) ->
  forall l g, (forall n, In n l -> In n (g_nodes sub)) -> NoDup (map n_id l) -> (forall n, In n l -> ~ In (n_id n) (ids_of g)) -> exists g', inline_nodes cx (map n_name (g_nodes sub)) name fold folds g l = (g', Ok tt).
Proof.
  intros Ts Hb l. induction l as [|n l IH]; intros g Hs N D; cbn [inline_nodes]; [eauto|]. unfold inline_node. assert (Hn := Hs n (or_introl eq_refl)). inversion N as [|? ? Nn N']; subst.
  destruct (rmapM_total (remap cx (map n_name (g_nodes sub)) name) (n_args n)) as [a Ea]. { intros r Hr. apply remap_total_in; [exact Hb|]. apply (tidy_refs sub Ts n); [exact Hn|]. unfold call_refs. apply in_app_iff. now left. }
  unfold remap_args. rewrite Ea. cbn [rbind].
  destruct (rmapM_total (fun e => let? r := remap cx (map n_name (g_nodes sub)) name (snd e) in Ok (fst e, r)) (n_kwargs n)) as [k Ek].
  { intros [x r] Hr. destruct (remap_total_in cx sub name r Hb) as [r' Er]; [apply (tidy_refs sub Ts n); [exact Hn|]; unfold call_refs; apply in_app_iff; right; apply in_map_iff; now exists (x, r)|]. cbn [fst snd]. rewrite Er. cbn [rbind]. eauto. }
  unfold remap_kwargs. rewrite Ek. cbn [rbind]. unfold add_node. cbn [n_id]. destruct (has_id g (n_id n)) eqn:Eh; [apply has_id_in in Eh; destruct (D n (or_introl eq_refl) Eh)|]. cbn [rbind].
  apply IH; [intros x Hx; apply Hs; now right|exact N'|]. intros m Hm. assert (K : n_id m <> n_id n) by (intros K; apply Nn; rewrite <- K; now apply in_map). assert (D' := D m (or_intror Hm)).
  destruct (nmem (n_id n) folds); unfold ids_of in *; cbn; rewrite map_app, in_app_iff; cbn; intros [C|[C|[]]]; congruence || contradiction.
Qed.
Lemma inline_nodes_new cx internal name fold folds : forall l g g', inline_nodes cx internal name fold folds g l = (g', Ok tt) -> forall n, In n l -> ~ In (n_id n) (ids_of g).
Proof.
  induction l as [|n l IH]; intros g g' E m Hm; [destruct Hm|]. cbn [inline_nodes] in E. destruct (inline_node _ _ _ _ _ g n) as [g1|] eqn:E1; [|discriminate]. unfold inline_node in E1.
  destruct (remap_args cx internal name (n_args n)); [|discriminate]. cbn [rbind] in E1. destruct (remap_kwargs cx internal name (n_kwargs n)); [|discriminate]. cbn [rbind] in E1.
  unfold add_node in E1. cbn [n_id] in E1. destruct (has_id g (n_id n)) eqn:Eh; [discriminate|]. cbn [rbind] in E1. destruct Hm as [<-|Hm].
  - intros C. apply has_id_in in C. congruence.
  - assert (K := IH _ _ E m Hm). intros C. apply K. destruct (nmem _ _); injection E1 as <-; unfold ids_of in *; cbn; rewrite map_app; apply in_app_iff; now left.
Qed.
Lemma filter_split_NoDup {A} (p : A -> bool) (h : A -> nat) l : NoDup (map h l) -> NoDup (map h (filter p l ++ filter (fun x => negb (p x)) l)).
Proof.
  intros N. rewrite map_app. apply NoDup_app_intro.
  - induction l as [|a l IH]; [constructor|]. inversion N as [|? ? Na N']; subst. cbn. destruct (p a); [|now apply IH]. cbn. constructor; [|now apply IH]. intros C. apply Na. apply in_map_iff in C. destruct C as (x & <- & C). apply filter_In in C. now apply in_map.
  - induction l as [|a l IH]; [constructor|]. inversion N as [|? ? Na N']; subst. cbn. destruct (p a); cbn; [now apply IH|]. constructor; [|now apply IH]. intros C. apply Na. apply in_map_iff in C. destruct C as (x & <- & C). apply filter_In in C. now apply in_map.
  - intros y Hy Hy'. apply in_map_iff in Hy, Hy'. destruct Hy as (a & <- & Ha), Hy' as (b & Eb & Hb). apply filter_In in Ha, Hb. destruct Ha as [Ha Pa], Hb as [Hb Pb].
    assert (a = b) as ->; [|rewrite Pa in Pb; discriminate]. clear -N Ha Hb Eb. induction l as [|x l IH]; [destruct Ha|]. inversion N as [|? ? Nx N']; subst. destruct Ha as [->|Ha], Hb as [->|Hb]; try reflexivity.
    + destruct Nx. rewrite <- Eb. now apply in_map.
    + destruct Nx. rewrite Eb. now apply in_map.
    + now apply IH.
Qed.

Lemma subgraph_accepted g fid name sub args kwargs original : tidy sub -> NoDup (map fst kwargs) ->
  (exists g' outs, add_subgraph g fid name sub args kwargs original = (g', Ok outs)) <->
  g_outputs sub <> [] /\ call_ok (map fst (g_inputs sub)) args kwargs /\ forall x, In x (ids_of sub) -> ~ In x (ids_of g) /\ (original <> None -> x <> fid).
Proof.
  intros Ts Nk. assert (Nn : NoDup (map fst (g_inputs sub))) by exact (NoDup_r _ _ (tidy_names sub Ts)). split.
  - intros (g' & outs & E). assert (E0 := E). destruct (add_subgraph_inv _ _ _ _ _ _ _ _ _ Nn E) as (cx & l' & Eb & El & _).
    split; [intros C; unfold add_subgraph in E; rewrite C in E; discriminate|]. split; [apply call_checks; [exact Nn|exact Nk|eauto]|].
    unfold add_subgraph in E0. destruct (g_outputs sub); [discriminate|]. destruct (_ =? _); [|discriminate]. cbn [negb] in E0. rewrite Eb in E0. destruct (fold_args _ args kwargs cx Nn Eb El) as [F1 F2].
    fold (sorted_nodes sub) in E0. intros x Hx. apply in_map_iff in Hx. destruct Hx as (n & <- & Hn). apply sorted_in in Hn. destruct original as [t|].
    + rewrite F1 in E0. cbn [rbind] in E0. rewrite F2 in E0. cbn [rbind] in E0. destruct (inline_nodes _ _ _ _ _ _ _) as [g2 [[]|]] eqn:Ei; [|discriminate]. assert (K := inline_nodes_new _ _ _ _ _ _ _ _ Ei n Hn).
      unfold ids_of in *. cbn in K. rewrite map_app, in_app_iff in K. cbn in K. split; [tauto|]. intros _ C. apply K. right. left. now symmetry.
    + destruct (inline_nodes _ _ _ _ _ _ _) as [g2 [[]|]] eqn:Ei; [|discriminate]. split; [exact (inline_nodes_new _ _ _ _ _ _ _ _ Ei n Hn)|]. intros C. now destruct C.
  - intros (Ho & Hc & Hd). apply (call_checks _ _ _ Nn Nk) in Hc. destruct Hc as (El & cx & Eb). assert (Bx := bound_cx _ _ _ _ Nn Eb). destruct (fold_args _ args kwargs cx Nn Eb El) as [F1 F2].
    assert (Hb : forall k i, In (k, i) (g_inputs sub) -> exists r, cget k cx = Some r).
    { intros k i Hi. assert (C : call_ok (map fst (g_inputs sub)) args kwargs) by (apply call_checks; eauto). destruct C as (_ & _ & C). assert (Hk : In k (map fst (g_inputs sub))) by (apply in_map_iff; now exists (k, i)).
      apply In_nth_error in Hk. destruct Hk as (j & Ej). destruct (Nat.lt_ge_cases j (length args)) as [L|L].
      - apply nth_error_Some in L. destruct (nth_error args j) as [r|] eqn:Er; [|congruence]. exists r. apply Bx. left. eauto.
      - destruct (C j k Ej L) as (v & Hv). exists v. apply Bx. now right. }
    assert (Eo : exists outs, remap_args cx (map n_name (g_nodes sub)) name (g_outputs sub) = Ok outs). { apply rmapM_total. intros r Hr. apply remap_total_in; [exact Hb|]. exact (proj1 (tidy_outputs sub Ts r Hr)). }
    destruct Eo as (outs & Eo). assert (Ns : NoDup (map n_id (sorted_nodes sub))) by (apply filter_split_NoDup; exact (tidy_ids sub Ts)).
    unfold add_subgraph. destruct (g_outputs sub) as [|o os] eqn:Eq; [contradiction|]. rewrite map_length in El. apply Nat.eqb_eq in El. rewrite El. cbn [negb]. rewrite Eb. fold (sorted_nodes sub). destruct original as [t|].
    + rewrite F1. cbn [rbind]. rewrite F2. cbn [rbind].
      destruct (inline_nodes_total cx sub name (Some fid) (g_folds sub) Ts Hb (sorted_nodes sub) (mkGraph (g_nodes g ++ [mkNode fid name t args TorchModule kwargs None None]) (g_inputs g) (g_outputs g) (g_folds g ++ [fid]))) as (g2 & ->).
      * intros n Hn. now apply sorted_in.
      * exact Ns.
      * intros n Hn. apply sorted_in in Hn. assert (Hx : In (n_id n) (ids_of sub)) by now apply in_map. destruct (Hd _ Hx) as [D1 D2]. unfold ids_of in *. cbn. rewrite map_app, in_app_iff. cbn. intros [C|[C|[]]]; [contradiction|]. apply D2; [discriminate|now symmetry].
      * rewrite Eo. eauto.
    + destruct (inline_nodes_total cx sub name None (g_folds sub) Ts Hb (sorted_nodes sub) g) as (g2 & ->).
      * intros n Hn. now apply sorted_in.
      * exact Ns.
      * intros n Hn. apply sorted_in in Hn. apply Hd. now apply in_map.
      * rewrite Eo. eauto.
Qed.
(** no outputs, or arguments that do not fit: rejected, nothing changes *)
Lemma subgraph_rejected g fid name sub args kwargs original : NoDup (map fst (g_inputs sub)) -> NoDup (map fst kwargs) ->
  g_outputs sub = [] \/ ~ call_ok (map fst (g_inputs sub)) args kwargs -> add_subgraph g fid name sub args kwargs original = (g, Err ValueError).
Proof.
  intros Nn Nk H. unfold add_subgraph. destruct (g_outputs sub) as [|o os]; [reflexivity|]. destruct H as [H|H]; [discriminate|]. destruct (_ =? _) eqn:El; [|reflexivity]. cbn [negb]. apply Nat.eqb_eq in El.
  destruct (bind_kwargs _ _ _) as [cx|e] eqn:Eb; [|now apply bind_kwargs_err in Eb as ->]. destruct H. apply call_checks; [exact Nn|exact Nk|]. split; [now rewrite map_length|eauto].
Qed.

(** ** The fold *)
Lemma subgraph_nodes g fid name sub args kwargs original g' outs : NoDup (map fst (g_inputs sub)) -> add_subgraph g fid name sub args kwargs original = (g', Ok outs) ->
  exists l, g_nodes g' = g_nodes g ++ fold_nodes fid name args kwargs original ++ l /\
    (forall n', In n' l -> exists n, In n (g_nodes sub) /\ n_id n' = n_id n /\ n_name n' = (name ++ "." ++ n_name n)%string /\ n_target n' = n_target n /\ n_op n' = n_op n /\ n_parent n' = match n_parent n with Some p => Some p | None => option_map (fun _ => fid) original end) /\
    (forall n, In n (g_nodes sub) -> exists n', In n' l /\ n_id n' = n_id n /\ n_name n' = (name ++ "." ++ n_name n)%string /\ n_target n' = n_target n /\ n_op n' = n_op n /\ n_parent n' = match n_parent n with Some p => Some p | None => option_map (fun _ => fid) original end).
Proof.
  intros Nn E. destruct (add_subgraph_inv _ _ _ _ _ _ _ _ _ Nn E) as (cx & l' & _ & _ & G1 & F & _). exists l'. split; [exact G1|]. split.
  - intros n' Hn'. destruct (Forall2_In_r _ _ _ _ F Hn') as (n & Hn & _ & _ & A & B & C & D & P). apply sorted_in in Hn. exists n. auto 8.
  - intros n Hn. apply sorted_in in Hn. destruct (Forall2_In_l _ _ _ _ F Hn) as (n' & Hn' & _ & _ & A & B & C & D & P). exists n'. auto 8.
Qed.
Lemma fold_within g fid name sub args kwargs t g' outs : tidy sub -> add_subgraph g fid name sub args kwargs (Some t) = (g', Ok outs) ->
  In (mkNode fid name t args TorchModule kwargs None None) (g_nodes g') /\ In fid (g_folds g') /\
  (forall n, In n (g_nodes sub) -> exists n', In n' (g_nodes g') /\ n_id n' = n_id n /\ n_name n' = (name ++ "." ++ n_name n)%string /\ n_target n' = n_target n /\ n_op n' = n_op n /\ within g' n' fid).
Proof.
  intros Ts E. assert (Nn : NoDup (map fst (g_inputs sub))) by exact (NoDup_r _ _ (tidy_names sub Ts)). destruct (subgraph_nodes _ _ _ _ _ _ _ _ _ Nn E) as (l & G & _ & H). destruct (add_subgraph_inv _ _ _ _ _ _ _ _ _ Nn E) as (_ & _ & _ & _ & _ & _ & _ & _ & Gf & _).
  split; [rewrite G, !in_app_iff; right; left; now left|]. split; [rewrite Gf, !in_app_iff; right; left; now left|].
  assert (K : forall k n l1 l2, length l1 < k -> g_nodes sub = l1 ++ n :: l2 -> exists n', In n' (g_nodes g') /\ n_id n' = n_id n /\ n_name n' = (name ++ "." ++ n_name n)%string /\ n_target n' = n_target n /\ n_op n' = n_op n /\ within g' n' fid).
  { induction k as [|k IH]; intros n l1 l2 L Es; [lia|]. destruct (H n) as (n' & Hn' & A & B & C & D & P); [rewrite Es; apply in_elt|]. assert (Hg : In n' (g_nodes g')) by (rewrite G, !in_app_iff; right; now right). exists n'. do 5 (split; [assumption|]).
    destruct (n_parent n) as [p|] eqn:Ep; [|now constructor]. destruct (tidy_parents sub Ts l1 n l2 p Es Ep) as [Hp _]. apply in_map_iff in Hp. destruct Hp as (m & <- & Hm). apply in_split in Hm. destruct Hm as (l3 & l4 & ->).
    destruct (IH m l3 (l4 ++ n :: l2)) as (m' & Hm' & Am & _ & _ & _ & Wm); [rewrite app_length in L; cbn in L; lia|rewrite Es, <- app_assoc; reflexivity|]. exact (within_up g' n' _ m' fid P Hm' Am Wm). }
  intros n Hn. apply in_split in Hn. destruct Hn as (l1 & l2 & Es). exact (K (S (length l1)) n l1 l2 (Nat.lt_succ_diag_r _) Es).
Qed.

(** ** Every graph built *)
Definition Built (g : graph) (hs : list ref) : Prop := tidy g /\ (forall r, In r hs -> well_named g r) /\ incl (g_folds g) (ids_of g).
Lemma made_named g hs r : (forall r, In r hs -> well_named g r) -> made hs r -> well_named g r.
Proof. intros H M. induction M; [now apply H|constructor|now constructor]. Qed.
Lemma named_more g g' r : (forall n, In n (g_nodes g) -> ~ In (n_id n) (g_folds g) -> In n (g_nodes g') /\ ~ In (n_id n) (g_folds g')) -> (forall e, In e (g_inputs g) -> In e (g_inputs g')) -> well_named g r -> well_named g' r.
Proof. intros H1 H2 W. induction W as [n Hn Hf| | |]; [destruct (H1 n Hn Hf) as [A B]|..]; constructor; auto. Qed.
Lemma NoDup_swap {A} (l1 l2 l3 : list A) : NoDup (l1 ++ l3) -> NoDup l2 -> (forall x, In x l2 -> ~ In x (l1 ++ l3)) -> NoDup ((l1 ++ l2) ++ l3).
Proof.
  intros N N2 D. assert (N1 := NoDup_l _ _ N). assert (N3 := NoDup_r _ _ N). apply NoDup_app_intro; [apply NoDup_app_intro|exact N3|].
  - exact N1.
  - exact N2.
  - intros x Hx Hx2. apply (D x Hx2). apply in_app_iff. now left.
  - intros x Hx Hx3. apply in_app_iff in Hx. destruct Hx as [Hx|Hx]; [|apply (D x Hx); apply in_app_iff; now right]. clear -N Hx Hx3. induction l1 as [|a l1 IH]; [destruct Hx|]. inversion N as [|? ? Na N']; subst. destruct Hx as [->|Hx]; [apply Na; apply in_app_iff; now right|now apply IH].
Qed.
Lemma app_one_inv {A} (l : list A) a l1 x l2 : l ++ [a] = l1 ++ x :: l2 -> (l2 = [] /\ l1 = l /\ x = a) \/ exists l2', l2 = l2' ++ [a] /\ l = l1 ++ x :: l2'.
Proof.
  intros E. destruct (@exists_last _ (x :: l2)) as (q & y & Eq); [discriminate|]. rewrite Eq, app_assoc in E. apply app_inj_tail in E. destruct E as [E ->]. destruct q as [|x' q]; [left|right].
  - cbn in Eq. injection Eq as -> ->. rewrite app_nil_r in E. auto.
  - cbn in Eq. injection Eq as <- ->. exists q. auto.
Qed.
Lemma dotted_inj (name a b : string) : (name ++ "." ++ a)%string = (name ++ "." ++ b)%string -> a = b.
Proof. induction name as [|c name IH]; cbn; intros E; [now injection E|]. injection E as E. now apply IH. Qed.
Lemma dotted_longer (name a : string) : (name ++ "." ++ a)%string <> name.
Proof. induction name as [|c name IH]; cbn; intros E; [discriminate|]. injection E as E. now apply IH. Qed.
Lemma NoDup_map_inj {A B} (h : A -> B) l : (forall a b, h a = h b -> a = b) -> NoDup l -> NoDup (map h l).
Proof. intros H N. induction N as [|a l Na N IH]; [constructor|]. cbn. constructor; [|exact IH]. intros C. apply in_map_iff in C. destruct C as (b & E & C). apply H in E. now subst. Qed.

Lemma same_cut (m : gnode) q q2 : forall y1 y2, NoDup (map n_id (q ++ m :: q2)) -> q ++ m :: q2 = y1 ++ m :: y2 -> q = y1.
Proof.
  induction q as [|a q IH]; intros [|c y1] y2 Nd Ey; cbn in Ey; [reflexivity| | |].
  - injection Ey as <- Ey. exfalso. cbn in Nd. inversion Nd as [|? ? Nm _]; subst. apply Nm. rewrite map_app. apply in_app_iff. right. now left.
  - injection Ey as -> Ey. exfalso. cbn in Nd. inversion Nd as [|? ? Nm _]; subst. apply Nm. rewrite map_app. apply in_app_iff. right. now left.
  - injection Ey as -> Ey. f_equal. apply (IH y1 y2); [|exact Ey]. cbn in Nd. now inversion Nd.
Qed.
Lemma sorted_before sub s1 m s2 b : g_nodes sub = s1 ++ m :: s2 -> In b s1 -> nmem (n_id b) (g_folds sub) = true -> exists y1 y2, sorted_nodes sub = y1 ++ m :: y2 /\ In b y1.
Proof.
  intros E Hb Fb. unfold sorted_nodes. set (p := fun n => nmem (n_id n) (g_folds sub)). set (q := fun n : gnode => negb (nmem (n_id n) (g_folds sub))). destruct (p m) eqn:Em.
  - exists (filter p s1), (filter p s2 ++ filter q (g_nodes sub)). split; [|apply filter_In; now split]. rewrite E at 1. rewrite filter_app. cbn [filter]. rewrite Em, <- app_assoc. reflexivity.
  - exists (filter p (g_nodes sub) ++ filter q s1), (filter q s2). split.
    + rewrite <- app_assoc. f_equal. rewrite E, filter_app. cbn [filter]. assert (q m = true) as -> by (unfold q; fold (p m); now rewrite Em). reflexivity.
    + apply in_app_iff. left. apply filter_In. split; [rewrite E; apply in_app_iff; now left|exact Fb].
Qed.
Lemma built_invariant g hs : built g hs -> Built g hs.
Proof.
  induction 1 as [|g hs name id g' _ [T [Hh Hf]] E Hi Hn|g hs n g' _ [T [Hh Hf]] E Hr Hp Hn|g hs l g' _ [T [Hh Hf]] E Hr|g hs sub hs' fid name args kwargs original g' outs _ [T [Hh Hf]] _ [Ts [_ Hfs]] E Hr Nk Hg Hs Hne Hch Hnm Hsc].
  - split; [|split; [intros r []|intros x []]]. constructor; cbn; [constructor|constructor|constructor|intros ? []|intros ? ? []|intros ? []|intros [|] ? ? ? ?; discriminate].
  - unfold add_input in E. destruct (existsb _ _) eqn:Ee; [discriminate|]. injection E as <-. destruct T as [T1 T2 T3 T4 T5 T6 T7]. destruct Hn as [Hn Hc]. set (g' := mkGraph (g_nodes g) (g_inputs g ++ [(name, id)]) (g_outputs g) (g_folds g)).
    assert (M : forall r, well_named g r -> well_named g' r) by (intros r; apply named_more; [auto|]; cbn; intros e He; apply in_app_iff; now left).
    split; [|split; [|exact Hf]].
    + constructor; cbn [g' g_nodes g_inputs g_outputs g_folds].
      * exact T1.
      * rewrite map_app, app_assoc. apply NoDup_app_intro; [exact T2|cbn; constructor; [intros []|constructor]|]. cbn. intros x Hx [<-|[]]. now apply Hn.
      * rewrite map_app. apply NoDup_app_intro; [exact T3|cbn; constructor; [intros []|constructor]|]. cbn. intros x Hx [<-|[]]. now apply Hi.
      * intros k Hk. rewrite map_app, app_assoc, in_app_iff in Hk. cbn in Hk. destruct Hk as [Hk|[<-|[]]]; [now apply T4|exact Hc].
      * intros n r Hn' Hr. apply M. exact (T5 n r Hn' Hr).
      * intros r Hr. destruct (T6 r Hr) as [A B]. split; [now apply M|exact B].
      * exact T7.
    + intros r [<-|Hr]; [constructor; cbn; apply in_app_iff; right; now left|]. apply M. now apply Hh.
  - unfold add_node in E. destruct (has_id g (n_id n)) eqn:Eh; [discriminate|]. injection E as <-. assert (Hid : ~ In (n_id n) (ids_of g)) by (intros C; apply has_id_in in C; congruence). clear Eh. destruct T as [T1 T2 T3 T4 T5 T6 T7]. destruct Hn as [Hn Hc].
    set (g' := mkGraph (g_nodes g ++ [n]) (g_inputs g) (g_outputs g) (g_folds g)).
    assert (M : forall r, well_named g r -> well_named g' r) by (intros r; apply named_more; [|auto]; cbn; intros m Hm Hl; split; [apply in_app_iff; now left|exact Hl]).
    split; [|split].
    + constructor; cbn [g' g_nodes g_inputs g_outputs g_folds].
      * unfold graph_ok. cbn. rewrite map_app. apply NoDup_app_intro; [exact T1|cbn; constructor; [intros []|constructor]|]. cbn. intros x Hx [<-|[]]. now apply Hid.
      * rewrite map_app. apply NoDup_swap; [exact T2|cbn; constructor; [intros []|constructor]|]. cbn. intros x [<-|[]]. exact Hn.
      * exact T3.
      * intros k Hk. rewrite map_app, !in_app_iff in Hk. cbn in Hk. destruct Hk as [[Hk|[<-|[]]]|Hk]; [apply T4; apply in_app_iff; now left|exact Hc|apply T4; apply in_app_iff; now right].
      * intros m r Hm Hr'. apply in_app_iff in Hm. destruct Hm as [Hm|[<-|[]]]; apply M; [exact (T5 m r Hm Hr')|]. apply (made_named g hs); [exact Hh|now apply Hr].
      * intros r Hr'. destruct (T6 r Hr') as [A B]. split; [now apply M|exact B].
      * intros l1 m l2 p El Ep. apply app_one_inv in El. destruct El as [(-> & -> & ->)|(l2' & -> & El)]; [congruence|]. exact (T7 _ _ _ _ El Ep).
    + intros r [<-|Hr']; [|apply M; now apply Hh]. constructor; cbn; [apply in_app_iff; right; now left|]. intros C. apply Hid. now apply Hf.
    + intros x Hx. cbn in Hx. apply Hf in Hx. unfold ids_of in *. cbn. rewrite map_app. apply in_app_iff. now left.
  - assert (G : forall l g0 g', add_output g0 l = (g', Ok tt) -> g_nodes g' = g_nodes g0 /\ g_inputs g' = g_inputs g0 /\ g_folds g' = g_folds g0 /\ g_outputs g' = g_outputs g0 ++ l /\ forall r, In r l -> exists x, about r x).
    { clear. induction l as [|r l IH]; intros g0 g' E; cbn [add_output] in E; [injection E as <-; rewrite app_nil_r; repeat split; intros ? []|].
      destruct (unwrap r) as [i nm| | |] eqn:Eu; try discriminate. destruct (has_id g0 i) eqn:Eh; [|discriminate]. destruct (IH _ _ E) as (A & B & C & D & F). cbn in A, B, C, D. do 3 (split; [assumption|]). split; [rewrite D, <- app_assoc; reflexivity|].
      intros q [<-|Hq]; [|now apply F]. exists i. clear -Eu. induction r as [| | |b IHb a]; cbn in Eu; try discriminate; [injection Eu as -> ->; constructor|]. constructor. now apply IHb. }
    destruct (G _ _ _ E) as (G1 & G2 & G3 & G4 & G5). assert (M : forall r, well_named g r -> well_named g' r) by (intros r; apply named_more; [now rewrite G1, G3|now rewrite G2]). destruct T as [T1 T2 T3 T4 T5 T6 T7].
    split; [|split; [intros r Hr'; apply M; now apply Hh|unfold ids_of; rewrite G1, G3; exact Hf]]. constructor; unfold graph_ok; rewrite ?G1, ?G2, ?G3; try assumption.
    + intros n r Hn Hr'. apply M. exact (T5 n r Hn Hr').
    + intros r Hr'. rewrite G4 in Hr'. apply in_app_iff in Hr'. destruct Hr' as [Hr'|Hr']; [destruct (T6 r Hr') as [A B]; split; [now apply M|exact B]|]. split; [|now apply G5]. apply M. apply (made_named g hs); [exact Hh|now apply Hr].
  - assert (Nn : NoDup (map fst (g_inputs sub))) by exact (NoDup_r _ _ (tidy_names sub Ts)).
    destruct (add_subgraph_inv _ _ _ _ _ _ _ _ _ Nn E) as (cx & l' & Eb & El & G1 & F & G2 & G3 & G4 & G5 & Eo). assert (Bx := bound_cx _ _ _ _ Nn Eb).
    assert (Acc : forall x, In x (ids_of sub) -> ~ In x (ids_of g) /\ (original <> None -> x <> fid)) by (apply (subgraph_accepted g fid name sub args kwargs original Ts Nk); eauto).
    set (fl := fold_nodes fid name args kwargs original) in *. set (fi := match original with Some _ => [fid] | None => [] end) in *.
    assert (Ffl : map n_id fl = fi) by (unfold fl, fi; destruct original; reflexivity).
    assert (Ffi : forall x, In x fi -> x = fid) by (unfold fi; destruct original; intros x Hx; [destruct Hx as [<-|[]]; reflexivity|destruct Hx]).
    assert (Lf : forall n, In n fl -> n_name n = name /\ n_id n = fid /\ n_parent n = None /\ original <> None /\ call_refs n = args ++ map snd kwargs). { unfold fl, fold_nodes. destruct original as [t|]; [|intros n []]. intros n [<-|[]]. repeat split. discriminate. }
    assert (Fo : forall x, In x (g_folds g') <-> In x (g_folds g) \/ In x fi \/ In x (g_folds sub)).
    { intros x. rewrite G4, !in_app_iff. assert (Q : In x (map n_id (filter (fun n => nmem (n_id n) (g_folds sub)) (sorted_nodes sub))) <-> In x (g_folds sub)); [|tauto]. rewrite in_map_iff. split.
      - intros (n & <- & Hn). apply filter_In in Hn. now apply nmem_in.
      - intros Hx. assert (Hi := Hfs x Hx). apply in_map_iff in Hi. destruct Hi as (n & <- & Hn). exists n. split; [reflexivity|]. apply filter_In. split; [now apply sorted_in|now apply nmem_in]. }
    assert (M : forall r, well_named g r -> well_named g' r).
    { intros r. apply named_more; [|now rewrite G2]. intros n Hn Hl. split; [rewrite G1, in_app_iff; now left|]. rewrite Fo. intros [C|[C|C]]; [contradiction| |].
      - apply Ffi in C. apply Hg. rewrite <- C. now apply in_map.
      - apply Hfs in C. apply Acc in C. apply (proj1 C). now apply in_map. }
    assert (Mr : forall r r', well_named sub r -> remap cx (map n_name (g_nodes sub)) name r = Ok r' -> well_named g' r').
    { assert (Hc : forall k r, cget k cx = Some r -> In k (map fst (g_inputs sub))).
      { intros k r Hk. apply Bx in Hk. destruct Hk as [(i & Hi & _)|Hk]; [exact (nth_error_In _ _ Hi)|]. destruct (bind_kwargs_inv _ _ _ _ Eb) as (A & _ & _). apply A. apply in_map_iff. now exists (k, r). }
      assert (Hb : forall k r, cget k cx = Some r -> ~ has_char "["%char k) by (intros k r Hk; apply (tidy_chars sub Ts); apply in_app_iff; right; now apply (Hc k r)).
      intros r r' W. revert r'. induction W as [n Hn Hl|k i Hi|i|b a W IH]; intros r' Er.
      - apply (remap_scoped cx _ name (RNode (n_id n) (n_name n)) r' sub Hb (wn_node sub n Hn Hl) eq_refl) in Er. subst r'. unfold scoped. destruct (String.eqb_spec name ""); [contradiction|].
        assert (Hs' : In n (sorted_nodes sub)) by now apply sorted_in. destruct (Forall2_In_l _ _ _ _ F Hs') as (n' & Hn' & _ & _ & Ri & Rn & _). rewrite <- Ri, <- Rn. constructor; [rewrite G1, !in_app_iff; right; now right|]. rewrite Ri, Fo.
        assert (Hi : In (n_id n) (ids_of sub)) by now apply in_map. destruct (Acc _ Hi) as [A1 A2]. intros [C|[C|C]]; [apply A1; now apply Hf| |contradiction]. assert (K := Ffi _ C). apply A2; [|exact K]. unfold fi in C. destruct original; [discriminate|destruct C].
      - apply (remap_scoped cx _ name (RInput i k) r' sub Hb (wn_input sub k i Hi) eq_refl) in Er. apply M. apply (made_named g hs); [exact Hh|]. apply Hr. apply in_app_iff. apply Bx in Er. destruct Er as [(j & _ & Ej)|Er]; [left; exact (nth_error_In _ _ Ej)|right; apply in_map_iff; now exists (k, r')].
      - apply (remap_scoped cx _ name (RConst i) r' sub Hb (wn_const sub i) eq_refl) in Er. subst. constructor.
      - apply (remap_scoped cx _ name (RAttr b a) r' sub Hb (wn_attr sub b a W) eq_refl) in Er. destruct Er as (b' & Eb' & ->). constructor. now apply IH. }
    assert (Il : forall n', In n' l' -> exists n, In n (g_nodes sub) /\ inlined cx (map n_name (g_nodes sub)) name (option_map (fun _ => fid) original) n n'). { intros n' Hn'. destruct (Forall2_In_r _ _ _ _ F Hn') as (n & Hn & R). apply sorted_in in Hn. eauto. }
    assert (Nl : map n_name l' = map (fun n => (name ++ "." ++ n_name n)%string) (sorted_nodes sub)). { clear -F. induction F as [|n n' l l' (_ & _ & _ & R & _) F IH]; [reflexivity|]. cbn. now rewrite R, IH. }
    assert (Idl : map n_id l' = map n_id (sorted_nodes sub)). { clear -F. induction F as [|n n' l l' (_ & _ & R & _) F IH]; [reflexivity|]. cbn. now rewrite R, IH. }
    destruct T as [T1 T2 T3 T4 T5 T6 T7]. split; [|split].
    + constructor.
      * apply G5. apply NoDup_app_intro; [exact T1|unfold fi; destruct original; repeat constructor; intros []|]. intros x Hx C. apply Ffi in C. now subst.
      * rewrite G1, G2, map_app. apply NoDup_swap; [exact T2| |].
        -- rewrite map_app. apply NoDup_app_intro.
           ++ unfold fl, fold_nodes. destruct original; cbn; repeat constructor. intros [].
           ++ rewrite Nl. rewrite <- (map_map n_name (fun m => (name ++ "." ++ m)%string)). apply NoDup_map_inj; [intros a b; apply dotted_inj|].
              assert (Nd : NoDup (map n_name (g_nodes sub))) by exact (NoDup_l _ _ (tidy_names sub Ts)). clear -Nd. unfold sorted_nodes. rewrite map_app. apply NoDup_app_intro.
              ** induction (g_nodes sub) as [|a l IH]; [constructor|]. inversion Nd as [|? ? Na N']; subst. cbn. destruct (nmem _ _); [|now apply IH]. cbn. constructor; [|now apply IH]. intros C. apply Na. apply in_map_iff in C. destruct C as (x & <- & C). apply filter_In in C. now apply in_map.
              ** induction (g_nodes sub) as [|a l IH]; [constructor|]. inversion Nd as [|? ? Na N']; subst. cbn. destruct (nmem _ _); cbn; [now apply IH|]. constructor; [|now apply IH]. intros C. apply Na. apply in_map_iff in C. destruct C as (x & <- & C). apply filter_In in C. now apply in_map.
              ** intros y Hy Hy'. apply in_map_iff in Hy, Hy'. destruct Hy as (a & <- & Ha), Hy' as (b & Eb & Hb). apply filter_In in Ha, Hb. destruct Ha as [Ha Pa], Hb as [Hb Pb].
                 assert (a = b) as ->; [|rewrite Pa in Pb; discriminate]. clear Pa Pb. induction (g_nodes sub) as [|x l IH]; [destruct Ha|]. inversion Nd as [|? ? Nx N']; subst. destruct Ha as [->|Ha], Hb as [->|Hb]; try reflexivity.
                 --- destruct Nx. rewrite <- Eb. now apply in_map.
                 --- destruct Nx. rewrite Eb. now apply in_map.
                 --- now apply IH.
           ++ intros x Hx Hx'. apply in_map_iff in Hx. destruct Hx as (n & <- & Hn). destruct (Lf n Hn) as (En & _). rewrite En, Nl in Hx'. apply in_map_iff in Hx'. destruct Hx' as (m & Em & _). exact (dotted_longer _ _ Em).
        -- intros x Hx. rewrite map_app in Hx. apply in_app_iff in Hx. destruct Hx as [Hx|Hx].
           ++ apply in_map_iff in Hx. destruct Hx as (n & <- & Hn). destruct (Lf n Hn) as (-> & _ & _ & Ho & _). exact (Hnm Ho).
           ++ rewrite Nl in Hx. apply in_map_iff in Hx. destruct Hx as (m & <- & Hm). apply sorted_in in Hm. exact (Hsc m Hm).
      * rewrite G2. exact T3.
      * intros k Hk. rewrite G1, G2, !map_app, !in_app_iff in Hk. destruct Hk as [[Hk|[Hk|Hk]]|Hk]; [apply T4; apply in_app_iff; now left| | |apply T4; apply in_app_iff; now right].
        -- apply in_map_iff in Hk. destruct Hk as (n & <- & Hn). destruct (Lf n Hn) as (-> & _). exact Hch.
        -- rewrite Nl in Hk. apply in_map_iff in Hk. destruct Hk as (m & <- & Hm). apply sorted_in in Hm. rewrite has_char_app. intros [C|C]; [contradiction|]. cbn in C. destruct C as [C|C]; [discriminate|]. revert C. apply (tidy_chars sub Ts). apply in_app_iff. left. now apply in_map.
      * intros n r Hn Hr'. rewrite G1, !in_app_iff in Hn. destruct Hn as [Hn|[Hn|Hn]].
        -- apply M. exact (T5 n r Hn Hr').
        -- destruct (Lf n Hn) as (_ & _ & _ & _ & Ec). rewrite Ec in Hr'. apply M. apply (made_named g hs); [exact Hh|now apply Hr].
        -- destruct (Il n Hn) as (m & Hm & R1 & R2 & _). unfold call_refs in Hr'. apply in_app_iff in Hr'. unfold remap_args in R1. apply rmapM_Forall2 in R1. destruct (remapped_kwargs _ _ _ _ _ R2) as [_ K2].
           destruct Hr' as [Hr'|Hr']; [destruct (Forall2_In_r _ _ _ _ R1 Hr') as (q & Hq & Eq)|destruct (Forall2_In_r _ _ _ _ K2 Hr') as (q & Hq & Eq)]; apply (Mr q r); [|exact Eq| |exact Eq]; apply (tidy_refs sub Ts m); try exact Hm; unfold call_refs; apply in_app_iff; auto.
      * rewrite G3. intros r Hr'. destruct (T6 r Hr') as [A B]. split; [now apply M|exact B].
      * intros l1 n l2 p Es Ep. rewrite G1 in Es. rewrite Fo.
        (* which part is n in *)
        assert (Cut : forall (u v l1 l2 : list gnode) x, u ++ v = l1 ++ x :: l2 -> (exists w, u = l1 ++ x :: w) \/ exists w, l1 = u ++ w /\ v = w ++ x :: l2).
        { clear. induction u as [|a u IH]; intros v l1 l2 x Eq; [right; now exists l1|]. destruct l1 as [|b l1]; cbn in Eq; injection Eq as -> Eq; [left; now exists u|]. destruct (IH _ _ _ _ Eq) as [(w & ->)|(w & -> & ->)]; [left; now exists w|right; now exists w]. }
        destruct (Cut _ _ _ _ _ Es) as [(w & Ew)|(w & -> & Ew)]; [destruct (T7 _ _ _ _ Ew Ep); auto|]. destruct (Cut _ _ _ _ _ Ew) as [(w' & Ew')|(w' & -> & Ew')].
        { assert (Hn : In n fl) by (rewrite Ew'; apply in_elt). destruct (Lf n Hn) as (_ & _ & Pn & _). congruence. }
        (* in l' at a position *)
        assert (P' : exists q m q2, sorted_nodes sub = q ++ m :: q2 /\ Forall2 (inlined cx (map n_name (g_nodes sub)) name (option_map (fun _ => fid) original)) q w' /\ inlined cx (map n_name (g_nodes sub)) name (option_map (fun _ => fid) original) m n).
        { rewrite Ew' in F. apply Forall2_app_inv_r in F. destruct F as (q & q2 & Fq & F2 & ->). inversion F2 as [|m ? q3 ? Hm F3]; subst. exists q, m, q3. auto. }
        destruct P' as (q & m & q2 & Eq & Fq & (_ & _ & _ & _ & _ & _ & Pm)). rewrite Ep in Pm. rewrite !map_app, !in_app_iff.
        destruct (n_parent m) as [p'|] eqn:Epm.
        -- injection Pm as <-. assert (Hm : In m (g_nodes sub)) by (apply sorted_in; rewrite Eq; apply in_elt). apply in_split in Hm. destruct Hm as (s1 & s2 & Esub). destruct (tidy_parents sub Ts s1 m s2 p Esub Epm) as [A B]. split; [|auto]. right. right.
           assert (Q : In p (map n_id q)).
           { clear -Eq Esub A B Ts. assert (Nd : NoDup (map n_id (sorted_nodes sub))) by (apply filter_split_NoDup; exact (tidy_ids sub Ts)).
             apply in_map_iff in A. destruct A as (b & <- & Hb). assert (Fb : nmem (n_id b) (g_folds sub) = true) by now apply nmem_in.
             assert (O : exists y1 y2, sorted_nodes sub = y1 ++ m :: y2 /\ In b y1).
             { exact (sorted_before sub s1 m s2 b Esub Hb Fb). }
             destruct O as (y1 & y2 & Ey & Hy). rewrite Eq in Ey, Nd.
             assert (q = y1) as ->; [|now apply in_map].
             exact (same_cut m q q2 y1 y2 Nd Ey). }
           assert (Im : map n_id w' = map n_id q). { clear -Fq. induction Fq as [|x x' l l' (_ & _ & R & _) Fq IH]; [reflexivity|]. cbn. now rewrite R, IH. } now rewrite Im.
        -- destruct original as [t|]; [|discriminate]. cbn in Pm. injection Pm as ->. split; [right; left; rewrite Ffl; now left|right; left; now left].
    + intros r Hr'. apply in_app_iff in Hr'. destruct Hr' as [Hr'|Hr']; [|apply M; now apply Hh]. unfold remap_args in Eo. apply rmapM_Forall2 in Eo. destruct (Forall2_In_r _ _ _ _ Eo Hr') as (o & Ho & Er). apply (Mr o r); [exact (proj1 (tidy_outputs sub Ts o Ho))|exact Er].
    + intros x Hx. apply Fo in Hx. unfold ids_of. rewrite G1, !map_app, !in_app_iff, Ffl, Idl. destruct Hx as [Hx|[Hx|Hx]]; [left; now apply Hf|auto|]. right. right. apply Hfs in Hx. apply in_map_iff in Hx. destruct Hx as (m & <- & Hm). apply in_map. now apply sorted_in.
Qed.
