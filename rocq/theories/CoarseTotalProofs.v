(** Coarsening succeeds: the units and their order. *)
From Coq Require Import String Ascii DecimalString DecimalZ Relations Permutation Sorted.
From Verif Require Import Prelude GraphModel GraphSpec GraphProofs EngineModel EngineSpec EngineOptProofs EngineSchedProofs CoarseModel CoarseSpec CoarseValueProofs CoarseBaseProofs CoarseSubProofs CoarseProofs CoarseSuccessProofs.
Local Open Scope nat_scope.
Local Open Scope list_scope.

Section Total.
  Variable g : graph.
  Variable ord ord' : list nat -> list nat.
  Hypothesis Hord : forall l x, In x (ord l) <-> In x l.
  Hypothesis Hord' : forall l x, In x (ord' l) <-> In x l.
  Hypothesis T : tidy g.

  Definition disjoint (paths : list (list nat)) : Prop := forall i j P Q x, nth_error paths i = Some P -> nth_error paths j = Some Q -> i <> j -> In x P -> ~ In x Q.
  Lemma disjoint_tail P paths : disjoint (P :: paths) -> disjoint paths.
  Proof. intros D i j A B x Hi Hj N. apply (D (S i) (S j) A B x Hi Hj). congruence. Qed.
  Lemma disjoint_head P paths Q x : disjoint (P :: paths) -> In Q paths -> In x P -> ~ In x Q.
  Proof. intros D H. apply In_nth_error in H. destruct H as [j H]. exact (D 0 (S j) P Q x eq_refl H ltac:(discriminate)). Qed.

  Definition resolved (sp : subgraph_spec) (P : list nat) : Prop := exists sub, resolve_spec ord ord' g sp = Ok (P, sub).

  Lemma resolve_spec_inv sp P sub : resolve_spec ord ord' g sp = Ok (P, sub) ->
    match sub with
    | None => exists t n, s_region sp = RModule t /\ In n (g_nodes g) /\ n_target n = t /\ P = [n_id n]
    | Some sg => create_subgraph ord ord' g P = Ok sg /\ forall t, s_region sp <> RModule t
    end.
  Proof.
    unfold resolve_spec. destruct (s_region sp) as [t|a b|l]; intros E.
    - unfold node_of_target in E. destruct (find _ _) as [n|] eqn:F in E; [|discriminate]. cbn [rbind] in E. injection E as <- <-. apply find_some in F. destruct F as [Hn Et]. apply Nat.eqb_eq in Et. exists t, n. now repeat split.
    - destruct (node_of_target g a) as [na|]; [|discriminate]. destruct (node_of_target g b) as [nb|]; [|discriminate]. cbn [rbind] in E. destruct (ancestors _ _ _ _ _) as [[path reached]|]; [|discriminate]. cbn [rbind] in E.
      destruct reached; [|discriminate]. cbn [negb] in E. destruct (create_subgraph ord ord' g path) as [sg|] eqn:Ec; [|discriminate]. cbn [rbind] in E. injection E as <- <-. split; [exact Ec|discriminate].
    - destruct (rmapM _ l) as [ns|]; [|discriminate]. cbn [rbind] in E. destruct (siblings g ns); [|discriminate]. destruct (create_subgraph _ _ _ _) as [sg|] eqn:Ec in E; [|discriminate]. cbn [rbind] in E. injection E as <- <-. split; [exact Ec|discriminate].
  Qed.

  Lemma resolve_all_ok : forall specs paths k seen0, Forall2 resolved specs paths -> disjoint paths -> (forall P x, In P paths -> In x P -> ~ In x seen0) ->
    exists subs ts, resolve_all ord ord' g k specs seen0 = Ok (seen0 ++ concat paths, subs, ts) /\
      (forall P j sub, In (P, j, sub) subs -> In P paths /\ create_subgraph ord ord' g P = Ok sub) /\
      (forall P j sub P' j' sub' x, In (P, j, sub) subs -> In (P', j', sub') subs -> In x P -> In x P' -> (P, j, sub) = (P', j', sub')) /\
      (forall P, In P paths -> (exists j sub, In (P, j, sub) subs) \/ exists n, In n (g_nodes g) /\ P = [n_id n]) /\
      Forall2 (fun sp t => (exists n, In n (g_nodes g) /\ n_target n = t /\ In [n_id n] paths /\ forall P j sub, In (P, j, sub) subs -> ~ In (n_id n) P) \/
                           exists P j sub, In (P, j, sub) subs /\ t = first_free g + j) specs ts /\
      (forall P j sub, In (P, j, sub) subs -> exists sp, In (sp, P) (combine specs paths) /\ forall t, s_region sp <> RModule t).
  Proof.
    induction specs as [|sp specs IH]; intros paths k seen0 F D S; inversion F as [|? P ? paths' R F']; subst; cbn [resolve_all].
    - exists [], []. rewrite app_nil_r. split; [reflexivity|]. split; [intros ? ? ? []|]. split; [intros ? ? ? ? ? ? ? []|]. split; [intros ? []|]. split; [constructor|intros ? ? ? []].
    - destruct R as [sub R]. assert (Ri := resolve_spec_inv sp P sub R). rewrite R. cbn [rbind].
      assert (Ne : existsb (fun x => nmem x seen0) P = false).
      { destruct (existsb (fun x => nmem x seen0) P) eqn:E; [|reflexivity]. apply existsb_exists in E. destruct E as (x & Hx & Sx). apply nmem_in in Sx. exfalso. exact (S P x (or_introl eq_refl) Hx Sx). }
      rewrite Ne. assert (S' : forall Q x, In Q paths' -> In x Q -> ~ In x (seen0 ++ P)).
      { intros Q x HQ Hx I. apply in_app_iff in I. destruct I as [I|I]; [exact (S Q x (or_intror HQ) Hx I)|exact (disjoint_head P paths' Q x D HQ I Hx)]. }
      destruct sub as [sg|].
      + destruct (IH paths' (Datatypes.S k) (seen0 ++ P) F' (disjoint_tail _ _ D) S') as (subs & ts & E & A & B & C & Dd & Ee). rewrite E. cbn [rbind]. exists ((P, k, sg) :: subs), ((first_free g + k) :: ts).
        split; [now rewrite <- app_assoc|]. split; [|split; [|split; [|split]]].
        * intros Q j sub [H|H]; [injection H as <- <- <-; split; [now left|exact (proj1 Ri)]|]. destruct (A Q j sub H). split; [now right|assumption].
        * intros Q j sub Q' j' sub' x [H|H] [H'|H'] HQ HQ'; [congruence| | |exact (B _ _ _ _ _ _ x H H' HQ HQ')].
          -- injection H as <- <- <-. destruct (A _ _ _ H') as [I _]. exfalso. exact (disjoint_head P paths' Q' x D I HQ HQ').
          -- injection H' as <- <- <-. destruct (A _ _ _ H) as [I _]. exfalso. exact (disjoint_head P paths' Q x D I HQ' HQ).
        * intros Q [<-|HQ]; [left; exists k, sg; now left|]. destruct (C Q HQ) as [(j & sub & I)|I]; [left; exists j, sub; now right|now right].
        * constructor; [right; exists P, k, sg; split; [now left|reflexivity]|]. refine (Forall2_imp _ _ _ _ _ Dd). intros sp' t [(n & Hn & Et & HP & N)|(Q & j & sub & I & Et)]; [left|right; exists Q, j, sub; split; [now right|exact Et]].
          exists n. split; [exact Hn|]. split; [exact Et|]. split; [now right|]. intros Q j sub [H|H]; [|now apply (N Q j sub)]. injection H as <- <- <-. intros I. exact (disjoint_head P paths' _ (n_id n) D HP I (or_introl eq_refl)).
        * cbn [combine]. intros Q j sub [H|H]; [injection H as <- <- <-; exists sp; split; [now left|exact (proj2 Ri)]|]. destruct (Ee Q j sub H) as (sp' & I & N). exists sp'. split; [now right|exact N].
      + destruct Ri as (t & n & Er & Hn & Et & ->). destruct (IH paths' k (seen0 ++ [n_id n]) F' (disjoint_tail _ _ D) S') as (subs & ts & E & A & B & C & Dd & Ee). rewrite E. cbn [rbind]. rewrite Er. exists subs, (t :: ts).
        split; [now rewrite <- app_assoc|]. split; [|split; [|split; [|split]]].
        * intros Q j sub H. destruct (A Q j sub H). split; [now right|assumption].
        * exact B.
        * intros Q [<-|HQ]; [right; now exists n|]. destruct (C Q HQ) as [(j & sub & I)|I]; [left; exists j, sub; exact I|now right].
        * constructor.
          -- left. exists n. split; [exact Hn|]. split; [exact Et|]. split; [now left|]. intros Q j sub H I. destruct (A _ _ _ H) as [HQ _]. exact (disjoint_head [n_id n] paths' Q (n_id n) D HQ (or_introl eq_refl) I).
          -- refine (Forall2_imp _ _ _ _ _ Dd). intros sp' t' [(m & Hm & Em & HP & N)|K]; [left|now right]. exists m. split; [exact Hm|]. split; [exact Em|]. split; [now right|exact N].
        * cbn [combine]. intros Q j sub H. destruct (Ee Q j sub H) as (sp' & I & N). exists sp'. split; [now right|exact N].
  Qed.

  (** ** Units *)
  Definition members (u : unit_) (x : nat) : Prop :=
    match u with UNode i => (In i (g_folds g) /\ inside g i x) \/ (~ In i (g_folds g) /\ x = i) | USub _ sub => In x (map n_id (g_nodes sub)) end.
  Definition results (u : unit_) (x : nat) : Prop :=
    match u with UNode i => (In i (g_folds g) /\ exposed g i x) \/ (~ In i (g_folds g) /\ x = i) | USub _ sub => In x (base_ids (g_outputs sub)) end.

  Lemma feeds_leaf x y : feeds g x y -> is_leaf g x.
  Proof.
    intros (n & r & Hn & _ & Hr & A). apply call_refs_in in Hr. assert (W := well_named_unwrap _ _ (tidy_refs g T n r Hn Hr)). apply about_unwrap in A. destruct A as [nm E]. rewrite E in W.
    inversion W as [m Hm Lm| | |]; subst. split; [now apply in_map|exact Lm].
  Qed.
  Lemma within_lin n p q : within g n p -> within g n q -> p = q \/ (exists m, In m (g_nodes g) /\ n_id m = p /\ within g m q) \/ (exists m, In m (g_nodes g) /\ n_id m = q /\ within g m p).
  Proof.
    intros W. revert q. induction W as [n p E|n r m p E Hm Em W IH]; intros q W'.
    - inversion W' as [? ? E'|? r' m' ? E' Hm' Em' W1]; subst; [left; congruence|]. right. left. exists m'. repeat split; [assumption|congruence|assumption].
    - inversion W' as [? ? E'|? r' m' ? E' Hm' Em' W1]; subst.
      + right. right. exists m. repeat split; [assumption|congruence|assumption].
      + assert (m' = m) as -> by (apply (node_unique g m' m (tidy_ids g T)); try assumption; congruence). exact (IH q W1).
  Qed.

  Variable paths : list (list nat).
  Hypothesis Apart : apart g paths.
  Hypothesis Folds : orderly_folds g.
  Hypothesis Acyclic : ~ cyclic g.

  Variable subs : list (list nat * nat * graph).
  Hypothesis SubsA : forall P j sub, In (P, j, sub) subs -> In P paths /\ create_subgraph ord ord' g P = Ok sub.
  Hypothesis SubsB : forall P j sub P' j' sub' x, In (P, j, sub) subs -> In (P', j', sub') subs -> In x P -> In x P' -> (P, j, sub) = (P', j', sub').
  Hypothesis SubsC : forall P, In P paths -> (exists j sub, In (P, j, sub) subs) \/ exists n, In n (g_nodes g) /\ P = [n_id n].
  Hypothesis SubsO : forall P j sub, In (P, j, sub) subs -> orderly g (fun x => In x P) (seen g P).
  Let targets := concat paths.
  Let rest := filter (fun x => negb (nmem x (flat_map (fun e => fst (fst e)) subs))) (ord targets).
  Variable comp : list nat.
  Hypothesis Comp1 : forall z, In z comp -> exists n, In n (g_nodes g) /\ n_id n = z /\ ~ In z targets /\ (In z (g_folds g) -> ~ has g targets z) /\ forall q, within g n q -> ~ In q targets /\ has g targets q.
  Hypothesis Comp2 : forall n, In n (g_nodes g) -> ~ In (n_id n) (g_folds g) -> In (n_id n) comp \/ In (n_id n) targets \/ exists z, In z (g_folds g) /\ within g n z /\ (In z targets \/ In z comp).
  Definition units : list unit_ := map UNode rest ++ map UNode comp ++ map (fun e => USub (snd (fst e)) (snd e)) subs.

  Lemma in_subs_path x : In x (flat_map (fun e => fst (fst e)) subs) <-> exists P j sub, In (P, j, sub) subs /\ In x P.
  Proof. rewrite in_flat_map. split; [intros ([[P j] sub] & H & I); now exists P, j, sub|intros (P & j & sub & H & I); now exists (P, j, sub)]. Qed.
  Lemma rest_in x : In x rest <-> In x targets /\ forall P j sub, In (P, j, sub) subs -> ~ In x P.
  Proof.
    unfold rest. rewrite filter_In, Hord, Bool.negb_true_iff. split; intros [H N]; (split; [exact H|]).
    - intros P j sub I Hx. assert (K : In x (flat_map (fun e => fst (fst e)) subs)) by (apply in_subs_path; eauto). apply nmem_in in K. congruence.
    - destruct (nmem x _) eqn:E; [|reflexivity]. apply nmem_in, in_subs_path in E. destruct E as (P & j & sub & I & Hx). exfalso. exact (N P j sub I Hx).
  Qed.
  Lemma targets_in x : In x targets <-> exists P, In P paths /\ In x P.
  Proof. unfold targets. rewrite in_concat. reflexivity. Qed.
  Lemma target_node x : In x targets -> exists n, In n (g_nodes g) /\ n_id n = x.
  Proof.
    intros H. apply targets_in in H. destruct H as (P & HP & Hx). destruct (SubsC P HP) as [(j & sub & I)|(n & Hn & ->)].
    - exact (path_nodes g ord ord' Hord P sub x (proj2 (SubsA _ _ _ I)) Hx).
    - destruct Hx as [<-|[]]. now exists n.
  Qed.
  (** no fold is on a path *)
  Lemma path_leaf P j sub x : In (P, j, sub) subs -> In x P -> is_leaf g x.
  Proof.
    intros I Hx. destruct (SubsO _ _ _ I) as (_ & R & _). destruct (R x Hx) as (e & Se & C). apply clos_rt_rt1n in C. inversion C as [|y z F C']; subst; [exact (proj1 (proj2 Se))|]. now apply feeds_leaf in F.
  Qed.

  Inductive listed : unit_ -> Prop :=
  | l_rest i : In i rest -> listed (UNode i)
  | l_comp i : In i comp -> listed (UNode i)
  | l_sub P j sub : In (P, j, sub) subs -> listed (USub j sub).
  Lemma units_in u : In u units <-> listed u.
  Proof.
    unfold units. rewrite !in_app_iff, !in_map_iff. split.
    - intros [(x & <- & H)|[(x & <- & H)|([[P j] sub] & <- & H)]]; [now apply l_rest|now apply l_comp|]. exact (l_sub P j sub H).
    - intros [i H|i H|P j sub H]; [left; now exists i|right; left; now exists i|]. right. right. now exists (P, j, sub).
  Qed.
  Lemma unit_node i : listed (UNode i) -> exists n, In n (g_nodes g) /\ n_id n = i.
  Proof. intros L. inversion L as [? H|? H|]; subst; [apply rest_in in H; now apply target_node|]. destruct (Comp1 i H) as (n & Hn & E & _). now exists n. Qed.

  Lemma covered x : is_leaf g x -> exists u, listed u /\ members u x.
  Proof.
    intros [Nx Lx]. apply in_map_iff in Nx. destruct Nx as (n & <- & Hn). destruct (Comp2 n Hn Lx) as [H|[H|(z & Fz & W & H)]].
    - exists (UNode (n_id n)). split; [now apply l_comp|]. right. now split.
    - destruct (in_dec Nat.eq_dec (n_id n) (flat_map (fun e => fst (fst e)) subs)) as [I|N].
      + apply in_subs_path in I. destruct I as (P & j & sub & I & Hx). exists (USub j sub). split; [exact (l_sub P j sub I)|]. cbn. apply (sub_members g ord ord' Hord Hord' T P sub); [exact (proj2 (SubsA _ _ _ I))|exact Hx].
      + exists (UNode (n_id n)). split; [|right; now split]. apply l_rest. apply rest_in. split; [exact H|]. intros P j sub I Hx. apply N. apply in_subs_path. eauto.
    - assert (M : members (UNode z) (n_id n)) by (left; split; [exact Fz|split; [now exists n|split; [now apply in_map|exact Lx]]]).
      exists (UNode z). split; [|exact M]. destruct H as [H|H]; [|now apply l_comp]. apply l_rest. apply rest_in. split; [exact H|]. intros P j sub I Hx. destruct (path_leaf P j sub z I Hx) as [_ Lz]. contradiction.
  Qed.

  (** a unit inside a fold that is a unit *)
  Lemma not_nested i z n : listed (UNode i) -> In n (g_nodes g) -> n_id n = i -> listed (UNode z) -> In z (g_folds g) -> ~ within g n z.
  Proof.
    intros Li Hn En Lz Fz W. inversion Lz as [? Hz|? Hz|]; subst.
    - apply rest_in in Hz. destruct Hz as [Hz _]. inversion Li as [? Hi|? Hi|]; subst.
      + apply rest_in in Hi. destruct Hi as [Hi _]. apply targets_in in Hz, Hi. destruct Hz as (Q & HQ & Hz). destruct Hi as (P & HP & Hi). exact (proj2 Apart Q P z n HQ HP Hz Hn Hi W).
      + destruct (Comp1 _ Hi) as (m & Hm & Em & _ & _ & C). assert (m = n) as -> by exact (node_unique g m n (tidy_ids g T) Hm Hn Em). destruct (C z W). contradiction.
    - destruct (Comp1 _ Hz) as (mz & Hmz & Emz & _ & Nh & _). inversion Li as [? Hi|? Hi|]; subst.
      + apply rest_in in Hi. destruct Hi as [Hi _]. apply Nh; [exact Fz|]. exists n. now repeat split.
      + destruct (Comp1 _ Hi) as (m & Hm & Em & _ & _ & C). assert (m = n) as -> by exact (node_unique g m n (tidy_ids g T) Hm Hn Em). destruct (C _ W) as [_ K]. exact (Nh Fz K).
  Qed.
  Lemma path_not_in P j sub z n : In (P, j, sub) subs -> In n (g_nodes g) -> In (n_id n) P -> listed (UNode z) -> In z (g_folds g) -> ~ within g n z.
  Proof.
    intros I Hn Pn Lz Fz W. assert (Hi : In (n_id n) targets) by (apply targets_in; exists P; split; [exact (proj1 (SubsA _ _ _ I))|exact Pn]). inversion Lz as [? Hz|? Hz|]; subst.
    - apply rest_in in Hz. destruct Hz as [Hz _]. apply targets_in in Hz. destruct Hz as (Q & HQ & Hz). exact (proj2 Apart Q P z n HQ (proj1 (SubsA _ _ _ I)) Hz Hn Pn W).
    - destruct (Comp1 _ Hz) as (mz & Hmz & Emz & _ & Nh & _). apply Nh; [exact Fz|]. exists n. now repeat split.
  Qed.

  Lemma exclusive u u' y : listed u -> listed u' -> members u y -> members u' y -> u = u'.
  Proof.
    assert (half : forall i P j sub, listed (UNode i) -> In (P, j, sub) subs -> members (UNode i) y -> members (USub j sub) y -> False).
    { intros i P j sub Li I M M'. cbn in M'. apply (sub_members g ord ord' Hord Hord' T P sub y (proj2 (SubsA _ _ _ I))) in M'. destruct M as [[Fi [(n & Hn & <- & W) _]]|[_ ->]].
      - exact (path_not_in P j sub i n I Hn M' Li Fi W).
      - inversion Li as [? Hi|? Hi|]; subst; [apply rest_in in Hi; exact (proj2 Hi P j sub I M')|]. destruct (Comp1 _ Hi) as (m & _ & _ & N & _). apply N. apply targets_in. exists P. split; [exact (proj1 (SubsA _ _ _ I))|exact M']. }
    intros L L' M M'. destruct u as [i|j sub], u' as [i'|j' sub'].
    - f_equal. destruct (unit_node i L) as (ni & Hi & Ei), (unit_node i' L') as (ni' & Hi' & Ei'). destruct M as [[Fi [(n & Hn & En & W) _]]|[Ni Ey]], M' as [[Fi' [(n' & Hn' & En' & W') _]]|[Ni' Ey']]; subst.
      + assert (n' = n) as -> by exact (node_unique g n' n (tidy_ids g T) Hn' Hn En'). destruct (within_lin n _ _ W W') as [E|[(m & Hm & Em & Wm)|(m & Hm & Em & Wm)]]; [exact E| |]; exfalso.
        * exact (not_nested _ _ m L Hm Em L' Fi' Wm).
        * exact (not_nested _ _ m L' Hm Em L Fi Wm).
      + exfalso. exact (not_nested _ _ n L' Hn ltac:(congruence) L Fi W).
      + exfalso. exact (not_nested _ _ n' L Hn' ltac:(congruence) L' Fi' W').
      + reflexivity.
    - exfalso. inversion L' as [| |P ? ? I]; subst. exact (half i P j' sub' L I M M').
    - exfalso. inversion L as [| |P ? ? I]; subst. exact (half i' P j sub L' I M' M).
    - inversion L as [| |P ? ? I]; subst. inversion L' as [| |P' ? ? I']; subst. cbn in M, M'. apply (sub_members g ord ord' Hord Hord' T P sub y (proj2 (SubsA _ _ _ I))) in M. apply (sub_members g ord ord' Hord Hord' T P' sub' y (proj2 (SubsA _ _ _ I'))) in M'.
      assert (E := SubsB _ _ _ _ _ _ y I I' M M'). congruence.
  Qed.

  Lemma unit_orderly u : listed u -> orderly g (members u) (results u).
  Proof.
    intros L. destruct u as [i|j sub].
    - destruct (unit_node i L) as (n & Hn & <-). destruct (in_dec Nat.eq_dec (n_id n) (g_folds g)) as [F|F].
      + destruct (Folds n Hn F) as [(O1 & O2 & O3) _]. split; [|split].
        * destruct O1 as [x Hx]. exists x. left. now split.
        * intros x [[_ Hx]|[N _]]; [|contradiction]. destruct (O2 x Hx) as (e & He & C). exists e. split; [left; now split|exact C].
        * intros e x y [[_ He]|[N _]] [[_ Hx]|[N' _]] Ly Ny Fxy; try contradiction. apply (O3 e x y He Hx Ly); [|exact Fxy]. intros Hy. apply Ny. left. now split.
      + split; [|split].
        * exists (n_id n). right. now split.
        * intros x [[K _]|[_ ->]]; [contradiction|]. exists (n_id n). split; [right; now split|apply rt_refl].
        * intros e x y [[K _]|[_ ->]] [[K' _]|[_ ->]] _ _ Fxy; try contradiction. now constructor.
    - inversion L as [| |P ? ? I]; subst. destruct (SubsO _ _ _ I) as (O1 & O2 & O3). assert (C := proj2 (SubsA _ _ _ I)).
      assert (Me := fun x => sub_members g ord ord' Hord Hord' T P sub x C). assert (Re := fun x => sub_results g ord ord' Hord Hord' T P sub x C). split; [|split]; cbn [members results].
      + destruct O1 as [x Hx]. exists x. now apply Re.
      + intros x Hx. destruct (O2 x (proj1 (Me x) Hx)) as (e & He & K). exists e. split; [now apply Re|exact K].
      + intros e x y He Hx Ly Ny. apply (O3 e x y); [now apply Re|now apply Me|exact Ly|]. intros K. apply Ny. now apply Me.
  Qed.
  Lemma result_leaf u x : listed u -> results u x -> is_leaf g x.
  Proof.
    intros L R. destruct u as [i|j sub].
    - destruct R as [[_ E]|[N ->]]; [exact (proj1 (proj2 E))|]. destruct (unit_node i L) as (n & Hn & <-). split; [now apply in_map|exact N].
    - inversion L as [| |P ? ? I]; subst. apply (sub_results g ord ord' Hord Hord' T P sub x (proj2 (SubsA _ _ _ I))) in R. exact (proj1 (proj2 R)).
  Qed.
  (** a member that a leaf outside reads is a result *)
  Lemma read_result u x y : listed u -> members u x -> is_leaf g y -> ~ members u y -> feeds g x y -> results u x.
  Proof.
    intros L M Ly Ny F. destruct u as [i|j sub].
    - destruct M as [[Fi [W Lx]]|[Ni ->]]; [left; split; [exact Fi|]|right; now split]. split; [exact W|]. split; [exact Lx|]. left. destruct Ly as [Hy Ly]. apply in_map_iff in Hy. destruct Hy as (m & <- & Hm). exists m.
      split; [exact Hm|]. split; [split; [now apply in_map|exact Ly]|]. split; [|exact F]. intros Wm. apply Ny. left. split; [exact Fi|]. split; [now exists m|split; [now apply in_map|exact Ly]].
    - inversion L as [| |P ? ? I]; subst. assert (C := proj2 (SubsA _ _ _ I)). cbn in M, Ny |- *. apply (sub_results g ord ord' Hord Hord' T P sub x C). apply (sub_members g ord ord' Hord Hord' T P sub x C) in M.
      split; [exact M|]. split; [now apply feeds_leaf in F|]. left. exists y. split; [exact (proj1 Ly)|]. split; [|exact F]. intros K. apply Ny. now apply (sub_members g ord ord' Hord Hord' T P sub y C).
  Qed.
  Lemma output_result u x o : listed u -> members u x -> In o (g_outputs g) -> about o x -> results u x.
  Proof.
    intros L M Ho A. destruct u as [i|j sub].
    - destruct M as [[Fi [W Lx]]|[Ni ->]]; [left; split; [exact Fi|]|right; now split]. split; [exact W|]. split; [exact Lx|]. right. now exists o.
    - inversion L as [| |P ? ? I]; subst. assert (C := proj2 (SubsA _ _ _ I)). cbn in M |- *. apply (sub_results g ord ord' Hord Hord' T P sub x C). apply (sub_members g ord ord' Hord Hord' T P sub x C) in M.
      split; [exact M|]. split; [exact (path_leaf P j sub x I M)|]. right. now exists o.
  Qed.

  (** ** Keys *)
  Variable topo : list nat.
  Hypothesis Topo : topological_sort g None = Ok topo.
  Definition pos (x : nat) (i : nat) : Prop := index_of x topo = Some i.
  Lemma pos_some x : is_leaf g x -> exists i, pos x i.
  Proof. intros L. destruct (sort_order g topo (tidy_ids g T) Topo) as (_ & H & _). apply index_some. now apply H. Qed.
  Lemma feeds_pos a b i j : is_leaf g b -> feeds g a b -> pos a i -> pos b j -> i < j.
  Proof. intros L F. destruct (sort_order g topo (tidy_ids g T) Topo) as (N & _ & B). exact (index_before topo a b i j N (B a b L F)). Qed.
  Lemma trans_pos a b : clos_trans nat (feeds g) a b -> is_leaf g b -> forall i j, pos a i -> pos b j -> i < j.
  Proof.
    intros C. apply clos_trans_tn1 in C. induction C as [b F|b d F C IH]; intros L i j Pa Pb; [exact (feeds_pos a b i j L F Pa Pb)|].
    assert (Lb := feeds_leaf _ _ F). destruct (pos_some b Lb) as [k Pk]. assert (k < j) by exact (feeds_pos b d k j L F Pk Pb). assert (i < k) by exact (IH Lb i k Pa Pk). lia.
  Qed.
  Lemma rtrans_pos a b i j : clos_refl_trans nat (feeds g) a b -> is_leaf g b -> pos a i -> pos b j -> i <= j.
  Proof.
    intros C L Pa Pb. apply clos_rt_rtn1 in C. inversion C as [|y z F C']; subst; [unfold pos in *; assert (i = j) by congruence; lia|].
    assert (i < j); [|lia]. refine (trans_pos a b _ L i j Pa Pb). apply clos_rtn1_rt in C'. apply clos_rt_t with y; [exact C'|now constructor].
  Qed.

  Lemma positions l : (forall x, In x l -> is_leaf g x) -> exists ks, rmapM (position topo) l = Ok ks /\ Forall2 pos l ks.
  Proof. intros H. apply rmapM_f2. intros x Hx. destruct (pos_some x (H x Hx)) as [i Hi]. exists i. unfold position. rewrite Hi. now split. Qed.

  Definition key_spec (u : unit_) (k : nat) : Prop := (exists e, results u e /\ pos e k) /\ forall e i, results u e -> pos e i -> i <= k.
  Lemma max_spec u l ks : (forall x, In x l <-> results u x) -> (exists x, results u x) -> Forall2 pos l ks -> key_spec u (fold_left Nat.max ks 0).
  Proof.
    intros Hl [x0 Hx0] F. destruct (fold_max ks 0) as (_ & M1 & M2). split.
    - apply Hl in Hx0. destruct (Forall2_In_l _ _ _ _ F Hx0) as (k0 & Hk0 & P0). destruct M2 as [M2|M2].
      + assert (Z := M1 k0 Hk0). assert (k0 = 0) by lia. subst k0. exists x0. split; [now apply Hl|]. now rewrite M2.
      + destruct (Forall2_In_r _ _ _ _ F M2) as (e & He & Pe). exists e. split; [now apply Hl|exact Pe].
    - intros e i He Pe. apply Hl in He. destruct (Forall2_In_l _ _ _ _ F He) as (k & Hk & Pk). unfold pos in *. assert (i = k) as -> by congruence. now apply M1.
  Qed.
  Lemma sort_key_ok u : listed u -> exists k, sort_key g topo u = Ok k /\ key_spec u k.
  Proof.
    intros L. assert (O := unit_orderly u L). destruct O as (O1 & _). assert (Lf := fun x => result_leaf u x L). destruct u as [i|j sub]; cbn [sort_key].
    - destruct (nmem i (g_folds g)) eqn:Fi.
      + apply nmem_in in Fi. assert (Ex := proj1 (proj2 (fold_outputs_exposed g i T))). assert (Hl : forall x, In x (fold_outputs g i) <-> results (UNode i) x).
        { intros x. rewrite Ex. cbn. split; [intros H; left; now split|intros [[_ H]|[N _]]; [exact H|contradiction]]. }
        destruct (positions (fold_outputs g i)) as (ks & E & F); [intros x Hx; apply Lf; now apply Hl|]. rewrite E. cbn [rbind]. eexists. split; [reflexivity|]. now apply (max_spec (UNode i) (fold_outputs g i)).
      + assert (Ni : ~ In i (g_folds g)) by (intros K; apply nmem_in in K; congruence). assert (R : forall x, results (UNode i) x <-> x = i) by (intros x; cbn; tauto). destruct (pos_some i (Lf i (proj2 (R i) eq_refl))) as [k Pk]. exists k. unfold position. rewrite Pk. split; [reflexivity|]. split.
        * exists i. split; [now apply R|exact Pk].
        * intros e k' He Pe. apply R in He. subst e. unfold pos in *. assert (k' = k) by congruence. lia.
    - destruct (positions (base_ids (g_outputs sub))) as (ks & E & F); [intros x Hx; now apply Lf|]. rewrite E. cbn [rbind]. assert (K := max_spec (USub j sub) _ ks (fun x => iff_refl _) O1 F).
      destruct ks as [|k ks]; [|eexists; split; [reflexivity|exact K]]. exfalso. destruct O1 as [x Hx]. cbn in Hx. inversion F as [E0|]. rewrite <- E0 in Hx. destruct Hx.
  Qed.
  (** what a unit needs comes earlier *)
  Lemma needed_earlier u u' x y k k' : listed u -> listed u' -> members u y -> members u' x -> ~ members u x -> feeds g x y -> is_leaf g y -> key_spec u k -> key_spec u' k' -> results u' x /\ k' < k.
  Proof.
    intros L L' My Mx Nx F Ly K K'. assert (Ny : ~ members u' y) by (intros My'; assert (u = u') as -> by exact (exclusive u u' y L L' My My'); contradiction). split; [exact (read_result u' x y L' Mx Ly Ny F)|].
    destruct K' as [(e & Re & Pe) _]. destruct (unit_orderly u' L') as (_ & _ & O3). assert (C := O3 e x y Re Mx Ly Ny F). destruct (pos_some y Ly) as [i Pi]. assert (k' < i) by exact (trans_pos e y C Ly k' i Pe Pi).
    destruct (unit_orderly u L) as (_ & O2 & _). destruct (O2 y My) as (e' & Re' & C'). assert (Le := result_leaf u e' L Re'). destruct (pos_some e' Le) as [i' Pi']. assert (i <= i') by exact (rtrans_pos y e' i i' C' Le Pi Pi').
    assert (i' <= k) by exact (proj2 K e' i' Re' Pi'). lia.
  Qed.

  (** ** Placing units *)
  Definition named (cx : context) (x : nat) : Prop := forall n, In n (g_nodes g) -> n_id n = x -> bound cx (n_name n).
  Definition inputs_bound (cx : context) : Prop := forall k i, In (k, i) (g_inputs g) -> bound cx k.
  Definition has_unit (nodes : list gnode) (u : unit_) : Prop :=
    match u with
    | UNode i => forall n, In n (g_nodes g) -> n_id n = i -> In (n_target n) (map n_target nodes)
    | USub j _ => In (first_free g + j) (map n_target nodes)
    end.

  Lemma remap_args_total cx l : inputs_bound cx -> (forall r, In r l -> well_named g r) -> (forall r x, In r l -> about r x -> named cx x) -> exists l', remap_args cx [] "" l = Ok l'.
  Proof.
    intros Bi W N. destruct (rmapM_f2 (remap cx [] "") (fun _ _ => True) l) as (l' & E & _); [|eauto]. intros r Hr. destruct (remap_total cx g r (W r Hr) Bi) as [r' E]; [|eauto].
    intros n Hn A. exact (N r (n_id n) Hr A n Hn eq_refl).
  Qed.
  Lemma remap_kwargs_total cx l : inputs_bound cx -> (forall r, In r (map snd l) -> well_named g r) -> (forall r x, In r (map snd l) -> about r x -> named cx x) -> exists l', remap_kwargs cx [] "" l = Ok l'.
  Proof.
    intros Bi W N. destruct (rmapM_f2 (fun e : string * ref => let? r := remap cx [] "" (snd e) in Ok (fst e, r)) (fun _ _ => True) l) as (l' & E & _); [|eauto]. intros e He. assert (Hr := in_map snd _ _ He).
    destruct (remap_total cx g (snd e) (W _ Hr) Bi) as [r' E]; [|rewrite E; cbn; eauto]. intros n Hn A. exact (N _ (n_id n) Hr A n Hn eq_refl).
  Qed.

  Lemma place_total cx nodes u : listed u -> inputs_bound cx -> node_ctx g cx -> (forall x y, members u y -> is_leaf g y -> feeds g x y -> ~ members u x -> named cx x) ->
    exists cx' nd, place g (cx, nodes) u = Ok (cx', nodes ++ [nd]) /\ (forall k, bound cx k -> bound cx' k) /\ node_ctx g cx' /\ (forall x, results u x -> named cx' x) /\ has_unit [nd] u.
  Proof.
    intros L Bi Nc Need. destruct u as [i|j sub]; cbn [place].
    - destruct (unit_node i L) as (n & Hn & <-). rewrite (get_node_in g (n_id n) n (tidy_ids g T) Hn eq_refl).
      assert (W : forall r, In r (call_refs n) -> well_named g r) by (intros r Hr; exact (tidy_refs g T n r Hn Hr)).
      assert (N : forall r x, In r (call_refs n) -> about r x -> named cx x).
      { intros r x Hr A. assert (Fx : feeds g x (n_id n)) by (exists n, r; repeat split; [exact Hn|now apply call_refs_in|exact A]). destruct (in_dec Nat.eq_dec (n_id n) (g_folds g)) as [F|F].
        - destruct (Folds n Hn F) as [_ Fa]. destruct (Fa r x Hr A) as (Nx & y & Iy & Fy). apply (Need x y); [left; now split|exact (proj2 Iy)|exact Fy|]. intros [[_ K]|[K _]]; contradiction.
        - assert (Ln : is_leaf g (n_id n)) by (split; [now apply in_map|exact F]). apply (Need x (n_id n)); [right; now split|exact Ln|exact Fx|]. intros [[K _]|[_ ->]]; [contradiction|]. apply Acyclic. exists (n_id n). split; [exact Ln|now constructor]. }
      destruct (remap_args_total cx (n_args n) Bi) as [a Ea]; [intros r Hr; apply W; unfold call_refs; apply in_app_iff; now left|intros r x Hr; apply N; unfold call_refs; apply in_app_iff; now left|].
      destruct (remap_kwargs_total cx (n_kwargs n) Bi) as [kw Ek]; [intros r Hr; apply W; unfold call_refs; apply in_app_iff; now right|intros r x Hr; apply N; unfold call_refs; apply in_app_iff; now right|].
      rewrite Ea, Ek. cbn [rbind]. eexists _, _. split; [reflexivity|]. split; [|split; [|split]].
      + intros k Bk. apply bound_all. left. now apply bound_set.
      + apply node_ctx_bind; [apply node_ctx_set; [exact Nc|exact I]|]. intros e He. destruct (nmem (n_id n) (g_folds g)); [|destruct He]. apply in_flat_map in He. destruct He as (o & Ho & He). destruct (get_node g (fst o)); [|destruct He]. destruct He as [<-|[]]. cbn [snd]. eapply output_refs_nodeish; [|exact Ho]. exact I.
      + intros x Rx m Hm Em. apply bound_all. destruct (nmem (n_id n) (g_folds g)) eqn:F.
        * apply nmem_in in F. right. destruct Rx as [[_ Rx]|[K _]]; [|contradiction]. apply (proj1 (proj2 (fold_outputs_exposed g (n_id n) T))) in Rx. rewrite <- (output_refs_fst (RNode (length nodes) (n_name n)) (fold_outputs g (n_id n))) in Rx.
          apply in_map_iff in Rx. destruct Rx as (o & Eo & Ho). apply in_map_iff. exists (n_name m, snd o). split; [reflexivity|]. apply in_flat_map. exists o. split; [exact Ho|]. rewrite Eo, (get_node_in g x m (tidy_ids g T) Hm Em). now left.
        * left. destruct Rx as [[K _]|[_ ->]]; [apply nmem_in in K; congruence|]. assert (m = n) as -> by exact (node_unique g m n (tidy_ids g T) Hm Hn Em). apply bound_set_here.
      + cbn. intros m Hm Em. assert (m = n) as -> by exact (node_unique g m n (tidy_ids g T) Hm Hn Em). now left.
    - inversion L as [| |P ? ? Is]; subst. assert (C := proj2 (SubsA _ _ _ Is)). assert (Me := fun x => sub_members g ord ord' Hord Hord' T P sub x C).
      destruct (create_inv g ord ord' Hord Hord' T P sub C) as (ins & internal & _ & Hins & Gi & _ & _ & _).
      destruct (rmapM_f2 (resolve_input cx) (fun _ _ => True) (map fst (g_inputs sub))) as (a & Ea & _).
      { intros k Hk. rewrite Gi, combine_seq_fst in Hk. apply Hins in Hk. destruct Hk as (n & r & [Hn Pn] & Hr & Hk). assert (Wr := well_named_unwrap _ _ (tidy_refs g T n r Hn Hr)).
        assert (B : exists nm, bound cx nm /\ ~ has_char "["%char nm /\ (k = nm \/ exists at_, k = lifted_key nm at_)).
        { unfold external_dependency in Hk. destruct (unwrap r) as [x nm|x nm|x|q b] eqn:Eu; try (destruct Hk; fail).
          - destruct (nmem x P) eqn:M; [destruct Hk|]. destruct Hk as [<-|[]]. exists nm. inversion Wr as [m Hm Lm| | |]; subst. split; [|split; [exact (node_bracket g m T Hm)|destruct r; eauto]].
            refine (Need (n_id m) (n_id n) _ _ _ _ m Hm eq_refl).
            + cbn. now apply Me.
            + exact (path_leaf P j sub (n_id n) Is Pn).
            + exists n, r. repeat split; [exact Hn|now apply call_refs_in|]. apply about_unwrap. eauto.
            + cbn. intros K. apply Me in K. apply nmem_in in K. congruence.
          - destruct Hk as [<-|[]]. exists nm. inversion Wr; subst. split; [now apply (Bi nm x)|]. split; [now apply (input_bracket g nm x T)|]. destruct r; eauto. }
        destruct B as (nm & [x Ex] & Nb & [->|[at_ ->]]); unfold resolve_input.
        - rewrite (partition_none nm Nb). unfold clookup. rewrite Ex. eauto.
        - rewrite (partition_lifted nm at_ Nb), strip_app. unfold clookup. rewrite Ex. cbn. eauto. }
      rewrite Ea. cbn [rbind]. eexists _, _. split; [reflexivity|]. split; [|split; [|split]].
      + intros k Bk. apply bound_all. now left.
      + apply node_ctx_bind; [exact Nc|]. intros e He. apply in_flat_map in He. destruct He as (o & Ho & He). destruct (unwrap (fst o)); try (destruct He; fail). destruct He as [<-|[]]. cbn [snd]. eapply output_refs_nodeish; [|exact Ho]. exact I.
      + intros x Rx m Hm Em. apply bound_all. right. cbn in Rx. apply base_ids_in in Rx. destruct Rx as (o & Ho & Ao). assert (Ho' := Ho). rewrite (sub_outputs g ord ord' Hord Hord' T P sub C) in Ho'.
        apply (external_outputs_in g ord Hord T) in Ho'. destruct Ho' as (m' & Hm' & _ & _ & Eu & _). apply about_unwrap in Ao. destruct Ao as [nm En]. rewrite En in Eu. injection Eu as -> ->.
        assert (m = m') as -> by exact (node_unique g m m' (tidy_ids g T) Hm Hm' Em). rewrite <- (output_refs_fst (RNode (length nodes) (sub_name j)) (g_outputs sub)) in Ho. apply in_map_iff in Ho. destruct Ho as (e & Ee & He).
        apply in_map_iff. exists (n_name m', snd e). split; [reflexivity|]. apply in_flat_map. exists e. split; [exact He|]. rewrite Ee, En. now left.
      + cbn. now left.
  Qed.

  Lemma has_unit_more nodes more u : has_unit nodes u -> has_unit (nodes ++ more) u.
  Proof. destruct u as [i|j sub]; cbn [has_unit]; [intros H n Hn En|intros H]; rewrite map_app, in_app_iff; left; auto. Qed.
  Lemma has_unit_last nodes nd u : has_unit [nd] u -> has_unit (nodes ++ [nd]) u.
  Proof. destruct u as [i|j sub]; cbn [has_unit]; [intros H n Hn En|intros H]; rewrite map_app, in_app_iff; right; auto. Qed.

  Lemma rfold_cons {A B} (h : A -> B -> result A) b l a : rfold h (b :: l) a = (let? x := h a b in rfold h l x).
  Proof. reflexivity. Qed.

  Lemma place_loop (ks : list (nat * unit_)) : (forall k u, In (k, u) ks -> listed u /\ key_spec u k) -> (forall u, listed u -> exists k, In (k, u) ks) -> StronglySorted (fun a b => fst a <= fst b) ks ->
    forall done todo cx nodes, ks = done ++ todo -> inputs_bound cx -> node_ctx g cx -> (forall k u, In (k, u) done -> (forall x, results u x -> named cx x) /\ has_unit nodes u) ->
    exists cx' nodes', rfold (place g) (map snd todo) (cx, nodes) = Ok (cx', nodes') /\ inputs_bound cx' /\ node_ctx g cx' /\ (forall k u, In (k, u) ks -> (forall x, results u x -> named cx' x) /\ has_unit nodes' u).
  Proof.
    intros Hk All So done todo. revert done. induction todo as [|[k u] todo IH]; intros done cx nodes E Bi Nc Hd.
    - exists cx, nodes. rewrite app_nil_r in E. subst done. split; [reflexivity|]. split; [exact Bi|]. split; [exact Nc|exact Hd].
    - assert (Hu : In (k, u) ks) by (rewrite E; apply in_app_iff; right; now left). destruct (Hk k u Hu) as [Lu Ku].
      destruct (place_total cx nodes u Lu Bi Nc) as (cx' & nd & Ep & Mono & Nc' & Rs & Ht).
      { intros x y My Ly F Nx. assert (Lx := feeds_leaf x y F). destruct (covered x Lx) as (u' & L' & Mx). destruct (All u' L') as [k' H']. destruct (Hk k' u' H') as [_ K'].
        destruct (needed_earlier u u' x y k k' Lu L' My Mx Nx F Ly Ku K') as [Rx Lt]. rewrite E in H'. apply in_app_iff in H'. destruct H' as [H'|[H'|H']].
        - exact (proj1 (Hd k' u' H') x Rx).
        - injection H' as -> _. lia.
        - exfalso. rewrite E in So. assert (Z := sorted_split _ done (k, u) todo So _ H'). cbn in Z. lia. }
      cbn [map snd]. rewrite rfold_cons, Ep. cbn [rbind]. destruct (IH (done ++ [(k, u)]) cx' (nodes ++ [nd])) as (cx2 & nodes2 & E2 & R2).
      + rewrite E, <- app_assoc. reflexivity.
      + intros q i Hi. apply Mono. exact (Bi q i Hi).
      + exact Nc'.
      + intros k' u' H'. apply in_app_iff in H'. destruct H' as [H'|[H'|[]]].
        * destruct (Hd k' u' H') as [D1 D2]. split; [intros x Rx m Hm Em; apply Mono; exact (D1 x Rx m Hm Em)|now apply has_unit_more].
        * injection H' as <- <-. split; [exact Rs|now apply has_unit_last].
      + exists cx2, nodes2. split; [exact E2|exact R2].
  Qed.

  Lemma order_total : exists order cx nodes, node_order g units = Ok order /\
    rfold (place g) order (map (fun e => (fst e, RInput (snd e) (fst e))) (combine (map fst (g_inputs g)) (seq 0 (length (g_inputs g)))), []) = Ok (cx, nodes) /\
    inputs_bound cx /\ node_ctx g cx /\ forall u, listed u -> (forall x, results u x -> named cx x) /\ has_unit nodes u.
  Proof.
    unfold node_order. rewrite Topo. cbn [rbind].
    destruct (rmapM_f2 (fun u => let? k := sort_key g topo u in Ok (k, u)) (fun u e => snd e = u /\ key_spec u (fst e)) units) as (ks & E & F).
    { intros u Hu. apply units_in in Hu. destruct (sort_key_ok u Hu) as (k & Ek & K). rewrite Ek. exists (k, u). now split. }
    rewrite E. cbn [rbind]. destruct (sort_ok ks) as (sl & Es & P & So).
    assert (Hk : forall k u, In (k, u) sl -> listed u /\ key_spec u k).
    { intros k u H. apply (Permutation_in _ P) in H. destruct (Forall2_In_r _ _ _ _ F H) as (u0 & Hu0 & Eu & K). cbn in Eu, K. subst u0. split; [now apply units_in|exact K]. }
    assert (All : forall u, listed u -> exists k, In (k, u) sl).
    { intros u Hu. apply units_in in Hu. destruct (Forall2_In_l _ _ _ _ F Hu) as ([k u0] & H & Eu & _). cbn in Eu. subst u0. exists k. exact (Permutation_in _ (Permutation_sym P) H). }
    set (cx0 := map (fun e : string * nat => (fst e, RInput (snd e) (fst e))) _).
    assert (Keys : map fst cx0 = map fst (g_inputs g)).
    { unfold cx0. rewrite map_map. cbn [fst]. change (fun x : string * nat => fst x) with (@fst string nat). rewrite <- (map_length fst (g_inputs g)). apply combine_seq_fst. }
    destruct (place_loop sl Hk All So [] sl cx0 [] eq_refl) as (cx & nodes & Ep & Bi & Nc & Hd).
    - intros k i Hi. apply cget_some. rewrite Keys. change k with (fst (k, i)). now apply in_map.
    - intros k r Hr. left. apply cget_in in Hr. rewrite <- Keys. change k with (fst (k, r)). now apply in_map.
    - intros k u [].
    - exists (sort_units ks), cx, nodes. split; [reflexivity|]. rewrite Es. split; [exact Ep|]. split; [exact Bi|]. split; [exact Nc|]. intros u Lu. destruct (All u Lu) as [k H]. exact (Hd k u H).
  Qed.

  Lemma outputs_total cx : inputs_bound cx -> node_ctx g cx -> (forall u, listed u -> forall x, results u x -> named cx x) ->
    exists outs, remap_args cx [] "" (g_outputs g) = Ok outs /\ existsb (fun r => match r with RNode _ _ | RAttr _ _ => false | _ => true end) outs = false.
  Proof.
    intros Bi Nc Hd. destruct (remap_args_total cx (g_outputs g) Bi) as [outs E].
    - intros r Hr. exact (proj1 (tidy_outputs g T r Hr)).
    - intros r x Hr A. destruct (tidy_outputs g T r Hr) as [W _]. assert (Lx : is_leaf g x).
      { apply well_named_unwrap in W. apply about_unwrap in A. destruct A as [nm Eu]. rewrite Eu in W. inversion W as [m Hm Lm| | |]; subst. split; [now apply in_map|exact Lm]. }
      destruct (covered x Lx) as (u & Lu & Mx). exact (Hd u Lu x (output_result u x r Lu Mx Hr A)).
    - exists outs. split; [exact E|]. destruct (existsb _ outs) eqn:Ex; [|reflexivity]. exfalso. apply existsb_exists in Ex. destruct Ex as (r' & Hr' & Z). apply rmapM_inv in E. destruct (Forall2_In_r _ _ _ _ E Hr') as (r & Hr & Er).
      destruct (tidy_outputs g T r Hr) as [W [x A]]. destruct r as [i nm|i nm|i|r a].
      + cbn [remap smem existsb] in Er. unfold clookup in Er. destruct (cget nm cx) as [q|] eqn:Eq; [|discriminate]. injection Er as <-. inversion W as [m Hm Lm| | |]; subst. destruct (Nc _ _ Eq) as [K|K].
        * apply in_map_iff in K. destruct K as ([k j] & Ek & K). cbn in Ek. exact (input_not_node g m k j T Hm K (eq_sym Ek)).
        * destruct q; try discriminate; contradiction.
      + inversion A.
      + inversion A.
      + cbn [remap] in Er. destruct (match match unwrap r with RNode _ n => if smem n [] then None else Some (lifted_key n a) | RInput _ n => Some (lifted_key n a) | _ => None end with Some k => cget k cx | None => None end) as [q|] eqn:Eq.
        * injection Er as <-. destruct (match unwrap r with RNode _ n => if smem n [] then None else Some (lifted_key n a) | RInput _ n => Some (lifted_key n a) | _ => None end) as [k|] eqn:Ek; [|discriminate].
          destruct (Nc _ _ Eq) as [K|K]; [|destruct q; try discriminate; contradiction]. apply in_map_iff in K. destruct K as ([k' j] & Ek' & K). cbn in Ek'. subst k'. apply (input_bracket g k j T K).
          destruct (unwrap r); cbn in Ek; try discriminate; injection Ek as <-; apply lifted_bracket.
        * destruct (remap cx [] "" r); [|discriminate]. cbn in Er. injection Er as <-. discriminate.
  Qed.
End Total.

Lemma set_delegate_total t d l : In t (map n_target l) -> exists l', set_delegate t d l = Ok l' /\ map n_target l' = map n_target l.
Proof.
  induction l as [|n l IH]; [intros []|]. cbn [map set_delegate]. intros H. destruct (Nat.eqb_spec (n_target n) t) as [E|E]; [eexists; split; reflexivity|].
  destruct H as [H|H]; [contradiction|]. destruct (IH H) as (l' & -> & El). cbn. exists (n :: l'). split; [reflexivity|]. cbn. now rewrite El.
Qed.
Lemma delegates_total (l : list (nat * subgraph_spec)) : forall nodes, (forall e, In e l -> In (fst e) (map n_target nodes)) ->
  exists nodes', rfold (fun l e => set_delegate (fst e) (s_delegate (snd e)) l) l nodes = Ok nodes'.
Proof.
  induction l as [|e l IH]; intros nodes H; [exists nodes; reflexivity|]. rewrite rfold_cons. destruct (set_delegate_total (fst e) (s_delegate (snd e)) nodes (H e (or_introl eq_refl))) as (n1 & -> & E1). cbn [rbind].
  apply IH. intros e' He. rewrite E1. apply H. now right.
Qed.

Lemma reduce_total g ord ord' specs paths : (forall l, Permutation (ord l) l) -> (forall l, Permutation (ord' l) l) -> tidy g -> ~ cyclic g -> orderly_folds g ->
  Forall2 (fun sp P => exists sub, resolve_spec ord ord' g sp = Ok (P, sub)) specs paths -> apart g paths ->
  Forall2 (fun sp P => (exists t, s_region sp = RModule t) \/ orderly g (fun x => In x P) (seen g P)) specs paths ->
  exists g' subs ts, reduce_resolution ord ord' g specs = Ok (g', subs, ts).
Proof.
  intros Ho Ho' T Ac Fo Res Ap Reg. assert (Hord := perm_in ord Ho). assert (Hord' := perm_in ord' Ho').
  destruct (resolve_all_ok g ord ord' specs paths 0 [] Res (proj1 Ap)) as (subs & ts & E & A & B & C & D & Ee); [intros ? ? ? ? []|]. cbn [app] in E.
  unfold reduce_resolution. rewrite E. cbn [rbind].
  destruct (complement_ok g T (concat paths)) as (comp & Ec & C1 & C2). rewrite Ec. cbn [rbind].
  destruct (sort_exactly g (tidy_ids g T)) as [[_ So] _]. destruct So as [topo Topo].
  { split; [exact Ac|]. intros a b _ F. exact (feeds_leaf g T a b F). }
  assert (SubsO : forall P j sub, In (P, j, sub) subs -> orderly g (fun x => In x P) (seen g P)).
  { intros P j sub I. destruct (Ee P j sub I) as (sp & H & N). clear - Reg H N. induction Reg as [|x y l l' Hxy F IH]; [destruct H|]. destruct H as [H|H]; [|now apply IH]. injection H as -> ->. destruct Hxy as [[t Ht]|O]; [exfalso; exact (N t Ht)|exact O]. }
  destruct (order_total g ord ord' Hord Hord' T paths Ap Fo Ac subs A B C SubsO comp C1 C2 topo Topo) as (order & cx & nodes & Eo & Ep & Bi & Nc & Hd).
  unfold units in Eo. rewrite Eo. cbn [rbind]. rewrite Ep. cbn [rbind].
  destruct (outputs_total g ord ord' Hord Hord' T paths subs A SubsO comp C2 cx Bi Nc (fun u L => proj1 (Hd u L))) as (outs & Er & Ex). rewrite Er. cbn [rbind]. rewrite Ex.
  destruct (delegates_total (combine ts specs) nodes) as [nodes' Ed]; [|rewrite Ed; cbn [rbind]; eauto].
  intros [t sp] He. cbn [fst]. assert (K : (exists n, In n (g_nodes g) /\ n_target n = t /\ In [n_id n] paths /\ forall P j sub, In (P, j, sub) subs -> ~ In (n_id n) P) \/ exists P j sub, In (P, j, sub) subs /\ t = first_free g + j).
  { clear - D He. induction D as [|x y l l' Hxy F IH]; [destruct He|]. destruct He as [H|H]; [injection H as -> ->; exact Hxy|now apply IH]. }
  destruct K as [(n & Hn & <- & HP & N)|(P & j & sub & I & ->)].
  - refine (proj2 (Hd (UNode (n_id n)) _) n Hn eq_refl). apply l_rest. apply rest_in; [exact Hord|]. split; [|exact N]. apply in_concat. exists [n_id n]. split; [exact HP|now left].
  - exact (proj2 (Hd (USub j sub) (l_sub ord paths subs comp P j sub I))).
Qed.
