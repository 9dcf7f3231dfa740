(** Building graphs: inlining a subgraph, and what holds of every graph built. *)
From Coq Require Import String Ascii Relations.
From Verif Require Import Prelude GraphModel GraphSpec GraphProofs EngineModel EngineSpec EngineOptProofs CoarseModel CoarseSpec CoarseValueProofs CoarseBaseProofs BuildModel BuildSpec.
Local Open Scope nat_scope.
Local Open Scope list_scope.

Lemma rmapM_Forall2 {A B} (f : A -> result B) l : forall l', rmapM f l = Ok l' <-> Forall2 (fun a b => f a = Ok b) l l'.
Proof.
  induction l as [|a l IH]; intros l'; cbn [rmapM].
  - split; [intros H; injection H as <-; constructor|intros H; inversion H; reflexivity].
  - split.
    + destruct (f a) eqn:E; [|discriminate]. cbn [rbind]. destruct (rmapM f l) eqn:E2; [|discriminate]. cbn [rbind]. intros H. injection H as <-. constructor; [exact E|]. now apply IH.
    + intros H. inversion H as [|? b ? bs Hab F]; subst. rewrite Hab. cbn [rbind]. apply IH in F. now rewrite F.
Qed.
Lemma has_id_in g i : has_id g i = true <-> In i (map n_id (g_nodes g)).
Proof. apply nmem_in. Qed.

(** ** Binding arguments *)
Lemma cget_combine names (args : list ref) k : NoDup names -> forall r, cget k (combine names args) = Some r <-> exists i, nth_error names i = Some k /\ nth_error args i = Some r.
Proof.
  revert args. induction names as [|n names IH]; intros args N r; [split; [discriminate|intros (i & E & _); destruct i; discriminate]|].
  destruct args as [|a args]; [split; [discriminate|intros (i & _ & E); destruct i; discriminate]|]. inversion N as [|? ? Nn N']; subst. unfold cget in *. cbn [combine aget]. destruct (String.eqb_spec n k) as [->|Ne].
  - split; [intros E; injection E as ->; now exists 0|]. intros ([|i] & E1 & E2); [cbn in E2; now injection E2 as ->|]. destruct Nn. exact (nth_error_In names i E1).
  - rewrite (IH args N' r). split; [intros (i & E1 & E2); now exists (S i)|]. intros ([|i] & E1 & E2); [injection E1 as ->; contradiction|now exists i].
Qed.
Lemma bind_kwargs_inv names kwargs : forall b cx, bind_kwargs names kwargs b = Ok cx ->
  (forall k, In k (map fst kwargs) -> In k names /\ cget k b = None) /\ NoDup (map fst kwargs) /\ forall k, cget k cx = match aget String.eqb k kwargs with Some r => Some r | None => cget k b end.
Proof.
  induction kwargs as [|[k r] kwargs IH]; intros b cx E; cbn [bind_kwargs] in E; [injection E as <-; split; [intros ? []|split; [constructor|reflexivity]]|].
  destruct (smem k names) eqn:Es; [|discriminate]. cbn [negb] in E. destruct (cget k b) eqn:Ek; [discriminate|]. destruct (IH _ _ E) as (A & N & B). apply smem_in in Es.
  assert (Nk : ~ In k (map fst kwargs)). { intros H. destruct (A k H) as [_ C]. rewrite cget_cset, String.eqb_refl in C. discriminate. }
  split; [|split].
  - intros k' [<-|H]; [now split|]. destruct (A k' H) as [A1 A2]. split; [exact A1|]. rewrite cget_cset in A2. destruct (String.eqb k k'); [discriminate|exact A2].
  - cbn. now constructor.
  - intros k'. rewrite B. cbn [aget]. rewrite cget_cset. destruct (String.eqb_spec k k') as [->|Ne]; [|reflexivity].
    destruct (aget String.eqb k' kwargs) eqn:Ea; [|reflexivity]. exfalso. apply Nk. clear -Ea. induction kwargs as [|[a b] l IH]; [discriminate|]. cbn in *. destruct (String.eqb_spec a k') as [->|]; [now left|right; now apply IH].
Qed.
Lemma aget_In (l : list (string * ref)) k r : NoDup (map fst l) -> (aget String.eqb k l = Some r <-> In (k, r) l).
Proof.
  induction l as [|[a b] l IH]; intros N; cbn; [split; [discriminate|intros []]|]. inversion N as [|? ? Na N']; subst. destruct (String.eqb_spec a k) as [->|Ne].
  - split; [intros E; injection E as ->; now left|]. intros [E|H]; [now injection E as ->|]. destruct Na. apply in_map_iff. now exists (k, r).
  - rewrite (IH N'). split; [now right|intros [E|H]; [injection E as -> ->; contradiction|exact H]].
Qed.
Lemma aget_None (l : list (string * ref)) k : aget String.eqb k l = None <-> ~ In k (map fst l).
Proof.
  induction l as [|[a b] l IH]; cbn; [tauto|]. destruct (String.eqb_spec a k) as [->|Ne]; [split; [discriminate|intros H; destruct H; now left]|]. rewrite IH. tauto.
Qed.
Lemma bound_cx names args kwargs cx : NoDup names -> bind_kwargs names kwargs (zip names args) = Ok cx -> forall k r, cget k cx = Some r <-> bound names args kwargs k r.
Proof.
  intros N E k r. destruct (bind_kwargs_inv _ _ _ _ E) as (A & Nk & B). rewrite B. unfold bound. destruct (aget String.eqb k kwargs) as [r'|] eqn:Ea.
  - apply (aget_In kwargs k r' Nk) in Ea. split; [intros H; injection H as ->; now right|]. intros [H|H].
    + apply (cget_combine names args k N r) in H. destruct (A k) as [_ C]; [apply in_map_iff; now exists (k, r')|]. unfold zip in C. congruence.
    + apply (aget_In kwargs k r Nk) in H. apply (aget_In kwargs k r' Nk) in Ea. congruence.
  - rewrite (cget_combine names args k N r). split; [now left|]. intros [H|H]; [exact H|]. apply (aget_In kwargs k r Nk) in H. congruence.
Qed.
Lemma bind_kwargs_ok names kwargs : forall b, NoDup (map fst kwargs) -> (forall k, In k (map fst kwargs) -> In k names /\ cget k b = None) -> exists cx, bind_kwargs names kwargs b = Ok cx.
Proof.
  induction kwargs as [|[k r] kwargs IH]; intros b N H; cbn [bind_kwargs]; [eauto|]. destruct (H k (or_introl eq_refl)) as [H1 H2]. apply smem_in in H1. rewrite H1, H2. cbn [negb]. inversion N as [|? ? Nk N']; subst.
  apply IH; [exact N'|]. intros k' Hk'. destruct (H k' (or_intror Hk')) as [A B]. split; [exact A|]. rewrite cget_cset. destruct (String.eqb_spec k k') as [->|]; [contradiction|exact B].
Qed.
Lemma bind_kwargs_err names kwargs : forall b e, bind_kwargs names kwargs b = Err e -> e = ValueError.
Proof.
  induction kwargs as [|[k r] kwargs IH]; intros b e E; cbn [bind_kwargs] in E; [discriminate|]. destruct (smem k names); cbn [negb] in E; [|now injection E as <-]. destruct (cget k b); [now injection E as <-|eauto].
Qed.

Lemma nth_skipn {A} n : forall (l : list A) i, nth_error (skipn n l) i = nth_error l (n + i).
Proof. induction n as [|n IH]; intros [|a l] i; cbn; try reflexivity; [destruct i; reflexivity|apply IH]. Qed.
Lemma NoDup_skipn {A} n : forall (l : list A), NoDup l -> NoDup (skipn n l).
Proof. induction n as [|n IH]; intros [|a l] N; cbn; try assumption. inversion N; subst. now apply IH. Qed.
Lemma NoDup_length_incl_rev {A} (l l' : list A) : NoDup l -> length l' <= length l -> incl l l' -> incl l' l.
Proof. intros N L I. now apply NoDup_length_incl. Qed.

(** the checks are those of a call *)
Lemma call_checks names (args : list ref) kwargs : NoDup names -> NoDup (map fst kwargs) ->
  (length args + length kwargs = length names /\ (exists cx, bind_kwargs names kwargs (zip names args) = Ok cx)) <-> call_ok names args kwargs.
Proof.
  intros N Nk. assert (Z : forall k, cget k (zip names args) = None <-> forall i, nth_error names i = Some k -> length args <= i).
  { intros k. split.
    - intros E i Ei. destruct (Nat.le_gt_cases (length args) i) as [L|L]; [exact L|]. apply nth_error_Some in L. destruct (nth_error args i) as [r|] eqn:Er; [|congruence].
      assert (K : cget k (zip names args) = Some r) by (apply (cget_combine names args k N r); eauto). congruence.
    - intros H. destruct (cget k (zip names args)) as [r|] eqn:E; [|reflexivity]. apply (cget_combine names args k N r) in E. destruct E as (i & E1 & E2). apply H in E1. apply nth_error_None in E1. congruence. }
  split.
  - intros (L & cx & E). destruct (bind_kwargs_inv _ _ _ _ E) as (A & _ & _). assert (A' : forall k, In k (map fst kwargs) -> exists i, nth_error names i = Some k /\ length args <= i).
    { intros k Hk. destruct (A k Hk) as [A1 A2]. apply In_nth_error in A1. destruct A1 as (i & Ei). exists i. split; [exact Ei|]. exact (proj1 (Z k) A2 i Ei). }
    split; [lia|]. split.
    + intros k v Hk. apply A'. apply in_map_iff. now exists (k, v).
    + intros i n Ei Li. assert (I : incl (skipn (length args) names) (map fst kwargs)).
      { apply NoDup_length_incl_rev; [|rewrite map_length, skipn_length; lia|].
        - exact Nk.
        - intros k Hk. destruct (A' k Hk) as (j & Ej & Lj). apply (nth_error_In _ (j - length args)). rewrite nth_skipn. now replace (length args + (j - length args)) with j by lia. }
      assert (Hn : In n (skipn (length args) names)). { apply (nth_error_In _ (i - length args)). rewrite nth_skipn. now replace (length args + (i - length args)) with i by lia. }
      apply I in Hn. apply in_map_iff in Hn. destruct Hn as ([k v] & <- & Hn). now exists v.
  - intros (L & A & B). assert (A' : forall k, In k (map fst kwargs) -> In k names /\ cget k (zip names args) = None).
    { intros k Hk. apply in_map_iff in Hk. destruct Hk as ([k' v] & <- & Hk). destruct (A k' v Hk) as (i & Ei & Li). split; [exact (nth_error_In _ _ Ei)|]. apply Z. intros j Ej. cbn in Ej.
      assert (i = j) as <-; [|exact Li]. rewrite NoDup_nth_error in N. apply N; [apply nth_error_Some; congruence|congruence]. }
    split; [|now apply bind_kwargs_ok]. assert (E1 : length kwargs <= length names - length args).
    { rewrite <- (map_length fst kwargs), <- skipn_length. apply NoDup_incl_length; [exact Nk|]. intros k Hk. apply in_map_iff in Hk. destruct Hk as ([k' v] & <- & Hk). destruct (A k' v Hk) as (i & Ei & Li).
      apply (nth_error_In _ (i - length args)). rewrite nth_skipn. now replace (length args + (i - length args)) with i by lia. }
    assert (E2 : length names - length args <= length kwargs).
    { rewrite <- (map_length fst kwargs), <- skipn_length. apply NoDup_incl_length; [now apply NoDup_skipn|]. intros k Hk. apply In_nth_error in Hk. destruct Hk as (i & Hi). rewrite nth_skipn in Hi. destruct (B _ _ Hi) as (v & Hv); [lia|]. apply in_map_iff. now exists (k, v). }
    lia.
Qed.

Lemma NoDup_app_intro {A} (l l' : list A) : NoDup l -> NoDup l' -> (forall x, In x l -> ~ In x l') -> NoDup (l ++ l').
Proof. induction 1 as [|a l H N IH]; intros N' D; cbn; [exact N'|]. constructor; [rewrite in_app_iff; intros [K|K]; [contradiction|apply (D a (or_introl eq_refl) K)]|]. apply IH; [exact N'|]. intros x Hx. apply D. now right. Qed.

(** ** Inlining *)
Definition inlined (cx : context) (internal : list string) (name : string) (fold : option nat) (n n' : gnode) : Prop :=
  remap_args cx internal name (n_args n) = Ok (n_args n') /\ remap_kwargs cx internal name (n_kwargs n) = Ok (n_kwargs n') /\
  n_id n' = n_id n /\ n_name n' = (name ++ "." ++ n_name n)%string /\ n_target n' = n_target n /\ n_op n' = n_op n /\ n_parent n' = match n_parent n with Some p => Some p | None => fold end.
Lemma inline_nodes_inv cx internal name fold folds : forall l g g', inline_nodes cx internal name fold folds g l = (g', Ok tt) ->
  exists l', g_nodes g' = g_nodes g ++ l' /\ Forall2 (inlined cx internal name fold) l l' /\ g_inputs g' = g_inputs g /\ g_outputs g' = g_outputs g /\
    g_folds g' = g_folds g ++ map n_id (filter (fun n => nmem (n_id n) folds) l) /\ (NoDup (ids_of g) -> NoDup (ids_of g')).
Proof.
  induction l as [|n l IH]; intros g g' E; cbn [inline_nodes] in E.
  - injection E as <-. exists []. rewrite !app_nil_r. repeat split; [constructor|auto].
  - destruct (inline_node _ _ _ _ _ g n) as [g1|] eqn:E1; [|discriminate]. destruct (IH _ _ E) as (l' & H1 & H2 & H3 & H4 & H5 & H6). unfold inline_node in E1.
    destruct (remap_args cx internal name (n_args n)) as [a|] eqn:Ea; [|discriminate]. cbn [rbind] in E1. destruct (remap_kwargs cx internal name (n_kwargs n)) as [k|] eqn:Ek; [|discriminate]. cbn [rbind] in E1.
    unfold add_node in E1. destruct (has_id g _) eqn:Eh; [discriminate|]. cbn [rbind] in E1. cbn [n_id] in Eh.
    set (n' := mkNode (n_id n) (name ++ "." ++ n_name n) (n_target n) a (n_op n) k None match n_parent n with Some p => Some p | None => fold end) in *.
    assert (G1 : g_nodes g1 = g_nodes g ++ [n'] /\ g_inputs g1 = g_inputs g /\ g_outputs g1 = g_outputs g /\ g_folds g1 = g_folds g ++ (if nmem (n_id n) folds then [n_id n] else [])).
    { destruct (nmem (n_id n) folds); injection E1 as <-; cbn; rewrite ?app_nil_r; auto. }
    destruct G1 as (G1 & G2 & G3 & G4). exists (n' :: l'). split; [rewrite H1, G1, <- app_assoc; reflexivity|]. split; [constructor; [unfold n'; repeat split; assumption|exact H2]|]. split; [congruence|]. split; [congruence|]. split.
    + rewrite H5, G4, <- app_assoc. f_equal. cbn [filter]. destruct (nmem (n_id n) folds); reflexivity.
    + intros N. apply H6. unfold ids_of in *. rewrite G1, map_app. cbn. apply NoDup_app_intro.
      * exact N.
      * constructor; [intros []|constructor].
      * intros x Hx [<-|[]]. assert (has_id g (n_id n) = true) by now apply has_id_in. congruence.
Qed.

Definition sorted_nodes (sub : graph) : list gnode := filter (fun n => nmem (n_id n) (g_folds sub)) (g_nodes sub) ++ filter (fun n => negb (nmem (n_id n) (g_folds sub))) (g_nodes sub).
Lemma sorted_in sub n : In n (sorted_nodes sub) <-> In n (g_nodes sub).
Proof.
  unfold sorted_nodes. rewrite in_app_iff, !filter_In. destruct (nmem (n_id n) (g_folds sub)); cbn; intuition congruence.
Qed.
Definition fold_nodes (fid : nat) (name : string) (args : list ref) (kwargs : list (string * ref)) (original : option nat) : list gnode :=
  match original with None => [] | Some t => [mkNode fid name t args TorchModule kwargs None None] end.

Lemma filter_false {A} (p : A -> bool) l : (forall x, In x l -> p x = false) -> filter p l = [].
Proof. induction l as [|a l IH]; intros H; [reflexivity|]. cbn. rewrite (H a (or_introl eq_refl)). apply IH. intros x Hx. apply H. now right. Qed.
Lemma filter_true {A} (p : A -> bool) l : (forall x, In x l -> p x = true) -> filter p l = l.
Proof. induction l as [|a l IH]; intros H; [reflexivity|]. cbn. rewrite (H a (or_introl eq_refl)). f_equal. apply IH. intros x Hx. apply H. now right. Qed.
(** the arguments of the fold are those given *)
Lemma fold_args names args kwargs cx : NoDup names -> bind_kwargs names kwargs (zip names args) = Ok cx -> length args + length kwargs = length names ->
  rmapM (fun e => let? r := clookup (fst e) cx in Ok (fst e, r)) kwargs = Ok kwargs /\ rmapM (fun n => clookup n cx) (filter (fun n => negb (smem n (map fst kwargs))) names) = Ok args.
Proof.
  intros N E L. assert (B := bound_cx names args kwargs cx N E). destruct (bind_kwargs_inv _ _ _ _ E) as (A & Nk & _).
  assert (C : call_ok names args kwargs). { apply call_checks; [exact N|exact Nk|]. split; [exact L|eauto]. } destruct C as (_ & C1 & C2). split.
  - apply rmapM_Forall2. assert (H : forall e, In e kwargs -> (let? r := clookup (fst e) cx in Ok (fst e, r)) = Ok e).
    { intros [k r] He. cbn. unfold clookup. assert (K : cget k cx = Some r) by (apply B; now right). now rewrite K. }
    clear -H. induction kwargs as [|e l IH]; constructor; [apply H; now left|]. apply IH. intros x Hx. apply H. now right.
  - assert (F : filter (fun n => negb (smem n (map fst kwargs))) names = firstn (length args) names).
    { rewrite <- (firstn_skipn (length args) names) at 1. rewrite filter_app, filter_true, filter_false; [now rewrite app_nil_r| |].
      - intros n Hn. apply In_nth_error in Hn. destruct Hn as (i & Hi). rewrite nth_skipn in Hi. destruct (C2 _ _ Hi) as (v & Hv); [lia|]. apply negb_false_iff, smem_in. apply in_map_iff. now exists (n, v).
      - intros n Hn. apply negb_true_iff. destruct (smem n (map fst kwargs)) eqn:Es; [|reflexivity]. exfalso. apply smem_in, in_map_iff in Es. destruct Es as ([k v] & <- & Hk). destruct (C1 k v Hk) as (i & Ei & Li). cbn in Hn.
        apply In_nth_error in Hn. destruct Hn as (j & Hj). assert (Lj : j < length args). { assert (K : j < length (firstn (length args) names)) by (apply nth_error_Some; congruence). rewrite firstn_length in K. lia. }
        assert (Ej : nth_error names j = Some k). { rewrite <- (firstn_skipn (length args) names), nth_error_app1; [exact Hj|]. apply nth_error_Some. congruence. }
        assert (i = j); [|lia]. rewrite NoDup_nth_error in N. apply N; [apply nth_error_Some; congruence|congruence]. }
    rewrite F. apply rmapM_Forall2. assert (H : forall i n r, nth_error names i = Some n -> nth_error args i = Some r -> clookup n cx = Ok r).
    { intros i n r En Er. unfold clookup. assert (K : cget n cx = Some r) by (apply B; left; eauto). now rewrite K. }
    assert (Ln : length args <= length names) by lia. clear -H Ln. revert args H Ln. induction names as [|n names IH]; intros [|a args] H L; cbn in *; try lia; constructor.
    + exact (H 0 n a eq_refl eq_refl).
    + apply IH; [|lia]. intros i. exact (H (S i)).
Qed.
Lemma add_subgraph_inv g fid name sub args kwargs original g' outs : NoDup (map fst (g_inputs sub)) -> add_subgraph g fid name sub args kwargs original = (g', Ok outs) ->
  let names := map fst (g_inputs sub) in let internal := map n_name (g_nodes sub) in let fold := option_map (fun _ => fid) original in
  exists cx l', bind_kwargs names kwargs (zip names args) = Ok cx /\ length args + length kwargs = length names /\
    g_nodes g' = g_nodes g ++ fold_nodes fid name args kwargs original ++ l' /\ Forall2 (inlined cx internal name fold) (sorted_nodes sub) l' /\
    g_inputs g' = g_inputs g /\ g_outputs g' = g_outputs g /\
    g_folds g' = g_folds g ++ match original with Some _ => [fid] | None => [] end ++ map n_id (filter (fun n => nmem (n_id n) (g_folds sub)) (sorted_nodes sub)) /\
    (NoDup (ids_of g ++ match original with Some _ => [fid] | None => [] end) -> NoDup (ids_of g')) /\ remap_args cx internal name (g_outputs sub) = Ok outs.
Proof.
  intros N E names internal fold. unfold add_subgraph in E. destruct (g_outputs sub) as [|o os] eqn:Eo; [discriminate|]. rewrite <- Eo in *. destruct (_ =? _) eqn:El; [|discriminate]. cbn [negb] in E. apply Nat.eqb_eq in El.
  fold names in E. fold internal in E. destruct (bind_kwargs names kwargs (zip names args)) as [cx|] eqn:Eb; [|discriminate]. assert (El' : length args + length kwargs = length names) by (unfold names; now rewrite map_length).
  destruct (fold_args names args kwargs cx N Eb El') as [F1 F2]. exists cx. destruct original as [t|].
  - rewrite F1 in E. cbn [rbind] in E. rewrite F2 in E. cbn [rbind] in E. fold (sorted_nodes sub) in E. destruct (inline_nodes _ _ _ _ _ _ _) as [g2 [[]|]] eqn:Ei; [|discriminate]. injection E as -> E.
    destruct (inline_nodes_inv _ _ _ _ _ _ _ _ Ei) as (l' & H1 & H2 & H3 & H4 & H5 & H6). cbn [g_nodes g_inputs g_outputs g_folds] in *. exists l'. rewrite <- app_assoc in H1, H5. split; [reflexivity|]. split; [exact El'|]. split; [exact H1|]. split; [exact H2|]. split; [exact H3|]. split; [exact H4|]. split; [exact H5|].
    split; [|exact E]. intros Nd. apply H6. unfold ids_of in *. cbn [g_nodes]. now rewrite map_app.
  - fold (sorted_nodes sub) in E. destruct (inline_nodes _ _ _ _ _ _ _) as [g2 [[]|]] eqn:Ei; [|discriminate]. injection E as -> E.
    destruct (inline_nodes_inv _ _ _ _ _ _ _ _ Ei) as (l' & H1 & H2 & H3 & H4 & H5 & H6). exists l'. cbn [app fold_nodes]. split; [reflexivity|]. split; [exact El'|]. split; [exact H1|]. split; [exact H2|]. split; [exact H3|]. split; [exact H4|]. split; [exact H5|]. split; [|exact E]. rewrite app_nil_r. exact H6.
Qed.

(** ** Values *)
Lemma remap_scoped cx internal name r r' sub : (forall k r, cget k cx = Some r -> ~ has_char "["%char k) -> well_named sub r -> internal = map n_name (g_nodes sub) -> remap cx internal name r = Ok r' ->
  match r with
  | RNode i n => r' = RNode i (scoped name n)
  | RInput i n => cget n cx = Some r'
  | RConst i => r' = RConst i
  | RAttr b a => exists b', remap cx internal name b = Ok b' /\ r' = RAttr b' a
  end.
Proof.
  intros Hc W -> E. destruct W as [n Hn _|k i Hi|i|b a W]; cbn [remap] in E.
  - assert (S : smem (n_name n) (map n_name (g_nodes sub)) = true) by (apply smem_in; now apply in_map). rewrite S in E. now injection E as <-.
  - unfold clookup in E. destruct (cget k cx); [|discriminate]. now injection E as <-.
  - now injection E as <-.
  - assert (K : match match unwrap b with RNode _ n => if smem n (map n_name (g_nodes sub)) then None else Some (lifted_key n a) | RInput _ n => Some (lifted_key n a) | _ => None end with Some k => cget k cx | None => None end = None).
    { assert (L : forall n, cget (lifted_key n a) cx = None). { intros n. destruct (cget (lifted_key n a) cx) eqn:Ek; [|reflexivity]. destruct (Hc _ _ Ek). apply lifted_bracket. }
      destruct (unwrap b); try reflexivity; [destruct (smem _ _); [reflexivity|apply L]|apply L]. }
    rewrite K in E. destruct (remap cx _ name b) as [b'|] eqn:Eb; [|discriminate]. cbn [rbind] in E. injection E as <-. eauto.
Qed.

Section Values.
  Context {X U : Type} (s : semantics X U).
  Variable f : nat -> nat -> list (val X) -> list (string * val X) -> result (val X).

  Lemma remapped_kwargs cx internal name l : forall l', remap_kwargs cx internal name l = Ok l' -> map fst l' = map fst l /\ Forall2 (fun r r' => remap cx internal name r = Ok r') (map snd l) (map snd l').
  Proof.
    unfold remap_kwargs. intros l' E. apply rmapM_Forall2 in E. induction E as [|[k r] [k' r'] l l' H F [IH1 IH2]]; [split; [reflexivity|constructor]|]. cbn [fst snd] in H. destruct (remap cx internal name r) as [x|] eqn:Ex; [|discriminate]. cbn [rbind] in H. injection H as <- <-.
    split; [cbn; now f_equal|]. constructor; assumption.
  Qed.

  Lemma inlined_value g fid name sub args kwargs original g' outs inp c vs : tidy sub -> add_subgraph g fid name sub args kwargs original = (g', Ok outs) ->
    argument_values s f g inp c (map fst (g_inputs sub)) args kwargs vs ->
    (forall r v, value s f g inp c r v -> value s f g' inp c r v) /\
    Forall2 (fun o o' => forall v, value s f sub (positional sub vs) c o v -> value s f g' inp c o' v) (g_outputs sub) outs.
  Proof.
    intros Ts E Av. assert (Nn : NoDup (map fst (g_inputs sub))) by exact (NoDup_r _ _ (tidy_names sub Ts)).
    destruct (add_subgraph_inv _ _ _ _ _ _ _ _ _ Nn E) as (cx & l' & Eb & El & G1 & F & _ & _ & _ & _ & Eo).
    set (internal := map n_name (g_nodes sub)) in *.
    assert (More : forall r v, value s f g inp c r v -> value s f g' inp c r v). { intros r v. apply value_more; [|reflexivity]. intros x Hx. rewrite G1, in_app_iff. now left. }
    split; [exact More|].
    assert (Bx := bound_cx _ _ _ _ Nn Eb).
    assert (Hc : forall k r, cget k cx = Some r -> In k (map fst (g_inputs sub))).
    { intros k r Hk. apply Bx in Hk. destruct Hk as [(i & Hi & _)|Hk]; [exact (nth_error_In _ _ Hi)|]. destruct (bind_kwargs_inv _ _ _ _ Eb) as (A & _ & _). apply A. apply in_map_iff. now exists (k, r). }
    assert (Hb : forall k r, cget k cx = Some r -> ~ has_char "["%char k) by (intros k r Hk; apply (tidy_chars sub Ts); apply in_app_iff; right; now apply (Hc k r)).
    assert (Main : forall r v, value s f sub (positional sub vs) c r v -> well_named sub r -> forall r', remap cx internal name r = Ok r' -> value s f g' inp c r' v).
    { refine (value_rect' s f sub (positional sub vs) c (fun r v => well_named sub r -> forall r', remap cx internal name r = Ok r' -> value s f g' inp c r' v) _ _ _ _); [intros i n v H|intros i|intros r a v w H IH Ea|intros x nm xs ys v Hx Fa Ia Fk Ik Ef]; intros W r' Er;
        apply (remap_scoped cx internal name _ r' sub Hb W eq_refl) in Er.
      - inversion W as [|k j Hi| |]; subst. destruct H as (p & k & Hp & Hv). assert (k = n) as ->.
        { assert (Ni := tidy_input_ids sub Ts). clear -Ni Hi Hp. apply nth_error_In in Hp. induction (g_inputs sub) as [|[a b] l IH]; [destruct Hi|]. inversion Ni as [|? ? N1 N2]; subst. destruct Hi as [Hi|Hi], Hp as [Hp|Hp]; try congruence.
          - injection Hi as -> ->. destruct N1. apply in_map_iff. now exists (k, i).
          - injection Hp as -> ->. destruct N1. apply in_map_iff. now exists (n, i).
          - now apply IH. }
        apply More. destruct (Forall2_nth_l _ _ _ Av p n) as (v' & Hv' & r & Hr & Vr); [now rewrite nth_error_map, Hp|]. rewrite Hv in Hv'. injection Hv' as <-. apply Bx in Hr. rewrite Er in Hr. injection Hr as ->. exact Vr.
      - subst. constructor.
      - destruct Er as (b' & Eb' & ->). inversion W as [| | |? ? Wb]; subst. econstructor; [exact (IH Wb b' Eb')|exact Ea].
      - subst r'. assert (In x (sorted_nodes sub)) as Hs by now apply sorted_in. destruct (Forall2_In_l _ _ _ _ F Hs) as (x' & Hx' & R1 & R2 & Ri & Rn & Rt & _ & _).
        unfold remap_args in R1. apply rmapM_Forall2 in R1. destruct (remapped_kwargs _ _ _ _ _ R2) as [K1 K2]. rewrite <- Ri.
        assert (Go : forall l l1 us, (forall r, In r l -> well_named sub r) -> Forall2 (fun r v => well_named sub r -> forall r', remap cx internal name r = Ok r' -> value s f g' inp c r' v) l us -> Forall2 (fun r r' => remap cx internal name r = Ok r') l l1 -> Forall2 (value s f g' inp c) l1 us).
        { clear. intros l l1 us Hw Fv Fr. revert us Fv. induction Fr as [|r r1 l l1 H Fr IH]; intros us Fv; inversion Fv as [|? u ? us' Hu Fv']; subst; constructor; [apply Hu; [apply Hw; now left|exact H]|]. apply IH; [|exact Fv']. intros y Hy. apply Hw. now right. }
        apply (v_node s f g' inp c x' _ xs ys v).
        + rewrite G1, !in_app_iff. right. now right.
        + refine (Go _ _ _ _ Ia R1). intros r Hr. apply (tidy_refs sub Ts x); [exact Hx|]. unfold call_refs. apply in_app_iff. now left.
        + refine (Go _ _ _ _ Ik K2). intros r Hr. apply (tidy_refs sub Ts x); [exact Hx|]. unfold call_refs. apply in_app_iff. now right.
        + rewrite Rt, K1. exact Ef. }
    unfold remap_args in Eo. apply rmapM_Forall2 in Eo. refine (Forall2_in_imp _ _ _ _ _ Eo). intros o o' Ho Er v V. apply (Main o v V); [|exact Er]. exact (proj1 (tidy_outputs sub Ts o Ho)).
  Qed.
End Values.
