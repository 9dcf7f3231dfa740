(** Proofs about tracing: traced graphs can be scheduled and called. *)
From Coq Require Import String Ascii Relations Lia Permutation.
From Verif Require Import Prelude GraphModel GraphSpec GraphProofs EngineModel EngineSpec CoarseModel CoarseSpec CoarseValueProofs CoarseBaseProofs BuildModel BuildSpec BuildProofs BuildTidyProofs BuildCallProofs NamModel TrcModel TrcSpec TrcProofs TrcValueProofs.
Local Open Scope nat_scope.
Local Open Scope list_scope.

Lemma about_simple g r x : simple g r -> about r x -> exists k, r = RNode x k.
Proof. intros S A. destruct r; cbn in S; try contradiction; inversion A; subst; eauto. Qed.
Lemma leaf_list_in g m : In m (leaf_list g) <-> In m (g_nodes g) /\ ~ In (n_id m) (g_folds g).
Proof. unfold leaf_list. rewrite filter_In. destruct (nmem (n_id m) (g_folds g)) eqn:E; cbn; split; intros [K1 K2]; split; auto; try discriminate. - exfalso. apply K2. now apply nmem_in. - intros K. apply nmem_in in K. congruence. Qed.
Lemma leaf_node g x : is_leaf g x <-> exists m, In m (leaf_list g) /\ n_id m = x.
Proof.
  unfold is_leaf, node_in. split.
  - intros [K1 K2]. apply in_map_iff in K1. destruct K1 as (m & <- & K). exists m. split; [|reflexivity]. now apply leaf_list_in.
  - intros (m & K & <-). apply leaf_list_in in K. destruct K as [K1 K2]. split; [|exact K2]. apply in_map_iff. eauto.
Qed.
Lemma wf_feeds lo g next : wf lo g next -> forall a b, is_leaf g b -> feeds g a b -> is_leaf g a.
Proof.
  intros W a b _ (n & r & Hn & _ & Hr & Ab). assert (S : simple g r). { apply (wf_refs _ _ _ W n r Hn). unfold call_refs. apply in_app_iff. destruct Hr as [Hr|(k & Hr)]; [now left|right; apply in_map_iff; now exists (k, r)]. }
  destruct (about_simple _ _ _ S Ab) as (k & ->). destruct S as (m & Hm & <- & _). apply leaf_node. eauto.
Qed.
(** The position of a leaf. *)
Fixpoint place (l : list gnode) (x : nat) : nat := match l with [] => 0 | n :: l' => if n_id n =? x then 0 else S (place l' x) end.
Lemma place_app l1 l2 x : In x (map n_id l1) -> place (l1 ++ l2) x < length l1.
Proof. induction l1 as [|n l1 IH]; [intros []|]. cbn. intros K. destruct (Nat.eqb_spec (n_id n) x); [lia|]. destruct K as [K|K]; [contradiction|]. specialize (IH K). lia. Qed.
Lemma place_at l1 n l2 : ~ In (n_id n) (map n_id l1) -> place (l1 ++ n :: l2) (n_id n) = length l1.
Proof. induction l1 as [|m l1 IH]; cbn; intros K; [now rewrite Nat.eqb_refl|]. destruct (Nat.eqb_spec (n_id m) (n_id n)); [exfalso; auto|]. now rewrite IH by auto. Qed.
Lemma leaf_ids_nodup lo g next : wf lo g next -> NoDup (map n_id (leaf_list g)).
Proof.
  intros W. assert (N := wf_ids _ _ _ W). unfold ids_of in N. unfold leaf_list. clear W. induction (g_nodes g) as [|n l IH]; [constructor|]. cbn in N |- *. apply NoDup_cons_iff in N. destruct N as [N1 N2]. destruct (negb _); [|now apply IH]. cbn. constructor; [|now apply IH].
  intros K. apply N1. apply in_map_iff in K. destruct K as (m & E & K). apply filter_In in K. rewrite <- E. apply in_map. apply K.
Qed.
Lemma wf_graph_ok lo g next : wf lo g next -> graph_ok g.
Proof. intros W. exact (wf_ids _ _ _ W). Qed.
Lemma wf_place lo g next : wf lo g next -> forall a b, is_leaf g b -> feeds g a b -> place (leaf_list g) a < place (leaf_list g) b.
Proof.
  intros W a b Lb (n & r & Hn & Eb & Hr & Ab). assert (Ir : In r (call_refs n)) by (unfold call_refs; apply in_app_iff; destruct Hr as [Hr|(k & Hr)]; [now left|right; apply in_map_iff; now exists (k, r)]).
  assert (S := wf_refs _ _ _ W n r Hn Ir). destruct (about_simple _ _ _ S Ab) as (k & ->). destruct Lb as [_ Lb]. assert (Hl : In n (leaf_list g)) by (apply leaf_list_in; now rewrite Eb).
  assert (N := leaf_ids_nodup _ _ _ W). assert (Hl' := Hl). apply in_split in Hl'. destruct Hl' as (l1 & l2 & El). assert (O := wf_order _ _ _ W l1 n l2 a k El Ir). rewrite El in N |- *. rewrite map_app in N. cbn in N. apply NoDup_remove_2 in N.
  rewrite <- Eb, (place_at l1 n l2) by (intros K; apply N; apply in_app_iff; now left). now apply place_app.
Qed.
Lemma wf_acyclic lo g next : wf lo g next -> ~ cyclic g.
Proof.
  intros W (x & Lx & C). assert (Q : forall a b, clos_trans nat (feeds g) a b -> is_leaf g b -> is_leaf g a /\ place (leaf_list g) a < place (leaf_list g) b).
  { induction 1 as [a b F|a b d _ IH1 _ IH2]; intros L; [split; [exact (wf_feeds _ _ _ W a b L F)|exact (wf_place _ _ _ W a b L F)]|]. destruct (IH2 L) as [L2 P2]. destruct (IH1 L2) as [L1 P1]. split; [exact L1|lia]. }
  destruct (Q x x C Lx) as [_ K]. lia.
Qed.
Lemma wf_leaf_inputs lo g next : wf lo g next -> leaf_inputs g.
Proof. intros W a b. exact (wf_feeds _ _ _ W a b). Qed.
Lemma wf_usable lo g next : wf lo g next -> refs_usable g.
Proof.
  intros W. split.
  - intros n r Hn _ Hr. assert (S := wf_refs _ _ _ W n r Hn Hr). destruct r as [i k|i k|i|r a]; cbn in S; try contradiction.
    + right. split; [|intros []]. cbn. destruct S as (m & Hm & <- & _). apply leaf_node. eauto.
    + right. split; [|intros []]. cbn. apply in_map_iff. now exists (k, i).
    + left. eauto.
  - intros r Hr. destruct (wf_outs _ _ _ W r Hr) as [S N]. destruct r; try discriminate. exists id. split; [constructor|]. destruct S as (m & Hm & <- & _). apply leaf_node. eauto.
Qed.
Lemma get_node_leaf g x : is_leaf g x -> exists n, get_node g x = Some n.
Proof. intros [K _]. unfold node_in in K. apply in_map_iff in K. destruct K as (n & <- & K). unfold get_node. destruct (find _ _) as [m|] eqn:E; [eauto|]. assert (Q := find_none _ _ E n K). cbn in Q. now rewrite Nat.eqb_refl in Q. Qed.
Lemma wf_schedule {X U} (s : semantics X U) order lo g next : wf lo g next -> exists p, schedule s order g = Ok p.
Proof.
  intros W. assert (G := wf_graph_ok _ _ _ W). destruct (proj2 (proj1 (sort_exactly g G)) (conj (wf_acyclic _ _ _ W) (wf_leaf_inputs _ _ _ W))) as (ids & E). unfold schedule. rewrite E. cbn [rbind].
  destruct (sort_order g ids G E) as (_ & L & _). destruct (rmapM_total (fun i => match get_node g i with Some n => Ok n | None => Err KeyError end) ids) as (ns & En); [|rewrite En; cbn; eauto].
  intros i Hi. apply L in Hi. destruct (get_node_leaf g i Hi) as (n & ->). eauto.
Qed.
Lemma positional_functional' {X} g (vs : list (val X)) : NoDup (map snd (g_inputs g)) -> functional (positional g vs).
Proof.
  intros N i v w (a & k & A1 & A2) (b & k' & B1 & B2). assert (a = b) as ->; [|congruence]. rewrite NoDup_nth_error in N. apply N; [rewrite map_length; apply nth_error_Some; congruence|]. rewrite !nth_error_map, A1, B1. reflexivity.
Qed.

(** Well-formedness of traced graphs in terms of the specification. *)
Lemma traced_ok o m positional next g next' : build_root o m positional next = Ok (g, next') ->
  graph_ok g /\ refs_usable g /\ leaf_inputs g /\ ~ cyclic g /\ NoDup (map fst (g_inputs g)) /\ NoDup (map snd (g_inputs g)) /\
  map fst (g_inputs g) = map (fun k => unmangle k positional) (input_names m) /\ forall X U (s : semantics X U) order, exists p, schedule s order g = Ok p.
Proof.
  intros E. assert (W := build_root_wf o m positional next g next' E). split; [exact (wf_graph_ok _ _ _ W)|]. split; [exact (wf_usable _ _ _ W)|]. split; [exact (wf_leaf_inputs _ _ _ W)|]. split; [exact (wf_acyclic _ _ _ W)|].
  split; [exact (wf_names _ _ _ W)|]. split; [exact (wf_inputs _ _ _ W)|]. split; [exact (root_inputs o m positional next g next' E)|]. intros X U s order. exact (wf_schedule s order _ _ _ W).
Qed.

Section Call.
  Context {X U : Type} (h : host X) (s : semantics X U) (text : string -> val X) (iterate : X -> list (string * val X) -> option (list (val X))).
  Variables (f : nat -> nat -> list (val X) -> list (string * val X) -> result (val X)) (P : U -> Prop) (pl : nat -> nat).
  Hypothesis calls : forall u c m a k, P u -> call s pl u c m a k = (f c m a k, u).
  Hypothesis optims : forall u fn m bs u', P u -> optimize s pl u fn m bs = (Ok tt, u') -> P u'.
  Hypothesis agree : attributes_agree s.
  Variables (atom : nat -> val X) (attribute : nat -> string -> result (val X)) (o : origin) (root : fmod).
  Hypothesis Ht : targets_called h f o.
  Hypothesis Hc : constants_held h s atom attribute o root.
  Hypothesis Ha : attributes_shared h attribute o root.
  Hypothesis Hcap : captured_run h atom attribute root.
  Hypothesis Horig : originals_run h atom attribute o root.

  Lemma traced_call positional next g next' order args kwargs vs u v : regular_program o root -> build_root o root positional next = Ok (g, next') -> run_program h atom attribute root vs = Ok v ->
    (forall l, Permutation (order l) l) -> NoDup (map fst kwargs) -> P u -> call_ok (map fst (g_inputs g)) args kwargs ->
    Forall2 (fun n v => tensor v /\ bound (map fst (g_inputs g)) args kwargs n (GValue v)) (map fst (g_inputs g)) vs ->
    match snd (snd (forward s text iterate order (mkGm g None) args kwargs (mkWorld pl u))) with
    | Ok r => returned_batches r [v]
    | Err e => user_error s f e
    end.
  Proof.
    intros [Hr Hs] E Er Po Nk Pu Ck F. destruct (traced_ok _ _ _ _ _ _ E) as (G & R & _ & _ & Nn & Ni & _ & Sc). destruct (root_value h s f atom attribute o root default_context Ht Hc Ha Hcap Horig Hs positional next g next' vs v Hr E Er) as (r & Eo & Vr).
    assert (K := forward_values s text iterate f P pl calls optims agree order g args kwargs vs u Po G R). rewrite Eo in K. specialize (K ltac:(discriminate) Nn Ni Nk Pu Ck F).
    destruct (snd (snd (forward _ _ _ _ _ _ _ _))) as [b|e].
    - destruct K as (w & Rb & outs & Fo & Ew). rewrite Eo in Fo. inversion Fo as [|? w' ? ? Vw Fn]; subst. inversion Fn; subst. assert (v = w') as ->; [|exact Rb]. exact (value_det s f g _ _ G (positional_functional' g vs Ni) r v Vr w' Vw).
    - destruct K as [K|K]; [|exact K]. destruct (Sc X U s order) as (p & Ep). congruence.
  Qed.
End Call.
