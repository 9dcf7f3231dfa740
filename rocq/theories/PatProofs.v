(** Proofs about pattern rules: matching, substitution and the loop. *)
From Coq Require Import String Ascii Lia.
From Verif Require Import Prelude PatModel PatSpec.
From Verif Require QmModel.
Local Open Scope nat_scope.
Local Open Scope list_scope.

Section NodeInd.
  Variable P : node -> Prop.
  Hypothesis Hn : forall par x, P (Name par x).
  Hypothesis Hk : forall par k cs, Forall P cs -> P (Node par k cs).
  Fixpoint node_ind2 (n : node) : P n :=
    match n with
    | Name par x => Hn par x
    | Node par k cs =>
        Hk par k cs ((fix go (l : list node) : Forall P l :=
          match l with [] => Forall_nil _ | c :: l' => Forall_cons _ (node_ind2 c) (go l') end) cs)
    end.
End NodeInd.

Fixpoint pmatch_list (ps ns : list node) : option (list (string * node)) :=
  match ps, ns with
  | [], [] => Some []
  | p :: ps', n :: ns' =>
      match pmatch p n with
      | None => None
      | Some a => match pmatch_list ps' ns' with None => None | Some b => Some (a ++ b) end
      end
  | _, _ => None
  end.
Lemma pmatch_node par k ps par' k' ns : pmatch (Node par k ps) (Node par' k' ns) =
  if (par =? par') && String.eqb k k' then pmatch_list ps ns else None.
Proof.
  cbn [pmatch]. destruct ((par =? par') && String.eqb k k'); [|reflexivity].
  revert ns. induction ps as [|p ps IH]; intros [|n ns]; cbn [pmatch_list]; reflexivity.
Qed.
Lemma captures_node par k cs : captures (Node par k cs) = flat_map captures cs.
Proof. reflexivity. Qed.
Lemma instance_node s par k cs : instance s (Node par k cs) = Node par k (map (instance s) cs).
Proof. reflexivity. Qed.
Lemma substitute_node caps par k cs : substitute caps (Node par k cs) =
  let? cs' := rmapM (substitute caps) cs in Ok (Node par k cs').
Proof.
  cbn [substitute]. f_equal. induction cs as [|c cs IH]; cbn [rmapM]; [reflexivity|].
  destruct (substitute caps c); cbn [rbind]; [|reflexivity]. rewrite <- IH. reflexivity.
Qed.

Lemma pmatch_names p : forall n caps, pmatch p n = Some caps -> map fst caps = captures p.
Proof.
  induction p as [par x|par k ps IH] using node_ind2; intros n caps H.
  - cbn [pmatch captures] in *. destruct x as [a|x].
    + destruct n as [par' [b|?]|]; try discriminate. destruct (_ && _); [|discriminate]. now injection H as <-.
    + now injection H as <-.
  - destruct n as [par' y|par' k' ns]; [discriminate|]. rewrite pmatch_node in H. rewrite captures_node.
    destruct ((par =? par') && String.eqb k k'); [|discriminate].
    revert ns caps H. induction IH as [|p ps Hp _ IHl]; intros [|n ns] caps H; cbn [pmatch_list] in H; try discriminate.
    + now injection H as <-.
    + destruct (pmatch p n) as [a|] eqn:E; [|discriminate]. destruct (pmatch_list ps ns) as [b|] eqn:E2; [|discriminate].
      injection H as <-. rewrite map_app. cbn [flat_map]. now rewrite (Hp _ _ E), (IHl _ _ E2).
Qed.

(** A match is an instance, whatever the substitution that agrees with the captures. *)
Lemma pmatch_instance p : forall n caps s, pmatch p n = Some caps ->
  (forall x m, In (x, m) caps -> s x = m) -> instance s p = n.
Proof.
  induction p as [par x|par k ps IH] using node_ind2; intros n caps s H Hs.
  - cbn [pmatch instance] in *. destruct x as [a|x].
    + destruct n as [par' [b|?]|]; try discriminate. destruct ((par =? par') && String.eqb a b) eqn:E; [|discriminate].
      apply andb_prop in E. destruct E as [E1 E2]. apply Nat.eqb_eq in E1. apply String.eqb_eq in E2. now subst.
    + injection H as <-. apply Hs. now left.
  - destruct n as [par' y|par' k' ns]; [discriminate|]. rewrite pmatch_node in H. rewrite instance_node.
    destruct ((par =? par') && String.eqb k k') eqn:E; [|discriminate].
    apply andb_prop in E. destruct E as [E1 E2]. apply Nat.eqb_eq in E1. apply String.eqb_eq in E2. subst. f_equal.
    revert ns caps H Hs. induction IH as [|p ps Hp _ IHl]; intros [|n ns] caps H Hs; cbn [pmatch_list] in H; try discriminate; [reflexivity|].
    destruct (pmatch p n) as [a|] eqn:E; [|discriminate]. destruct (pmatch_list ps ns) as [b|] eqn:E2; [|discriminate].
    injection H as <-. cbn [map]. f_equal.
    + apply (Hp n a s E). intros; apply Hs; apply in_or_app; auto.
    + apply (IHl ns b E2). intros; apply Hs; apply in_or_app; auto.
Qed.
(** An instance matches, and the captures hold what was put in. *)
Lemma instance_pmatch p s : exists caps, pmatch p (instance s p) = Some caps /\ forall x m, In (x, m) caps -> m = s x.
Proof.
  induction p as [par x|par k ps IH] using node_ind2.
  - cbn [pmatch instance]. destruct x as [a|x].
    + exists []. rewrite Nat.eqb_refl, String.eqb_refl. split; [reflexivity|intros x m []].
    + exists [(x, s x)]. split; [reflexivity|]. intros y m [[= <- <-]|[]]. reflexivity.
  - rewrite instance_node, pmatch_node, Nat.eqb_refl, String.eqb_refl. cbn [andb].
    induction IH as [|p ps (a & Ha & Hs) _ (b & Hb & Hs')]; cbn [map pmatch_list].
    + exists []. split; [reflexivity|intros x m []].
    + rewrite Ha, Hb. exists (a ++ b). split; [reflexivity|]. intros x m Hin. apply in_app_or in Hin. destruct Hin; auto.
Qed.

Lemma capture_in x l m : capture x l = Some m -> In (x, m) l.
Proof.
  induction l as [|[y n] l IH]; cbn [capture]; [discriminate|]. destruct (capture x l) as [m'|].
  - intros [= ->]. right. auto.
  - destruct (String.eqb_spec x y) as [->|]; [|discriminate]. intros [= ->]. now left.
Qed.
Lemma capture_some x l : In x (map fst l) -> exists m, capture x l = Some m.
Proof.
  induction l as [|[y n] l IH]; cbn [capture map fst In]; [intros []|]. intros [->|H].
  - rewrite String.eqb_refl. destruct (capture x l); eauto.
  - destruct (IH H) as [m ->]. eauto.
Qed.
Lemma capture_none x l : capture x l = None <-> ~ In x (map fst l).
Proof.
  split.
  - intros H Hin. destruct (capture_some x l Hin) as [m Hm]. congruence.
  - intros H. destruct (capture x l) as [m|] eqn:E; [|reflexivity]. destruct H. apply capture_in in E. now apply (in_map fst) in E.
Qed.
Lemma nodup_in (l : list (string * node)) x m m' : NoDup (map fst l) -> In (x, m) l -> In (x, m') l -> m = m'.
Proof.
  induction l as [|[y n] l IH]; cbn [map fst In]; intros Hd; [intros []|]. inversion Hd as [|? ? Hy Hd']; subst.
  intros [H1|H1] [H2|H2].
  - congruence.
  - injection H1 as -> _. destruct Hy. now apply (in_map fst) in H2.
  - injection H2 as -> _. destruct Hy. now apply (in_map fst) in H1.
  - auto.
Qed.

(** Substitution is instantiation when every capture is there. *)
Lemma substitute_instance caps s r :
  (forall x, In x (captures r) -> capture x caps = Some (s x)) -> substitute caps r = Ok (instance s r).
Proof.
  induction r as [par x|par k cs IH] using node_ind2; intros H.
  - cbn [substitute instance]. destruct x as [a|x]; [reflexivity|]. rewrite (H x); [reflexivity|]. now left.
  - rewrite substitute_node, instance_node. rewrite captures_node in H.
    assert (Hm : rmapM (substitute caps) cs = Ok (map (instance s) cs)).
    { induction IH as [|c cs Hc _ IHl]; cbn [rmapM map]; [reflexivity|].
      rewrite Hc by (intros; apply H; cbn; apply in_or_app; auto). cbn [rbind].
      rewrite IHl by (intros; apply H; cbn; apply in_or_app; auto). reflexivity. }
    now rewrite Hm.
Qed.
Lemma substitute_missing caps r x : In x (captures r) -> ~ In x (map fst caps) -> substitute caps r = Err KeyError.
Proof.
  intros Hx Hn. apply capture_none in Hn. revert Hx. induction r as [par y|par k cs IH] using node_ind2; intros Hx.
  - cbn [substitute captures] in *. destruct y as [a|y]; [destruct Hx|]. destruct Hx as [->|[]]. now rewrite Hn.
  - rewrite substitute_node. rewrite captures_node in Hx.
    assert (Hm : rmapM (substitute caps) cs = Err KeyError).
    { induction IH as [|c cs Hc _ IHl]; cbn [rmapM flat_map] in *; [destruct Hx|]. apply in_app_or in Hx.
      destruct (in_dec string_dec x (captures c)) as [Hin|Hout]; [now rewrite (Hc Hin)|].
      destruct Hx as [Hx|Hx]; [contradiction|]. rewrite (IHl Hx).
      assert (He : forall e, substitute caps c = Err e -> e = KeyError).
      { clear. induction c as [par y|par k cs IH] using node_ind2; intros e.
        - cbn [substitute]. destruct y as [a|y]; [discriminate|]. destruct (capture y caps); [discriminate|]. now intros [= <-].
        - rewrite substitute_node. intros H.
          assert (Hx : rmapM (substitute caps) cs = Err e) by (destruct (rmapM (substitute caps) cs); [discriminate|now injection H as ->]).
          clear H. induction IH as [|c cs Hc _ IHl]; cbn [rmapM] in Hx; [discriminate|].
          destruct (substitute caps c) as [d|e'] eqn:E; cbn [rbind] in Hx.
          + destruct (rmapM (substitute caps) cs) as [ds|e'] eqn:E'; [discriminate|]. injection Hx as ->. auto.
          + injection Hx as ->. auto. }
      destruct (substitute caps c) as [d|e]; [reflexivity|]. now rewrite (He e eq_refl). }
    now rewrite Hm.
Qed.

(** The substitution that captures stand for *)
Definition env_of (caps : list (string * node)) : string -> node :=
  fun x => match capture x caps with Some m => m | None => Name 0 (Cap x) end.
Lemma env_of_in caps x m : NoDup (map fst caps) -> In (x, m) caps -> env_of caps x = m.
Proof.
  intros Hd H. unfold env_of. destruct (capture_some x caps (in_map fst _ _ H)) as [m' Hm']. rewrite Hm'.
  eapply nodup_in; eauto. now apply capture_in.
Qed.

Section Apply.
  Variable kind_sort : string -> sort.

  Lemma captures_of_expr p n : ~ in_line n -> captures_of p n = pmatch p n.
  Proof.
    intros H. unfold captures_of. destruct (pmatch p n) as [c|]; [reflexivity|]. destruct n as [|par k [|c [|]]]; try reflexivity.
    destruct (String.eqb_spec k "SimpleStatementLine") as [->|]; [|reflexivity]. destruct H. exists par, c. reflexivity.
  Qed.
  (** Expressions, and other nodes that are not statements *)
  Lemma apply_instance r n s : sort_of kind_sort n = Expression \/ sort_of kind_sort n = Part -> ~ in_line n ->
    NoDup (captures (pattern r)) -> incl (captures (replacement r)) (captures (pattern r)) ->
    n = instance s (pattern r) -> apply kind_sort r n = Ok (Some (instance s (replacement r))).
  Proof.
    intros Hs Hl Hd Hi ->. unfold apply. rewrite captures_of_expr by assumption.
    destruct (instance_pmatch (pattern r) s) as (caps & Hc & Hin). rewrite Hc.
    rewrite (substitute_instance caps s).
    - cbn [rbind]. destruct Hs as [-> | ->]; reflexivity.
    - intros x Hx. pose proof (pmatch_names _ _ _ Hc) as Hn. destruct (capture_some x caps) as [m Hm].
      + rewrite Hn. apply Hi, Hx.
      + rewrite Hm. f_equal. apply Hin. now apply capture_in.
  Qed.
  Lemma apply_exact r n m : sort_of kind_sort n = Expression \/ sort_of kind_sort n = Part -> ~ in_line n ->
    NoDup (captures (pattern r)) -> incl (captures (replacement r)) (captures (pattern r)) ->
    (apply kind_sort r n = Ok (Some m) <-> exists s, n = instance s (pattern r) /\ m = instance s (replacement r)).
  Proof.
    intros Hs Hl Hd Hi. split.
    - unfold apply. rewrite captures_of_expr by assumption. destruct (pmatch (pattern r) n) as [caps|] eqn:Hc; [|discriminate].
      pose proof (pmatch_names _ _ _ Hc) as Hn. intros H. exists (env_of caps).
      assert (Hd' : NoDup (map fst caps)) by now rewrite Hn.
      split; [symmetry; eapply pmatch_instance; [exact Hc|]; intros; now apply env_of_in|].
      rewrite (substitute_instance caps (env_of caps)) in H.
      + cbn [rbind] in H. destruct Hs as [Hs|Hs]; rewrite Hs in H; now injection H as <-.
      + intros x Hx. unfold env_of. destruct (capture_some x caps) as [v Hv]; [rewrite Hn; now apply Hi|]. now rewrite Hv.
    - intros (s & H & ->). now apply apply_instance.
  Qed.
  Lemma apply_none r n : sort_of kind_sort n = Expression \/ sort_of kind_sort n = Part -> ~ in_line n ->
    NoDup (captures (pattern r)) ->
    (apply kind_sort r n = Ok None <-> ~ exists s, n = instance s (pattern r)).
  Proof.
    intros Hs Hl Hd. unfold apply. rewrite captures_of_expr by assumption. split.
    - intros H (s & ->). destruct (instance_pmatch (pattern r) s) as (caps & Hc & _). rewrite Hc in H.
      destruct (substitute caps (replacement r)); [|discriminate]. cbn [rbind] in H. destruct Hs as [Hs|Hs]; rewrite Hs in H; discriminate.
    - intros H. destruct (pmatch (pattern r) n) as [caps|] eqn:Hc; [|reflexivity]. destruct H. exists (env_of caps). symmetry.
      eapply pmatch_instance; [exact Hc|]. intros. apply env_of_in; [|assumption]. now rewrite (pmatch_names _ _ _ Hc).
  Qed.
  Lemma apply_missing r n s x : ~ in_line n -> n = instance s (pattern r) ->
    In x (captures (replacement r)) -> ~ In x (captures (pattern r)) -> apply kind_sort r n = Err KeyError.
  Proof.
    intros Hl -> Hx Hn. unfold apply. rewrite captures_of_expr by assumption.
    destruct (instance_pmatch (pattern r) s) as (caps & Hc & _). rewrite Hc.
    rewrite (substitute_missing caps _ x); [reflexivity|assumption|]. now rewrite (pmatch_names _ _ _ Hc).
  Qed.

  (** Statements stay statements. *)
  Lemma apply_sorts r n m : kind_sort "Expr" = Small -> kind_sort "SimpleStatementLine" = Statement ->
    usable kind_sort (replacement r) -> apply kind_sort r n = Ok (Some m) ->
    (sort_of kind_sort n = Small -> sort_of kind_sort m = Small) /\
    (sort_of kind_sort n = Statement -> sort_of kind_sort m = Statement).
  Proof.
    intros He Hl Hp. unfold apply. destruct (captures_of (pattern r) n) as [caps|]; [|discriminate].
    destruct (substitute caps (replacement r)) as [v|] eqn:Ev; [|discriminate]. cbn [rbind].
    assert (Hv : sort_of kind_sort v <> Part /\ forall par c, v = Node par "SimpleStatementLine" [c] -> sort_of kind_sort c = Small).
    { destruct (replacement r) as [par [a|x]|par k cs]; cbn [usable] in Hp.
      - cbn in Ev. injection Ev as <-. split; discriminate.
      - destruct Hp.
      - rewrite substitute_node in Ev. destruct (rmapM (substitute caps) cs) as [ds|] eqn:Em; [|discriminate]. cbn in Ev.
        injection Ev as <-. destruct Hp as [Hp1 Hp2]. split; [exact Hp1|]. intros par' c Hx. injection Hx as -> -> ->.
        destruct cs as [|c1 [|c2 cs]]; [discriminate| |].
        + destruct (Hp2 c1 eq_refl eq_refl) as (par1 & k1 & cs1 & -> & Hk). cbn [rmapM] in Em. rewrite substitute_node in Em.
          destruct (rmapM (substitute caps) cs1) as [ds1|]; [|discriminate]. cbn in Em. injection Em as <-. exact Hk.
        + cbn [rmapM] in Em. destruct (substitute caps c1); [|discriminate]. cbn [rbind] in Em.
          destruct (substitute caps c2); [|discriminate]. cbn [rbind] in Em. destruct (rmapM (substitute caps) cs); discriminate. }
    destruct Hv as [Hv1 Hv2].
    intros H. split; intros Hs; rewrite Hs in H.
    - destruct (sort_of kind_sort v) eqn:Es.
      + injection H as <-. exact He.
      + injection H as <-. exact Es.
      + destruct v as [|par k [|c [|]]]; try discriminate. destruct (String.eqb_spec k "SimpleStatementLine") as [->|]; [|discriminate].
        injection H as <-. apply (Hv2 par c). reflexivity.
      + congruence.
    - destruct (sort_of kind_sort v) eqn:Es.
      + injection H as <-. exact Hl.
      + injection H as <-. exact Hl.
      + injection H as <-. exact Es.
      + congruence.
  Qed.
End Apply.
