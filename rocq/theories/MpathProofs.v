(** The search finds exactly the matching modules and terminates. *)
From Coq Require Import String Ascii.
From Verif Require Import Prelude ModulesModel ModulesSpec MpathModel MpathSpec MpathLangProofs MpathSetProofs.
Local Open Scope nat_scope.
Local Open Scope list_scope.

Lemma tok_eqb_eq a b : tok_eqb a b = true <-> a = b.
Proof. destruct a, b; cbn; try (split; congruence). rewrite Nat.eqb_eq. split; congruence. Qed.
Lemma marker_eqb_eq a b : marker_eqb a b = true <-> a = b.
Proof.
  unfold marker_eqb. rewrite andb_true_iff, (list_eqb_eq _ tok_eqb_eq), Nat.eqb_eq. destruct a, b; cbn. split; [intros [-> ->]; auto|intros E; injection E; auto].
Qed.
Lemma inA_remove s t u : inA s t -> groups_ok s -> remove_root t = Some u -> inA s u.
Proof.
  induction 1; intros G D.
  - now apply A_rem.
  - rewrite (remove_idem _ _ _ (Nat.lt_succ_diag_r _) G H) in D. injection D as <-. now apply A_rem.
  - apply A_next; [assumption|]. apply IHinA; [now inversion G|assumption].
  - apply A_alt with alt; [assumption|]. apply groups_inv in G. destruct G as (_ & GA & GN).
    apply IHinA; [apply groups_ok_app; [now apply GA|assumption]|assumption].
Qed.
Lemma inA_trans' s t u : inA s t -> groups_ok s -> inA t u -> inA s u.
Proof.
  intros D G D'. apply inA_cases in D'. destruct D' as [->|[D'|D']].
  - assumption.
  - now apply inA_remove with t.
  - now apply inA_trans with t.
Qed.
Lemma toks_ids i s : In (TI i) (fragment_list s) -> In i (ids s).
Proof.
  unfold fragment_list, ids. intros H. apply in_flat_map in H. destruct H as (n & Hn & H). apply in_flat_map. exists n. split; [assumption|].
  clear Hn s. revert H. assert (G : forall k n, size_node n < k -> In (TI i) (toks_node n) -> In i (ids_node n)).
  { induction k; [lia|]. intros [j f|alts] Hk H.
    - destruct H as [H|[]]. injection H as ->. now left.
    - cbn in H. destruct H as [H|H]; [discriminate|]. apply in_app_iff in H. destruct H as [H|[H|[]]]; [|discriminate].
      apply in_flat_map in H. destruct H as (a & Ha & H). apply in_flat_map in H. destruct H as (b & Hb & H).
      cbn. apply in_flat_map. exists a. split; [assumption|]. apply in_flat_map. exists b. split; [assumption|].
      apply IHk; [|assumption]. change (size_node (NMulti alts)) with (S (list_sum (map size alts))) in Hk.
      pose proof (list_sum_in _ _ (in_map size _ _ Ha)). pose proof (list_sum_in _ _ (in_map size_node _ _ Hb)). unfold size in *. lia. }
  apply (G _ _ (Nat.lt_succ_diag_r _)).
Qed.
Lemma list_max_ge' l x : In x l -> x <= list_max l.
Proof. intros H. pose proof (proj1 (list_max_le l (list_max l)) (Nat.le_refl _)) as F. rewrite Forall_forall in F. now apply F. Qed.
Lemma fresh_lt q i : In i (ids q) -> i < fresh_from q.
Proof. intros H. unfold fresh_from. pose proof (list_max_ge' _ _ H). lia. Qed.

(** ** Strings *)
Lemma string_app_assoc (a b c : string) : ((a ++ b) ++ c)%string = (a ++ (b ++ c))%string.
Proof. induction a; cbn; congruence. Qed.
Lemma string_app_nil (a b : string) : (a ++ b)%string = ""%string -> a = ""%string /\ b = ""%string.
Proof. destruct a; cbn; [auto|discriminate]. Qed.
Definition names_ok (p : way) : Prop := forall x, In x p -> fst x <> ""%string.
Lemma dotted_nonempty x p : names_ok (x :: p) -> dotted (x :: p) <> ""%string.
Proof.
  intros H. destruct x as [n c]. assert (Hn : n <> ""%string) by (apply (H (n, c)); now left).
  destruct p; cbn; [assumption|]. intros E. apply string_app_nil in E. tauto.
Qed.
Lemma dotted_snoc p n c : names_ok p ->
  dotted (p ++ [(n, c)]) = ((if String.eqb (dotted p) "" then "" else dotted p ++ ".") ++ n)%string.
Proof.
  destruct p as [|x p]; intros H; [reflexivity|].
  rewrite (proj2 (String.eqb_neq _ _) (dotted_nonempty x p H)).
  revert x H. induction p as [|y p IH]; intros [n0 c0] H.
  - cbn. now rewrite string_app_assoc.
  - change (dotted (((n0, c0) :: y :: p) ++ [(n, c)])) with (n0 ++ "." ++ dotted (((y :: p) ++ [(n, c)])%list))%string.
    rewrite IH by (intros x Hx; apply H; now right).
    change (dotted ((n0, c0) :: y :: p)) with (n0 ++ "." ++ dotted ((y :: p)%list))%string. now rewrite !string_app_assoc.
Qed.

(** ** Children *)
Lemma dedup_in seen kids n c : In (n, c) (dedup_names seen kids) -> In (n, Some c) kids.
Proof.
  revert seen. induction kids as [|[n' [c'|]] l IH]; intros seen; cbn; [easy|..].
  - destruct (existsb (Nat.eqb c') seen).
    + intros H. right. now apply IH with seen.
    + intros [H|H]; [left; congruence|right; now apply IH with (c' :: seen)].
  - intros H. right. now apply IH with seen.
Qed.
Lemma in_dedup kids n c : (forall n n' c, In (n, Some c) kids -> In (n', Some c) kids -> n = n') ->
  forall seen, In (n, Some c) kids -> ~ In c seen -> In (n, c) (dedup_names seen kids).
Proof.
  induction kids as [|[n' [c'|]] l IH]; intros U seen H NS; cbn; [easy|..].
  - assert (U' : forall n n' c, In (n, Some c) l -> In (n', Some c) l -> n = n') by (intros; apply (U n0 n'0 c0); now right).
    destruct (existsb (Nat.eqb c') seen) eqn:E.
    + destruct H as [H|H]; [|now apply IH]. injection H as -> ->. exfalso. apply NS.
      apply existsb_exists in E. destruct E as (y & Hy & Ey). apply Nat.eqb_eq in Ey. now subst.
    + destruct (Nat.eq_dec c c') as [<-|Ne].
      * left. f_equal. apply (U n' n c); [now left|assumption].
      * right. destruct H as [H|H]; [congruence|]. apply IH; auto. intros [->|Hc]; [easy|contradiction].
  - destruct H as [H|H]; [discriminate|]. apply IH; auto. intros n0 n1 c0 H0 H1. apply (U n0 n1 c0); now right.
Qed.

Section P.
  Variable re_fullmatch : string -> string -> bool.
  Variable is_instance : nat -> nat -> bool.
  Variable predicate : nat -> string -> nat -> bool.
  Notation matched := (matched re_fullmatch is_instance predicate).
  Notation matches_conts := (matches_conts re_fullmatch is_instance predicate).
  Notation visit_child := (visit_child re_fullmatch is_instance predicate).
  Notation search_loop := (search_loop re_fullmatch is_instance predicate).
  Notation search := (search re_fullmatch is_instance predicate).
  Notation answers := (answers re_fullmatch is_instance predicate).

  (** ** Which selectors continuations carry *)
  Lemma simplify_class c s s' c' : simplify c s = (s', c') ->
    (s' = s /\ c' = c) \/ (exists r, s' = NFrag c (Wild true) :: r /\ c' = S c /\ (r = [] \/ remove_root s = Some r)).
  Proof.
    unfold simplify. destruct (has_root s); [|intros E; injection E as <- <-; now left].
    destruct (remove_root s) as [r|]; intros E; injection E as <- <-; right; [exists r|exists []]; auto.
  Qed.
  Definition fresh_class (s : sel) (c c' : nat) (ks : list cont) (new : list (nat * sel)) : Prop :=
    c <= c' /\ map fst new = seq c (c' - c) /\
    (forall j r, In (j, r) new -> r = [] \/ der s r) /\
    (forall k, In k ks -> k_sel k = s \/ der s (k_sel k) \/ exists j r, In (j, r) new /\ k_sel k = NFrag j (Wild true) :: r).

  Lemma frag_class name m c i f next ms ks c' : matches_conts name m c (NFrag i f) next = (ms, ks, c') ->
    exists new, fresh_class (NFrag i f :: next) c c' ks new /\ length ks <= 3.
  Proof.
    cbn [MpathModel.matches_conts]. destruct (negb _).
    { intros E. injection E as <- <- <-. exists []. repeat split; cbn; try easy; try lia. now rewrite Nat.sub_diag. }
    destruct next as [|n0 nx0].
    { destruct (must_advance f); intros E; injection E as <- <- <-; exists []; (split; [|cbn; lia]);
        (repeat split; [lia|now rewrite Nat.sub_diag|easy|]); cbn; [easy|]. intros k [<-|[]]. now left. }
    set (next := n0 :: nx0). assert (NE : next <> []) by discriminate.
    assert (SP : forall c s c', simplify c next = (s, c') -> exists new, c <= c' /\ map fst new = seq c (c' - c) /\
       (forall j r, In (j, r) new -> r = [] \/ der (NFrag i f :: next) r) /\
       (s = NFrag i f :: next \/ der (NFrag i f :: next) s \/ exists j r, In (j, r) new /\ s = NFrag j (Wild true) :: r)).
    { clear. intros c s c' E. apply simplify_class in E. destruct E as [[-> ->]|(r & -> & -> & R)].
      - exists []. rewrite Nat.sub_diag. repeat split; try easy. right. left. cbn. split; [discriminate|constructor].
      - exists [(c, r)]. replace (S c - c) with 1 by lia. repeat split; [lia| |].
        + intros j r0 [H|[]]. injection H as <- <-. destruct R as [R|R]; [now left|right]. cbn. split; [discriminate|now apply A_rem].
        + right. right. exists c, r. split; [now left|reflexivity]. }
    destruct (must_advance f); cbn.
    - destruct (simplify c next) as [s c1] eqn:ES. intros E. injection E as <- <- <-.
      destruct (SP _ _ _ ES) as (new & L & F & R & S). exists new. split; [|cbn; lia]. repeat split; auto. intros k [<-|[]]. exact S.
    - destruct (simplify c next) as [s c1] eqn:ES. destruct (simplify c1 next) as [s' c2] eqn:ES'.
      intros E. injection E as <- <- <-.
      destruct (SP _ _ _ ES) as (new & L & F & R & S). destruct (SP _ _ _ ES') as (new' & L' & F' & R' & S').
      exists (new ++ new'). split; [|cbn; lia]. repeat split.
      + lia.
      + transitivity (seq c (c1 - c) ++ seq c1 (c2 - c1)); [etransitivity; [apply map_app|exact (f_equal2 (@app nat) F F')]|]. replace (c2 - c) with ((c1 - c) + (c2 - c1)) by lia. rewrite seq_app. do 2 f_equal. lia.
      + intros j r H. apply in_app_iff in H. destruct H; eauto.
      + intros k [<-|[<-|[<-|[]]]]; cbn [k_sel].
        * now left.
        * destruct S as [S|[S|(j & r & H1 & H2)]]; auto. right. right. exists j, r. split; [apply in_app_iff; now left|assumption].
        * destruct S' as [S'|[S'|(j & r & H1 & H2)]]; auto. right. right. exists j, r. split; [apply in_app_iff; now right|assumption].
  Qed.
  Lemma mc_class k : forall name m n next c ms ks c', size (n :: next) < k ->
    matches_conts name m c n next = (ms, ks, c') ->
    exists new, fresh_class (n :: next) c c' ks new /\ length ks <= 3 * size_node n.
  Proof.
    induction k; [lia|]. intros name m n next c ms ks c' Hk E. destruct n as [i f|alts].
    - apply frag_class in E. exact E.
    - apply multi_runs in E. change (size_node (NMulti alts)) with (S (list_sum (map size alts))).
      assert (G : forall alts0 c ms ks c', runs re_fullmatch is_instance predicate name m next c alts0 ms ks c' ->
        (forall a, In a alts0 -> In a alts) ->
        exists new, fresh_class (NMulti alts :: next) c c' ks new /\ length ks <= 3 * list_sum (map size alts0)).
      { clear E ms ks c c'. intros alts0 c ms ks c' R. induction R; intros Sub.
        - exists []. repeat split; cbn; try easy; try lia. now rewrite Nat.sub_diag.
        - destruct IHR as (new & F & L); [intros; apply Sub; now right|]. exists new. split; [assumption|].
          change (list_sum (map size ([] :: alts0))) with (0 + list_sum (map size alts0)). lia.
        - assert (Ha : In (a :: tl) alts) by (apply Sub; now left).
          destruct IHR as (new2 & (L2 & F2 & R2 & K2) & Z2); [intros; apply Sub; now right|].
          destruct (IHk name m a (tl ++ next) c ms1 ks1 c1) as (new1 & (L1 & F1 & R1 & K1) & Z1); [|assumption|].
          { pose proof (size_alt alts (a :: tl) next Ha). cbn [app] in H0. lia. }
          assert (UP : forall u, u = a :: tl ++ next \/ der (a :: tl ++ next) u -> der (NMulti alts :: next) u).
          { intros u Hu. cbn [der]. exists (a :: tl). split; [assumption|]. apply inA_cases. cbn [app]. tauto. }
          exists (new1 ++ new2). split.
          + repeat split.
            * lia.
            * transitivity (seq c (c1 - c) ++ seq c1 (c2 - c1)); [etransitivity; [apply map_app|exact (f_equal2 (@app nat) F1 F2)]|]. replace (c2 - c) with ((c1 - c) + (c2 - c1)) by lia. rewrite seq_app. do 2 f_equal. lia.
            * intros j r H0. apply in_app_iff in H0. destruct H0 as [H0|H0]; [|now apply (R2 j)].
              destruct (R1 j r H0) as [->|D]; [now left|right]. apply UP. now right.
            * intros k0 H0. apply in_app_iff in H0. destruct H0 as [H0|H0].
              -- destruct (K1 k0 H0) as [D|[D|(j & r & H1 & H2)]].
                 ++ right. left. apply UP. now left.
                 ++ right. left. apply UP. now right.
                 ++ right. right. exists j, r. split; [apply in_app_iff; now left|assumption].
              -- destruct (K2 k0 H0) as [D|[D|(j & r & H1 & H2)]]; auto.
                 right. right. exists j, r. split; [apply in_app_iff; now right|assumption].
          + rewrite app_length. change (list_sum (map size ((a :: tl) :: alts0))) with ((size_node a + size tl) + list_sum (map size alts0)). lia. }
      destruct (G _ _ _ _ _ E (fun a H => H)) as (new & F & L). exists new. split; [assumption|lia].
  Qed.

  Section Search.
    Variables (h : heap) (root : nat) (q : sel).
    Hypothesis Hnamed : named h.
    Hypothesis Hok : heap_ok h.
    Hypothesis Hroot : root < length h.
    Hypothesis Hne : q <> [].
    Hypothesis Hwf : WF q.
    Hypothesis Hinj : forall t t', inA q t -> inA q t' -> fragment_list t = fragment_list t' -> t = t'.

    Lemma child_iff x m n c : nth_error h x = Some m -> (In (n, c) (named_children m) <-> In (n, Some c) (mkids m)).
    Proof.
      intros E. destruct (Hnamed x m E) as [_ U]. split; [apply dedup_in|]. intros H. apply in_dedup; auto.
    Qed.
    Lemma goes_lt x p z : goes h x p z -> x < length h -> z < length h.
    Proof.
      induction 1; intros L; [assumption|]. apply IHgoes. destruct (Hok _ _ H) as [_ K]. now apply (K n).
    Qed.
    Lemma goes_names x p z : goes h x p z -> names_ok p.
    Proof.
      induction 1; intros y; [easy|]. intros [<-|Hy]; [|now apply IHgoes]. destruct (Hnamed _ _ H) as [K _]. cbn. now apply (K n c).
    Qed.
    Lemma goes_snoc x p y m n c : goes h x p y -> nth_error h y = Some m -> In (n, Some c) (mkids m) -> goes h x (p ++ [(n, c)]) c.
    Proof.
      induction 1; intros E I; cbn; econstructor; eauto. constructor.
    Qed.

    Definition K (made : list (nat * sel)) (s : sel) : Prop :=
      inA q s \/ exists j r, In (j, r) made /\ s = NFrag j (Wild true) :: r.
    Definition made_ok (made : list (nat * sel)) (c : nat) : Prop :=
      NoDup (map fst made) /\ forall j r, In (j, r) made -> fresh_from q <= j < c /\ (r = [] \/ inA q r).
    Lemma K_inj made c s s' : made_ok made c -> K made s -> K made s' -> fragment_list s = fragment_list s' -> s = s'.
    Proof.
      intros [ND MO] Ks Ks' E.
      assert (X : forall t j r, inA q t -> In (j, r) made -> fragment_list t = fragment_list (NFrag j (Wild true) :: r) -> False).
      { intros t j r A I El. destruct (MO j r I) as [[L _] _]. assert (J : In j (ids q)).
        { apply (inA_ids _ _ A). apply toks_ids. rewrite El. now left. }
        apply fresh_lt in J. lia. }
      destruct Ks as [A|(j & r & I & ->)], Ks' as [A'|(j' & r' & I' & ->)].
      - now apply Hinj.
      - exfalso. now apply (X s j' r').
      - exfalso. now apply (X s' j r).
      - change (TI j :: fragment_list r = TI j' :: fragment_list r') in E. injection E as <- E. f_equal.
        clear -ND I I'. induction made as [|[j0 r0] l IH]; [easy|]. cbn in ND. apply NoDup_cons_iff in ND. destruct ND as [N1 N2].
        destruct I as [I|I], I' as [I'|I'].
        + congruence.
        + injection I as -> ->. exfalso. apply N1. apply in_map_iff. now exists (j, r').
        + injection I' as -> ->. exfalso. apply N1. apply in_map_iff. now exists (j, r).
        + now apply IH.
    Qed.
    Lemma K_der made c s u : made_ok made c -> K made s -> der s u -> inA q u.
    Proof.
      intros [ND MO] [A|(j & r & I & ->)] D.
      - apply inA_trans with s; [assumption|apply Hwf|assumption].
      - cbn in D. destruct D as [NE D]. destruct (MO j r I) as [_ [->|A]]; [easy|]. apply inA_trans' with r; [assumption|apply Hwf|assumption].
    Qed.
    Lemma K_size made c s : made_ok made c -> K made s -> size s <= S (size q).
    Proof.
      intros [ND MO] [A|(j & r & I & ->)].
      - apply inA_size in A. lia.
      - rewrite size_cons. cbn [size_node]. destruct (MO j r I) as [_ [->|A]]; [cbn; lia|]. apply inA_size in A. lia.
    Qed.

    Definition sound_item (it : sel * fres) : Prop :=
      exists p, goes h root p (r_mod (snd it)) /\ r_name (snd it) = dotted p /\ forall p', matched (fst it) p' -> matched q (p ++ p').
    Definition sound_res (r : fres) : Prop :=
      exists p last, goes h root (p ++ [last]) (r_mod r) /\ matched q (p ++ [last]) /\
       goes h root p (r_parent r) /\ r_name r = dotted (p ++ [last]) /\ r_attr r = fst last /\ snd last = r_mod r.
    Definition good (made : list (nat * sel)) (s : sel) : Prop := K made s /\ s <> [] /\ WF s.
    Definition Inv (made : list (nat * sel)) (E : list (sel * nat)) (st : sstate) : Prop :=
      made_ok made (s_count st) /\ fresh_from q <= s_count st /\
      s_explored st = map (fun e => (fragment_list (fst e), snd e)) E /\
      (forall e, In e E -> good made (fst e)) /\
      (forall it, In it (s_active st) -> In (fst it, r_mod (snd it)) E /\ sound_item it) /\
      NoDup (map r_mod (s_results st)) /\ (forall r, In r (s_results st) -> sound_res r).
    Definition covered (E : list (sel * nat)) (res : list fres) (s : sel) (m : nat) (x : string * nat) : Prop :=
      forall p, matched s (x :: p) ->
        (p = [] /\ In (snd x) (map r_mod res)) \/
        (p <> [] /\ exists s', In (s', snd x) E /\ matched s' p) \/
        (exists s', In (s', m) E /\ w s' < w s /\ matched s' (x :: p)).
    Lemma covered_mono E res s m x E' res' : covered E res s m x -> incl E E' -> incl res res' -> covered E' res' s m x.
    Proof.
      intros C IE IR p M. destruct (C p M) as [[-> H]|[[NE (s' & H1 & H2)]|(s' & H1 & H2 & H3)]].
      - left. split; [reflexivity|]. apply in_map_iff in H. destruct H as (r & Hr & H). apply in_map_iff. exists r. auto.
      - right; left. split; [assumption|]. eauto.
      - right; right. eauto.
    Qed.

    (** matches *)
    Lemma add_matches it name c m made E : nth_error h (r_mod (snd it)) = Some m -> In (name, Some c) (mkids m) ->
      sound_item it -> forall ms st, Inv made E st -> (ms <> [] -> matched (fst it) [(name, c)]) ->
      let st' := fold_left (add_match it name c) ms st in
      Inv made E st' /\ s_active st' = s_active st /\ s_explored st' = s_explored st /\ incl (s_results st) (s_results st') /\
      (ms <> [] -> In c (map r_mod (s_results st'))).
    Proof.
      intros Hm Hc (p & Gp & Np & Mp). induction ms as [|f ms IH]; intros st I Hms; cbn [fold_left].
      - cbn. split; [exact I|]. split; [reflexivity|]. split; [reflexivity|]. split; [apply incl_refl|easy].
      - assert (M : matched (fst it) [(name, c)]) by (apply Hms; discriminate).
        assert (S1 : Inv made E (add_match it name c st f) /\ s_active (add_match it name c st f) = s_active st /\
                     s_explored (add_match it name c st f) = s_explored st /\ incl (s_results st) (s_results (add_match it name c st f)) /\
                     In c (map r_mod (s_results (add_match it name c st f)))).
        { unfold add_match. destruct (existsb (fun r => r_mod r =? c) (s_results st)) eqn:EX.
          - split; [exact I|]. split; [reflexivity|]. split; [reflexivity|]. split; [apply incl_refl|]. apply existsb_exists in EX. destruct EX as (r & Hr & Er).
            apply Nat.eqb_eq in Er. subst c. now apply in_map.
          - destruct I as (I1 & I2 & I3 & I4 & I5 & I6 & I7). cbn. split; [split; [exact I1|]|].
            { cbn. split; [exact I2|]. split; [exact I3|]. split; [exact I4|]. split; [exact I5|]. split.
            + rewrite map_app. cbn. apply nodup_join; [assumption|repeat constructor; easy|].
              intros x Hx [<-|[]]. cbn in Hx. apply in_map_iff in Hx. destruct Hx as (r & Er & Hr).
              assert (existsb (fun r => r_mod r =? c) (s_results st) = true); [|congruence].
              apply existsb_exists. exists r. split; [assumption|]. now apply Nat.eqb_eq.
            + intros r Hr. apply in_app_iff in Hr. destruct Hr as [Hr|[<-|[]]]; [now apply I7|].
              exists p, (name, c). cbn. split; [now apply goes_snoc with (r_mod (snd it)) m|]. split; [now apply Mp|].
              split; [assumption|]. split; [|auto]. rewrite Np. symmetry. apply dotted_snoc. now apply goes_names in Gp. }
            split; [reflexivity|]. split; [reflexivity|]. split.
            + intros r Hr. apply in_app_iff. now left.
            + rewrite map_app. apply in_app_iff. right. now left. }
        destruct S1 as (I' & A1 & X1 & R1 & C1).
        destruct (IH _ I' (fun _ => M)) as (I2 & A2 & X2 & R2 & C2). split; [exact I2|]. split; [|split; [|split]].
        + congruence.
        + congruence.
        + intros r Hr. apply R2. now apply R1.
        + intros _. apply in_map_iff in C1. destruct C1 as (r & Er & Hr). apply in_map_iff. exists r. split; [assumption|]. now apply R2.
    Qed.

    (** continuations *)
    Lemma add_conts it name c m made : nth_error h (r_mod (snd it)) = Some m -> In (name, Some c) (mkids m) ->
      sound_item it -> forall ks st E, Inv made E st ->
      (forall k, In k ks -> good made (k_sel k)) ->
      (forall k p, In k ks -> k_consume k = true -> matched (k_sel k) p -> matched (fst it) ((name, c) :: p)) ->
      (forall k p, In k ks -> k_consume k = false -> matched (k_sel k) p -> matched (fst it) p) ->
      let st' := fold_left (add_cont it name c) ks st in
      exists E' new, Inv made E' st' /\ s_active st' = new ++ s_active st /\ s_results st' = s_results st /\ incl E E' /\
        (forall k, In k ks -> In (k_sel k, if k_consume k then c else r_mod (snd it)) E') /\
        (forall e, In e E' -> In e E \/ exists it', In it' new /\ (fst it', r_mod (snd it')) = e) /\
        (forall it', In it' new -> exists k, In k ks /\ fst it' = k_sel k /\ r_mod (snd it') = if k_consume k then c else r_mod (snd it)) /\
        length new <= length ks.
    Proof.
      intros Hm Hc (p & Gp & Np & Mp). induction ks as [|k ks IH]; intros st E I Hg Hs1 Hs0; cbn [fold_left].
      - exists E, []. cbn. split; [exact I|]. repeat split; auto; try easy.
      - set (r := if k_consume k then child_result (snd it) c name (k_frag k)
             else mkR (r_name (snd it)) (r_mod (snd it)) (r_parent (snd it)) (r_attr (snd it)) (r_frags (snd it) ++ [k_frag k])).
        assert (Rm : r_mod r = if k_consume k then c else r_mod (snd it)) by (unfold r; now destruct (k_consume k)).
        assert (S1 : exists E1 new1, Inv made E1 (add_cont it name c st k) /\ s_active (add_cont it name c st k) = new1 ++ s_active st /\
            s_results (add_cont it name c st k) = s_results st /\ incl E E1 /\
            In (k_sel k, if k_consume k then c else r_mod (snd it)) E1 /\
            (forall e, In e E1 -> In e E \/ exists it', In it' new1 /\ (fst it', r_mod (snd it')) = e) /\
            (forall it', In it' new1 -> fst it' = k_sel k /\ r_mod (snd it') = if k_consume k then c else r_mod (snd it)) /\
            length new1 <= 1).
        { unfold add_cont. fold r. rewrite <- Rm. pose proof I as I0. destruct I0 as (I1 & I2 & I3 & I4 & I5 & I6 & I7).
          destruct (existsb (marker_eqb (fragment_list (k_sel k), r_mod r)) (s_explored st)) eqn:EX.
          - exists E, []. cbn. split; [exact I|]. repeat split; auto; try apply incl_refl; try easy.
            apply existsb_exists in EX. destruct EX as (mk & Hmk & Emk). apply marker_eqb_eq in Emk. subst mk.
            rewrite I3 in Hmk. apply in_map_iff in Hmk. destruct Hmk as ([s' m'] & Ee & He). cbn in Ee. injection Ee as El <-.
            destruct (I4 _ He) as [Ks' _]. cbn in Ks'. destruct (Hg k (or_introl eq_refl)) as [Ks _].
            now rewrite <- (K_inj _ _ _ _ I1 Ks' Ks El).
          - exists ((k_sel k, r_mod r) :: E), [(k_sel k, r)]. cbn [s_active s_results length fst snd].
            split.
            { split; [exact I1|]. split; [exact I2|]. cbn [s_count s_explored s_active s_results].
              split; [cbn; f_equal; exact I3|]. split; [intros e [<-|He]; [apply Hg; now left|now apply I4]|].
              split; [|auto]. intros it' [<-|Hit].
              - cbn [fst snd]. split; [now left|]. unfold sound_item. cbn [fst snd]. unfold r. destruct (k_consume k) eqn:KC.
                + exists (p ++ [(name, c)]). cbn. split; [now apply goes_snoc with (r_mod (snd it)) m|].
                  split; [rewrite Np; symmetry; apply dotted_snoc; now apply goes_names in Gp|].
                  intros p' M. rewrite <- app_assoc. apply Mp. cbn. apply (Hs1 k); [now left|assumption|assumption].
                + exists p. cbn. split; [assumption|]. split; [assumption|]. intros p' M. apply Mp. apply (Hs0 k); [now left|assumption|assumption].
              - destruct (I5 _ Hit) as [H1 H2]. split; [now right|assumption]. }
            repeat split; auto.
            + intros e He; now right.
            + now left.
            + intros e [<-|He]; [right|now left]. exists (k_sel k, r). split; [now left|reflexivity].
            + destruct H as [<-|[]]. reflexivity.
            + destruct H as [<-|[]]. reflexivity. }
        destruct S1 as (E1 & new1 & J1 & J2 & J3 & J4 & J5 & J6 & J7 & J8).
        destruct (IH _ E1 J1) as (E2 & new2 & L1 & L2 & L3 & L4 & L5 & L6 & L7 & L8).
        { intros k0 Hk0. apply Hg. now right. }
        { intros k0 p0 Hk0. apply Hs1. now right. }
        { intros k0 p0 Hk0. apply Hs0. now right. }
        exists E2, (new2 ++ new1). split; [exact L1|]. split; [rewrite L2, J2; apply app_assoc|]. split; [congruence|].
        split; [intros e He; auto|]. split; [intros k0 [<-|Hk0]; auto|].
        split.
        { intros e He. destruct (L6 e He) as [H|(it' & H1 & H2)].
          - destruct (J6 e H) as [H'|(it' & H1 & H2)]; [now left|]. right. exists it'. split; [apply in_app_iff; now right|assumption].
          - right. exists it'. split; [apply in_app_iff; now left|assumption]. }
        split.
        { intros it' H. apply in_app_iff in H. destruct H as [H|H].
          - destruct (L7 it' H) as (k0 & H1 & H2). exists k0. split; [now right|assumption].
          - exists k. split; [now left|]. now apply J7. }
        rewrite app_length. cbn [length]. lia.
    Qed.

    Definition step_bound (it : sel * fres) (x : string * nat) (it' : sel * fres) : Prop :=
      (r_mod (snd it') = snd x /\ w (fst it') <= w (fst it)) \/ (r_mod (snd it') = r_mod (snd it) /\ w (fst it') < w (fst it)).
    Lemma visit_ok it x m made E st : nth_error h (r_mod (snd it)) = Some m -> In (fst x, Some (snd x)) (mkids m) ->
      sound_item it -> good made (fst it) -> Inv made E st ->
      let st' := visit_child it st x in
      exists made' E' new, Inv made' E' st' /\ incl made made' /\ s_active st' = new ++ s_active st /\ incl (s_results st) (s_results st') /\
        incl E E' /\ covered E' (s_results st') (fst it) (r_mod (snd it)) x /\
        (forall e, In e E' -> In e E \/ exists it', In it' new /\ (fst it', r_mod (snd it')) = e) /\
        (forall it', In it' new -> step_bound it x it') /\ length new <= 3 * S (size q).
    Proof.
      destruct x as [name c]. cbn [fst snd]. intros Hm Hc Hs (Ks & NEs & Ws) I. unfold MpathModel.visit_child. cbn [fst snd].
      destruct it as [[|n next] r0] eqn:Eit; [now cbn in NEs|]. rewrite <- Eit in *. cbn [fst] in *.
      assert (Fit : fst it = n :: next) by (now rewrite Eit). rewrite Fit in *. cbn [sel_matches_conts].
      destruct (matches_conts name c (s_count st) n next) as [[ms ks] c'] eqn:EM.
      destruct (mc_sound re_fullmatch is_instance predicate name c _ n next _ _ _ _ (Nat.lt_succ_diag_r _) Ws EM) as (M1 & M2 & M3 & M4 & M5 & M6).
      destruct (mc_class _ _ _ _ _ _ _ _ _ (Nat.lt_succ_diag_r _) EM) as (fresh & (F1 & F2 & F3 & F4) & F5).
      destruct I as (I1 & I2 & I3 & I4 & I5 & I6 & I7).
      set (made' := made ++ fresh).
      assert (MO : made_ok made' c').
      { destruct I1 as [ND MO]. split.
        - unfold made'. rewrite map_app, F2. apply nodup_join; [assumption|apply seq_NoDup|].
          intros j Hj Hj'. apply in_map_iff in Hj. destruct Hj as ([j0 r1] & <- & Hj). apply MO in Hj. apply in_seq in Hj'. cbn in *. lia.
        - intros j r1 H. unfold made' in H. apply in_app_iff in H. destruct H as [H|H].
          + destruct (MO j r1 H) as [L D]. split; [lia|assumption].
          + assert (J : In j (map fst fresh)) by (apply in_map_iff; now exists (j, r1)). rewrite F2 in J. apply in_seq in J.
            split; [lia|]. destruct (F3 j r1 H) as [->|D]; [now left|right]. apply (K_der made (s_count st) (n :: next)); [now split|assumption|assumption]. }
      assert (KM : forall s, K made s -> K made' s).
      { intros s [A|(j & r1 & H1 & H2)]; [now left|right]. exists j, r1. split; [unfold made'; apply in_app_iff; now left|assumption]. }
      set (st1 := mkS (s_results st) (s_active st) (s_explored st) c').
      assert (Inv1 : Inv made' E st1).
      { unfold st1. split; [exact MO|]. cbn. split; [lia|]. split; [assumption|]. split; [|auto].
        intros e He. destruct (I4 e He) as (A & B & C). split; [now apply KM|auto]. }
      rewrite <- Fit in M1, M3, M4.
      destruct (add_matches it name c m made' E Hm Hc Hs ms st1 Inv1 M1) as (J1 & J2 & J3 & J4 & J5).
      set (st2 := fold_left (add_match it name c) ms st1) in *.
      assert (Gk : forall k, In k ks -> good made' (k_sel k)).
      { intros k Hk. destruct (M2 k Hk) as (A & B & _). split; [|auto].
        destruct (F4 k Hk) as [->|[D|(j & r1 & H1 & H2)]].
        - now apply KM.
        - left. now apply (K_der made (s_count st) (n :: next)).
        - right. exists j, r1. split; [unfold made'; apply in_app_iff; now right|assumption]. }
      destruct (add_conts it name c m made' Hm Hc Hs ks st2 E J1 Gk M3 M4) as (E' & new & L1 & L2 & L3 & L4 & L5 & L6 & L7 & L8).
      exists made', E', new. split; [exact L1|]. split; [unfold made'; intros e He; apply in_app_iff; now left|].
      split; [rewrite L2, J2; reflexivity|]. split; [rewrite L3; exact J4|]. split; [assumption|]. split.
      - intros p Mp. destruct (M6 p Mp) as [[-> NE]|[[NE (k & H1 & H2 & H3)]|(k & H1 & H2 & H3)]].
        + left. split; [reflexivity|]. rewrite L3. now apply J5.
        + right; left. split; [assumption|]. exists (k_sel k). split; [|assumption]. specialize (L5 k H1). now rewrite H2 in L5.
        + right; right. exists (k_sel k). specialize (L5 k H1). rewrite H2 in L5. split; [assumption|]. split; [|assumption].
          now apply M5.
      - split; [assumption|]. split.
        + intros it' Hit. destruct (L7 it' Hit) as (k & Hk & Ef & Er). unfold step_bound. rewrite Ef, Er, Fit. destruct (k_consume k) eqn:KC.
          * left. split; [reflexivity|]. now apply M2.
          * right. split; [reflexivity|]. now apply M5.
        + pose proof (K_size _ _ _ I1 Ks) as Z. rewrite size_cons in Z. lia.
    Qed.

    Lemma visits_ok it m : nth_error h (r_mod (snd it)) = Some m -> sound_item it -> forall chs made E st,
      (forall x, In x chs -> In (fst x, Some (snd x)) (mkids m)) -> good made (fst it) -> Inv made E st ->
      let st' := fold_left (visit_child it) chs st in
      exists made' E' new, Inv made' E' st' /\ s_active st' = new ++ s_active st /\ incl (s_results st) (s_results st') /\
        incl E E' /\ (forall x, In x chs -> covered E' (s_results st') (fst it) (r_mod (snd it)) x) /\
        (forall e, In e E' -> In e E \/ exists it', In it' new /\ (fst it', r_mod (snd it')) = e) /\
        (forall it', In it' new -> exists x, In x chs /\ step_bound it x it') /\ length new <= length chs * (3 * S (size q)).
    Proof.
      intros Hm Hs. induction chs as [|x chs IH]; intros made E st Hc Hg I; cbn [fold_left].
      - exists made, E, []. split; [exact I|]. cbn. repeat split; try easy; try apply incl_refl. now left.
      - destruct (visit_ok it x m made E st Hm (Hc x (or_introl eq_refl)) Hs Hg I) as (made1 & E1 & new1 & J1 & J2 & J3 & J4 & J5 & J6 & J7 & J8 & J9).
        destruct (IH made1 E1 (visit_child it st x)) as (made2 & E2 & new2 & L1 & L2 & L3 & L4 & L5 & L6 & L7 & L8).
        + intros y Hy. apply Hc. now right.
        + destruct Hg as (A & B). split; [|assumption]. destruct A as [A|(j & r & H1 & H2)]; [now left|right]. exists j, r. split; [now apply J2|assumption].
        + exact J1.
        + exists made2, E2, (new2 ++ new1). split; [exact L1|]. split; [rewrite L2, J3; apply app_assoc|].
          split; [intros r Hr; auto|]. split; [intros e He; auto|].
          split.
          { intros y [<-|Hy]; [|now apply L5]. now apply covered_mono with E1 (s_results (visit_child it st x)). }
          split.
          { intros e He. destruct (L6 e He) as [H|(it' & H1 & H2)].
            - destruct (J7 e H) as [H'|(it' & H1 & H2)]; [now left|]. right. exists it'. split; [apply in_app_iff; now right|assumption].
            - right. exists it'. split; [apply in_app_iff; now left|assumption]. }
          split.
          { intros it' H. apply in_app_iff in H. destruct H as [H|H].
            - destruct (L7 it' H) as (y & H1 & H2). exists y. split; [now right|assumption].
            - exists x. split; [now left|]. now apply J8. }
          rewrite app_length. cbn [length]. lia.
    Qed.

    Definition item_done (E : list (sel * nat)) (res : list fres) (e : sel * nat) : Prop :=
      forall m n c, nth_error h (snd e) = Some m -> In (n, Some c) (mkids m) -> covered E res (fst e) (snd e) (n, c).
    Definition all_done (E : list (sel * nat)) (st : sstate) : Prop :=
      forall e, In e E -> (exists it, In it (s_active st) /\ (fst it, r_mod (snd it)) = e) \/ item_done E (s_results st) e.

    (** ** Termination measure *)
    Variable rank : nat -> nat.
    Hypothesis Hrank : ranked h rank.
    Definition kids_bound : nat := list_max (map (fun m => length (named_children m)) h).
    Definition B : nat := S (kids_bound * (3 * S (size q))).
    Definition expo (it : sel * fres) : nat := rank (r_mod (snd it)) + w (fst it).
    Definition pot (l : list (sel * fres)) : nat := list_sum (map (fun it => B ^ expo it) l).
    Lemma pot_app a b : pot (a ++ b) = pot a + pot b.
    Proof. unfold pot. now rewrite map_app, list_sum_app. Qed.
    Lemma B_pow_pos n : 1 <= B ^ n.
    Proof. assert (B ^ n <> 0); [|lia]. apply Nat.pow_nonzero. unfold B. lia. Qed.
    Lemma pot_new l e : (forall it, In it l -> expo it < e) -> length l < B -> pot l < B ^ e.
    Proof.
      intros H L. destruct e as [|e].
      - destruct l as [|it l]; [cbn; lia|]. specialize (H it (or_introl eq_refl)). lia.
      - assert (pot l <= length l * B ^ e).
        { clear L. induction l as [|it l IH]; [cbn; lia|]. change (pot (it :: l)) with (B ^ expo it + pot l). cbn [length].
          assert (B ^ expo it <= B ^ e).
          { apply Nat.pow_le_mono_r; [unfold B; lia|]. specialize (H it (or_introl eq_refl)). lia. }
          assert (pot l <= length l * B ^ e) by (apply IH; intros; apply H; now right). nia. }
        rewrite Nat.pow_succ_r'. pose proof (B_pow_pos e). nia.
    Qed.

    Lemma loop_ok fuel : forall st made E, Inv made E st -> all_done E st -> pot (s_active st) <= fuel ->
      exists made' E' st', search_loop fuel h st = Ok (s_results st') /\ Inv made' E' st' /\ all_done E' st' /\ s_active st' = [] /\ incl E E'.
    Proof.
      induction fuel as [|fuel IH]; intros st made E I A P.
      - destruct (s_active st) as [|it rest] eqn:EA.
        + exists made, E, st. split; [cbn; now rewrite EA|]. split; [exact I|]. split; [exact A|]. split; [assumption|apply incl_refl].
        + exfalso. change (pot (it :: rest)) with (B ^ expo it + pot rest) in P. pose proof (B_pow_pos (expo it)). lia.
      - destruct (s_active st) as [|it rest] eqn:EA.
        + exists made, E, st. split; [cbn; now rewrite EA|]. split; [exact I|]. split; [exact A|]. split; [assumption|apply incl_refl].
        + cbn [MpathModel.search_loop]. rewrite EA.
          pose proof I as I0. destruct I0 as (I1 & I2 & I3 & I4 & I5 & I6 & I7).
          destruct (I5 it) as [Hin Hs]; [rewrite EA; now left|]. destruct Hs as (p & Gp & Np & Mp).
          pose proof (goes_lt _ _ _ Gp Hroot) as Lt. destruct (nth_error_lt_some _ _ Lt) as [m Em]. rewrite Em.
          set (st0 := mkS (s_results st) rest (s_explored st) (s_count st)).
          assert (Inv0 : Inv made E st0).
          { unfold st0. split; [exact I1|]. cbn. split; [assumption|]. split; [assumption|]. split; [assumption|]. split; [|auto].
            intros it' H. apply I5. rewrite EA. now right. }
          destruct (visits_ok it m Em (ex_intro _ p (conj Gp (conj Np Mp))) (named_children m) made E st0) as (made' & E' & new & L1 & L2 & L3 & L4 & L5 & L6 & L7 & L8).
          { intros [n c] H. now apply (child_iff (r_mod (snd it)) m n c Em). }
          { now apply I4 in Hin. }
          { exact Inv0. }
          destruct (IH (fold_left (visit_child it) (named_children m) st0) made' E' L1) as (made2 & E2 & st2 & R1 & R2 & R3 & R4 & R5).
          * intros e He. destruct (L6 e He) as [H|(it' & H1 & H2)].
            -- destruct (A e H) as [(it' & H1 & H2)|D].
               ++ rewrite EA in H1. destruct H1 as [<-|H1].
                  ** right. subst e. intros m0 n c Em0 Hc. cbn [fst snd] in *. assert (m0 = m) by congruence. subst m0.
                     apply L5. now apply (child_iff (r_mod (snd it)) m n c Em).
                  ** left. exists it'. split; [|assumption]. rewrite L2. apply in_app_iff. now right.
               ++ right. intros m0 n c Em0 Hc. apply covered_mono with E (s_results st); [now apply (D m0)|assumption|exact L3].
            -- left. exists it'. split; [|assumption]. rewrite L2. apply in_app_iff. now left.
          * rewrite L2, pot_app. change (s_active st0) with rest. change (pot (it :: rest)) with (B ^ expo it + pot rest) in P.
            assert (pot new < B ^ expo it); [|lia]. apply pot_new.
            -- intros it' H. destruct (L7 it' H) as ([n c] & Hx & Hb). unfold expo. apply (child_iff (r_mod (snd it)) m n c Em) in Hx.
               pose proof (Hrank _ _ _ _ Em Hx) as Rk. cbn [snd] in Hb. destruct Hb as [[-> L]|[-> L]]; cbn [snd]; lia.
            -- assert (length (named_children m) <= kids_bound).
               { unfold kids_bound. apply list_max_ge'. apply in_map_iff. exists m. split; [reflexivity|]. now apply nth_error_In with (r_mod (snd it)). }
               unfold B. nia.
          * exists made2, E2, st2. split; [exact R1|]. split; [exact R2|]. split; [exact R3|]. split; [exact R4|]. intros e He. auto.
    Qed.

    Lemma reach E st : all_done E st -> s_active st = [] -> forall kp p, length p < kp -> forall k s m, w s < k -> In (s, m) E ->
      forall x z, goes h m (x :: p) z -> matched s (x :: p) -> In z (map r_mod (s_results st)).
    Proof.
      intros A EA. induction kp; [lia|]. intros p Hp. induction k; [lia|]. intros s m Hk He x z Gz M.
      destruct (A _ He) as [(it & H & _)|D]; [rewrite EA in H; easy|].
      inversion Gz as [|? m0 n c p0 ? Em Hc Gc]; subst. specialize (D m0 n c Em Hc p M). cbn [fst snd] in D.
      destruct D as [[-> H]|[[NE (s' & H1 & H2)]|(s' & H1 & H2 & H3)]].
      - inversion Gc; subst. assumption.
      - destruct p as [|y p]; [easy|]. cbn [length] in Hp. apply (IHkp p ltac:(lia) (S (w s')) s' c ltac:(lia) H1 y z Gc H2).
      - apply (IHk s' m ltac:(lia) H1 (n, c) z Gz H3).
    Qed.

    Theorem search_answers : exists res N, (forall fuel, N <= fuel -> search fuel h root q = Ok res) /\ answers h root q res.
    Proof.
      destruct (simplify (fresh_from q) q) as [q' c'] eqn:ES.
      destruct (simplify_lang re_fullmatch is_instance predicate _ _ _ _ Hne Hwf ES) as (NE' & WF' & L').
      set (it0 := (q', mkR "" root root "" [])). set (st0 := mkS [] [it0] [(fragment_list q', root)] c').
      assert (I0 : exists made, Inv made [(q', root)] st0).
      { assert (S0 : forall made, made_ok made c' -> fresh_from q <= c' -> K made q' -> Inv made [(q', root)] st0).
        { intros made MO L Kq. split; [exact MO|]. cbn. split; [assumption|]. split; [reflexivity|].
          split; [intros e [<-|[]]; split; [assumption|auto]|]. split; [|split; [constructor|easy]].
          intros it [<-|[]]. split; [now left|]. exists []. cbn. split; [constructor|]. split; [reflexivity|]. intros p. apply L'. }
        apply simplify_class in ES. destruct ES as [[-> ->]|(r & -> & -> & R)].
        - exists []. apply S0; [|lia|left; constructor]. split; [constructor|easy].
        - exists [(fresh_from q, r)]. apply S0; [|lia|right; exists (fresh_from q), r; split; [now left|reflexivity]].
          split; [repeat constructor; easy|]. intros j r0 [E|[]]. injection E as <- <-. split; [lia|].
          destruct R as [R|R]; [now left|right; now apply A_rem]. }
      destruct I0 as [made I0].
      assert (A0 : all_done [(q', root)] st0).
      { intros e [<-|[]]. left. exists it0. split; [now left|reflexivity]. }
      assert (MONO : forall f f' st res, f <= f' -> search_loop f h st = Ok res -> search_loop f' h st = Ok res).
      { clear. induction f; intros f' st res L E.
        - cbn in E. destruct (s_active st) eqn:EA; [|discriminate]. destruct f'; cbn; rewrite EA; exact E.
        - destruct f'; [lia|]. cbn in E |- *. destruct (s_active st) as [|it rest]; [assumption|].
          destruct (nth_error h (r_mod (snd it))); [|discriminate]. apply IHf; [lia|assumption]. }
      destruct (loop_ok (pot (s_active st0)) st0 made _ I0 A0 (Nat.le_refl _)) as (made' & E' & st' & R1 & R2 & R3 & R4 & R5).
      exists (s_results st'), (pot (s_active st0)). split.
      { intros fuel Hf. unfold MpathModel.search. rewrite ES. fold it0. fold st0. now apply MONO with (pot (s_active st0)). }
      destruct R2 as (_ & _ & _ & _ & _ & ND & SR). split; [assumption|]. split.
      - intros z. split.
        + intros Hz. apply in_map_iff in Hz. destruct Hz as (r & <- & Hr). destruct (SR r Hr) as (p & last & G1 & M1 & _).
          destruct p as [|y p]; cbn in G1, M1; eauto.
        + intros (x & p & G1 & M1). apply (reach E' st' R3 R4 (S (length p)) p ltac:(lia) (S (w q')) q' root ltac:(lia)) with x; [|assumption|now apply L'].
          apply R5. now left.
      - exact SR.
    Qed.
  End Search.

  (** ** Both kinds of queries *)
  Lemma search_straight h root q rank : named h -> heap_ok h -> ranked h rank -> root < length h ->
    q <> [] -> straight q -> consistent q -> all_frags sane q ->
    exists res N, (forall fuel, N <= fuel -> search fuel h root q = Ok res) /\ answers h root q res.
  Proof.
    intros H1 H2 H3 H4 NE St C A. apply search_answers with rank; auto.
    - split; [now apply straight_ok|assumption].
    - intros t t'. now apply straight_inj.
  Qed.
  Lemma objects_ids q : objects q = ids q.
  Proof.
    unfold objects, ids. rewrite flat_map_concat_map. f_equal. apply map_ext. intros n.
    assert (G : forall k n, size_node n < k -> objects_node n = ids_node n); [|apply (G _ n (Nat.lt_succ_diag_r _))].
    clear. induction k; [lia|]. intros [i f|alts] Hk; [reflexivity|]. cbn. rewrite flat_map_concat_map. f_equal.
    apply map_ext_in. intros a Ha. rewrite flat_map_concat_map. f_equal. apply map_ext_in. intros b Hb. apply IHk.
    change (size_node (NMulti alts)) with (S (list_sum (map size alts))) in Hk.
    pose proof (list_sum_in _ _ (in_map size _ _ Ha)). pose proof (list_sum_in _ _ (in_map size_node _ _ Hb)). unfold size in *. lia.
  Qed.
  Lemma search_groups h root q rank : named h -> heap_ok h -> ranked h rank -> root < length h ->
    q <> [] -> groups_ok q -> NoDup (objects q) -> all_frags sane q ->
    exists res N, (forall fuel, N <= fuel -> search fuel h root q = Ok res) /\ answers h root q res.
  Proof.
    intros H1 H2 H3 H4 NE G U A. rewrite objects_ids in U. apply search_answers with rank; auto.
    - now split.
    - intros t t'. apply (inA_inj _ _ _ _ (Nat.lt_succ_diag_r _) NE G U).
  Qed.
End P.
