(** Proofs for C95 and C96. *)
From Verif Require Import Prelude ThrModel ThrSpec.
Local Open Scope nat_scope.
Local Open Scope list_scope.

Lemma src_eqb_eq : forall a b, src_eqb a b = true <-> a = b.
Proof.
  induction a as [|x a IH]; intros [|y b]; cbn; split; intros H; try discriminate; try reflexivity.
  - apply andb_true_iff in H. destruct H as [H1 H2]. apply Nat.eqb_eq in H1. apply IH in H2. congruence.
  - injection H as -> ->. rewrite Nat.eqb_refl. apply IH. reflexivity.
Qed.
Lemma trace_eqb_eq : forall a b, trace_eqb a b = true <-> a = b.
Proof.
  intros [s r] [s' r']. unfold trace_eqb. cbn. rewrite andb_true_iff, src_eqb_eq, Nat.eqb_eq. split; [intros [-> ->]; reflexivity | intros H; injection H as -> ->; auto].
Qed.
Lemma traces_eqb_eq : forall a b, traces_eqb a b = true <-> a = b.
Proof.
  induction a as [|x a IH]; intros [|y b]; cbn; split; intros H; try discriminate; try reflexivity.
  - apply andb_true_iff in H. destruct H as [H1 H2]. apply trace_eqb_eq in H1. apply IH in H2. congruence.
  - injection H as -> ->. rewrite (proj2 (trace_eqb_eq _ _) eq_refl). apply IH. reflexivity.
Qed.
Lemma seen_iff : forall a l, existsb (trace_eqb a) l = true <-> In a l.
Proof.
  intros a l. rewrite existsb_exists. split; [intros (b & I & E); apply trace_eqb_eq in E; subst; exact I | intros I; exists a; split; [exact I | apply trace_eqb_eq; reflexivity]].
Qed.
Lemma fromkeys_same : forall l seen, NoDup l -> (forall a, In a l -> ~ In a seen) -> fromkeys seen l = l.
Proof.
  induction l as [|a l IH]; cbn; intros seen N S; [reflexivity|]. inversion N as [|? ? Na Nl]; subst.
  destruct (existsb (trace_eqb a) seen) eqn:E; [apply seen_iff in E; exfalso; apply (S a); auto|]. f_equal. apply IH; [exact Nl|].
  intros b I [<-|J]; [contradiction | apply (S b); auto].
Qed.
Lemma fromkeys_in : forall l seen a, In a (fromkeys seen l) -> In a l /\ ~ In a seen.
Proof.
  induction l as [|b l IH]; cbn; intros seen a I; [contradiction|]. destruct (existsb (trace_eqb b) seen) eqn:E.
  - apply IH in I. tauto.
  - destruct I as [<-|I]; [split; [auto|]; intros J; apply seen_iff in J; congruence|]. apply IH in I. cbn in I. tauto.
Qed.
Lemma fromkeys_nodup : forall l seen, NoDup (fromkeys seen l).
Proof.
  induction l as [|b l IH]; cbn; intros seen; [constructor|]. destruct (existsb (trace_eqb b) seen); [apply IH|]. constructor; [|apply IH]. intros I. apply fromkeys_in in I. cbn in I. tauto.
Qed.
Lemma set_nth_length : forall {A} n (a : A) l, length (set_nth n a l) = length l.
Proof. induction n as [|n IH]; intros a [|b l]; cbn; congruence. Qed.
Lemma nth_set_same : forall {A} n (a : A) l d, n < length l -> nth n (set_nth n a l) d = a.
Proof. induction n as [|n IH]; intros a [|b l] d L; cbn in *; try lia; [reflexivity|]. apply IH. lia. Qed.
Lemma nth_set_other : forall {A} n m (a : A) l d, n <> m -> nth m (set_nth n a l) d = nth m l d.
Proof. induction n as [|n IH]; intros [|m] a [|b l] d N; cbn; try reflexivity; try congruence. apply IH. congruence. Qed.

Lemma followed_iff : forall p g, followed p g = true <-> helper p g.
Proof.
  intros p g. unfold followed, helper. destruct (nth_error p g) as [d|]; split.
  - intros H. apply negb_true_iff in H. eauto.
  - intros (d' & E & F). injection E as <-. rewrite F. reflexivity.
  - discriminate.
  - intros (d & E & _). discriminate.
Qed.
Lemma fn_at_some : forall p f d, nth_error p f = Some d -> fn_at p f = d.
Proof. intros p f d E. unfold fn_at. apply nth_error_nth. exact E. Qed.
Lemma callees_none : forall p f, nth_error p f = None -> callees p (fn_at p f) = [].
Proof. intros p f E. apply nth_error_None in E. unfold fn_at. rewrite nth_overflow by exact E. reflexivity. Qed.
Lemma callees_calls : forall p f g, In g (callees p (fn_at p f)) <-> calls p f g.
Proof.
  intros p f g. unfold calls. destruct (nth_error p f) as [d|] eqn:E.
  - rewrite (fn_at_some _ _ _ E). unfold callees. rewrite filter_In, followed_iff. split; [intros []; eauto | intros (d' & X & I & H); injection X as <-; auto].
  - rewrite callees_none by exact E. split; [contradiction | intros (d & X & _); discriminate].
Qed.
Lemma nodup_of_nth : forall {A} (l : list A), (forall i j x, nth_error l i = Some x -> nth_error l j = Some x -> i = j) -> NoDup l.
Proof.
  intros A l. induction l as [|a l IH]; intros H; constructor.
  - intros I. apply In_nth_error in I. destruct I as [n E]. specialize (H 0 (S n) a eq_refl E). discriminate.
  - apply IH. intros i j x Ei Ej. specialize (H (S i) (S j) x Ei Ej). congruence.
Qed.
Lemma nodup_filter_once : forall {A} (f : A -> bool) l, (forall i j x, nth_error l i = Some x -> nth_error l j = Some x -> f x = true -> i = j) -> NoDup (filter f l).
Proof.
  intros A f l. induction l as [|a l IH]; intros H; cbn; [constructor|].
  assert (IH' : NoDup (filter f l)) by (apply IH; intros i j x Ei Ej F; specialize (H (S i) (S j) x Ei Ej F); congruence).
  destruct (f a) eqn:F; [|exact IH']. constructor; [|exact IH']. intros I. apply filter_In in I. destruct I as [I _]. apply In_nth_error in I. destruct I as [n E].
  specialize (H 0 (S n) a eq_refl E F). discriminate.
Qed.
Lemma calls_once_nodup : forall p g, calls_once p g -> NoDup (callees p (fn_at p g)).
Proof.
  intros p g H. destruct (nth_error p g) as [d|] eqn:E; [|rewrite callees_none by exact E; constructor].
  rewrite (fn_at_some _ _ _ E). apply nodup_filter_once. intros i j x Ei Ej F. apply followed_iff in F. apply (H d i j x E Ei Ej F).
Qed.

(** *** Where the loop ends, the equations hold *)
Definition shaped (p : list fn) (st : state) : Prop := length st = length p /\ forall f, length (args_at st f) = length (callees p (fn_at p f)).
Definition solved (p : list fn) (st : state) : Prop :=
  forall f i g, nth_error (callees p (fn_at p f)) i = Some g -> nth i (args_at st f) [] = arguments p st f g.
Lemma start_shaped : forall p, shaped p (start p).
Proof.
  intros p. split; [apply map_length|]. intros f. unfold args_at, start, fn_at.
  destruct (Nat.lt_ge_cases f (length p)) as [L|L].
  - rewrite (nth_indep _ [] (map (fun _ => []) (callees p (mkFn true [] [])))) by (rewrite map_length; exact L).
    rewrite (map_nth (fun d => map (fun _ : nat => ([] : list trace)) (callees p d))). apply map_length.
  - rewrite !nth_overflow by (try rewrite map_length; exact L). reflexivity.
Qed.
Lemma args_set : forall st f l f', f < length st -> args_at (set_nth f l st) f' = if f =? f' then l else args_at st f'.
Proof.
  intros st f l f' L. unfold args_at. destruct (f =? f') eqn:E.
  - apply Nat.eqb_eq in E. subst. apply nth_set_same. exact L.
  - apply Nat.eqb_neq in E. apply nth_set_other. exact E.
Qed.
Lemma visit_call_shaped : forall p f i g st, shaped p st -> f < length p -> shaped p (fst (visit_call p f i g st)).
Proof.
  intros p f i g st [S1 S2] L. unfold visit_call. destruct (traces_eqb _ _); [split; assumption|]. cbn. split; [rewrite set_nth_length; exact S1|].
  intros f'. rewrite args_set by (rewrite S1; exact L). destruct (f =? f') eqn:E; [|apply S2]. rewrite set_nth_length. apply Nat.eqb_eq in E. subst. apply S2.
Qed.
Lemma visit_calls_shaped : forall p f gs i st, shaped p st -> f < length p -> shaped p (fst (visit_calls p f i gs st)).
Proof.
  induction gs as [|g gs IH]; cbn; intros i st S L; [exact S|]. pose proof (visit_call_shaped p f i g st S L) as S'. destruct (visit_call p f i g st) as [st' c]. cbn in S'.
  specialize (IH (Datatypes.S i) st' S' L). destruct (visit_calls p f (Datatypes.S i) gs st') as [st2 c']. exact IH.
Qed.
Lemma visit_all_shaped : forall p fs st, shaped p st -> (forall f, In f fs -> f < length p) -> shaped p (fst (visit_all p fs st)).
Proof.
  induction fs as [|f fs IH]; cbn; intros st S L; [exact S|].
  pose proof (visit_calls_shaped p f (callees p (fn_at p f)) 0 st S (L f (or_introl eq_refl))) as S'. destruct (visit_calls p f 0 (callees p (fn_at p f)) st) as [st' c]. cbn in S'.
  specialize (IH st' S' (fun f' I => L f' (or_intror I))). destruct (visit_all p fs st') as [st2 c']. exact IH.
Qed.
Lemma round_shaped : forall p st, shaped p st -> shaped p (fst (round p st)).
Proof. intros p st S. apply visit_all_shaped; [exact S|]. intros f I. apply in_seq in I. lia. Qed.

Lemma visit_call_false : forall p f i g st st', visit_call p f i g st = (st', false) -> st' = st /\ nth i (args_at st f) [] = arguments p st f g.
Proof.
  intros p f i g st st' H. unfold visit_call in H. destruct (traces_eqb _ _) eqn:E; [|discriminate]. injection H as <-. split; [reflexivity|]. apply traces_eqb_eq in E. congruence.
Qed.
Lemma visit_calls_false : forall p f gs i st st', visit_calls p f i gs st = (st', false) ->
  st' = st /\ forall k g, nth_error gs k = Some g -> nth (i + k) (args_at st f) [] = arguments p st f g.
Proof.
  induction gs as [|g gs IH]; cbn; intros i st st' H.
  - injection H as <-. split; [reflexivity|]. intros [|k] g E; discriminate.
  - destruct (visit_call p f i g st) as [st1 c] eqn:V. destruct (visit_calls p f (S i) gs st1) as [st2 c'] eqn:W. injection H as -> C. apply orb_false_iff in C. destruct C as [-> ->].
    apply visit_call_false in V. destruct V as [-> V]. apply IH in W. destruct W as [-> W]. split; [reflexivity|]. intros [|k] g' E.
    + injection E as <-. rewrite Nat.add_0_r. exact V.
    + replace (i + S k) with (S i + k) by lia. apply W. exact E.
Qed.
Lemma visit_all_false : forall p fs st st', visit_all p fs st = (st', false) ->
  st' = st /\ forall f i g, In f fs -> nth_error (callees p (fn_at p f)) i = Some g -> nth i (args_at st f) [] = arguments p st f g.
Proof.
  induction fs as [|f fs IH]; cbn; intros st st' H.
  - injection H as <-. split; [reflexivity | contradiction].
  - destruct (visit_calls p f 0 (callees p (fn_at p f)) st) as [st1 c] eqn:V. destruct (visit_all p fs st1) as [st2 c'] eqn:W. injection H as -> C. apply orb_false_iff in C. destruct C as [-> ->].
    apply visit_calls_false in V. destruct V as [-> V]. apply IH in W. destruct W as [-> W]. split; [reflexivity|]. intros f' i g [<-|I] E; [exact (V i g E) | exact (W f' i g I E)].
Qed.
Lemma propagate_solved : forall fuel p st st', shaped p st -> propagate fuel p st = Some st' -> shaped p st' /\ solved p st'.
Proof.
  induction fuel as [|n IH]; intros p st st' S H; [discriminate|]. cbn in H. pose proof (round_shaped p st S) as S'. destruct (round p st) as [st1 c] eqn:R. cbn in S'. destruct c.
  - apply (IH p st1 st' S' H).
  - injection H as <-. split; [exact S'|]. apply visit_all_false in R. destruct R as [-> R]. intros f i g E. apply (R f i g); [|exact E]. apply in_seq.
    destruct (nth_error p f) eqn:P; [assert (f < length p) by (apply nth_error_Some; congruence); lia|]. rewrite callees_none in E by exact P. destruct i; discriminate.
Qed.

(** *** No calls in circles: the loop ends *)
Section Acyclic.
  Variables (p : list fn) (rank : nat -> nat).
  Hypothesis Hrank : forall f g, calls p f g -> rank g < rank f.

  Lemma rank_callee : forall f i g, nth_error (callees p (fn_at p f)) i = Some g -> rank g < rank f.
  Proof. intros f i g E. apply Hrank. apply callees_calls. eapply nth_error_In. exact E. Qed.

  Fixpoint sol (n f : nat) : list (list trace) :=
    match n with
    | 0 => []
    | S n' => map (fun g => flat_map (fun l => map (extend f) (fromkeys [] l)) (local_traces p g :: map (filter long) (sol n' g))) (callees p (fn_at p f))
    end.
  Lemma sol_stable : forall n m f, rank f < n -> rank f < m -> sol n f = sol m f.
  Proof.
    induction n as [|n IH]; intros [|m] f Ln Lm; try lia. cbn [sol]. apply map_ext_in. intros g I. apply callees_calls in I. apply Hrank in I.
    rewrite (IH m g) by lia. reflexivity.
  Qed.
  Definition agrees (st : state) (f : nat) : Prop := args_at st f = sol (S (rank f)) f.
  Lemma arguments_agree : forall st f g, agrees st g -> rank g < rank f -> nth_error (sol (S (rank f)) f) 0 = nth_error (sol (S (rank f)) f) 0 /\
    arguments p st f g = flat_map (fun l => map (extend f) (fromkeys [] l)) (local_traces p g :: map (filter long) (sol (rank f) g)).
  Proof. intros st f g A L. split; [reflexivity|]. unfold arguments, groups. rewrite A. rewrite (sol_stable (S (rank g)) (rank f) g) by lia. reflexivity. Qed.

  Lemma visit_call_other : forall f i g st f', shaped p st -> f < length p -> f' <> f -> args_at (fst (visit_call p f i g st)) f' = args_at st f'.
  Proof.
    intros f i g st f' [S _] L N. unfold visit_call. destruct (traces_eqb _ _); [reflexivity|]. cbn [fst]. rewrite args_set by (rewrite S; exact L).
    destruct (f =? f') eqn:E; [apply Nat.eqb_eq in E; congruence | reflexivity].
  Qed.
  Lemma visit_call_args : forall f i g st, shaped p st -> f < length p -> args_at (fst (visit_call p f i g st)) f = set_nth i (arguments p st f g) (args_at st f).
  Proof.
    intros f i g st [S _] L. unfold visit_call. destruct (traces_eqb _ _) eqn:E.
    - cbn [fst]. apply traces_eqb_eq in E. rewrite E. clear. generalize (args_at st f) as l. induction i as [|i IH]; intros [|a l]; cbn; try reflexivity. f_equal. apply IH.
    - cbn [fst]. rewrite args_set by (rewrite S; exact L). rewrite Nat.eqb_refl. reflexivity.
  Qed.
  Lemma visit_calls_other : forall f gs i st f', shaped p st -> f < length p -> f' <> f -> args_at (fst (visit_calls p f i gs st)) f' = args_at st f'.
  Proof.
    induction gs as [|g gs IH]; cbn; intros i st f' S L N; [reflexivity|]. pose proof (visit_call_shaped p f i g st S L) as S'. pose proof (visit_call_other f i g st f' S L N) as O.
    destruct (visit_call p f i g st) as [st1 c]. cbn [fst] in S', O. specialize (IH (Datatypes.S i) st1 f' S' L N). destruct (visit_calls p f (Datatypes.S i) gs st1) as [st2 c']. cbn [fst] in *. congruence.
  Qed.
  Lemma firstn_set : forall {A} i (a : A) l, i < length l -> firstn (S i) (set_nth i a l) = firstn i l ++ [a].
  Proof. induction i as [|i IH]; intros a [|b l] L; cbn in *; try lia; [reflexivity|]. f_equal. apply IH. lia. Qed.
  Lemma visit_calls_args : forall f gs i st, shaped p st -> f < length p -> (forall g, In g gs -> g <> f) -> i + length gs = length (args_at st f) ->
    args_at (fst (visit_calls p f i gs st)) f = firstn i (args_at st f) ++ map (arguments p st f) gs.
  Proof.
    induction gs as [|g gs IH]; cbn [visit_calls length map]; intros i st S L N E.
    - cbn. rewrite firstn_all2 by lia. rewrite app_nil_r. reflexivity.
    - pose proof (visit_call_shaped p f i g st S L) as S'. pose proof (visit_call_args f i g st S L) as A. pose proof (fun f' => visit_call_other f i g st f' S L) as O.
      destruct (visit_call p f i g st) as [st1 c]. cbn [fst] in S', A, O.
      specialize (IH (Datatypes.S i) st1 S' L (fun g' I => N g' (or_intror I))). rewrite A, set_nth_length in IH. specialize (IH ltac:(lia)).
      destruct (visit_calls p f (Datatypes.S i) gs st1) as [st2 c']. cbn [fst] in *. rewrite IH. rewrite firstn_set by lia. rewrite <- app_assoc. cbn [app]. f_equal. f_equal.
      apply map_ext_in. intros g' I. unfold arguments, groups. rewrite O by (apply N; right; exact I). reflexivity.
  Qed.
  Lemma visit_function : forall f st, shaped p st -> f < length p -> (forall g, rank g < rank f -> agrees st g) -> agrees (fst (visit_calls p f 0 (callees p (fn_at p f)) st)) f.
  Proof.
    intros f st S L H. unfold agrees. rewrite visit_calls_args; [| exact S | exact L | | cbn; symmetry; apply (proj2 S)].
    - cbn [firstn app sol]. apply map_ext_in. intros g I. apply callees_calls, Hrank in I. apply arguments_agree; [apply H|]; exact I.
    - intros g I E. subst. apply callees_calls, Hrank in I. lia.
  Qed.
  Lemma visit_all_agrees : forall fs st k, shaped p st -> (forall f, In f fs -> f < length p) -> (forall g, rank g < k -> agrees st g) ->
    (forall g, rank g < k -> agrees (fst (visit_all p fs st)) g) /\ forall f, rank f = k -> (In f fs \/ agrees st f) -> agrees (fst (visit_all p fs st)) f.
  Proof.
    induction fs as [|f fs IH]; cbn [visit_all]; intros st k S L H.
    - split; [exact H|]. intros f E [[]|A]. exact A.
    - pose proof (visit_calls_shaped p f (callees p (fn_at p f)) 0 st S (L f (or_introl eq_refl))) as S'.
      pose proof (fun f' => visit_calls_other f (callees p (fn_at p f)) 0 st f' S (L f (or_introl eq_refl))) as O.
      pose proof (visit_function f st S (L f (or_introl eq_refl))) as V.
      destruct (visit_calls p f 0 (callees p (fn_at p f)) st) as [st1 c]. cbn [fst] in S', O, V.
      assert (K : forall g, agrees st g -> (g = f -> agrees st1 f) -> agrees st1 g).
      { intros g A G. destruct (Nat.eq_dec g f) as [->|N]; [apply G; reflexivity|]. unfold agrees. rewrite O by exact N. exact A. }
      assert (Vf : rank f <= k -> agrees st1 f) by (intros Lf; apply V; intros g Lg; apply H; lia).
      assert (H1 : forall g, rank g < k -> agrees st1 g) by (intros g Lg; apply K; [apply H; exact Lg | intros ->; apply Vf; lia]).
      destruct (IH st1 k S' (fun f' I => L f' (or_intror I)) H1) as [I1 I2]. destruct (visit_all p fs st1) as [st2 c']. cbn [fst] in *. split; [exact I1|].
      intros g Eg [[<-|I]|A]; apply I2; [exact Eg | right; apply Vf; lia | exact Eg | left; exact I | exact Eg | right; apply K; [exact A | intros ->; apply Vf; lia]].
  Qed.
  Lemma round_agrees : forall st k, shaped p st -> (forall g, rank g < k -> agrees st g) -> forall g, rank g < S k -> g < length p -> agrees (fst (round p st)) g.
  Proof.
    intros st k S H g L Lp. destruct (visit_all_agrees (seq 0 (length p)) st k S) as [A B]; [intros f I; apply in_seq in I; lia | exact H|].
    destruct (Nat.eq_dec (rank g) k) as [E|N]; [apply B; [exact E | left; apply in_seq; lia] | apply A; lia].
  Qed.
  Lemma agrees_out : forall st g, shaped p st -> length p <= g -> agrees st g.
  Proof.
    intros st g [S1 S2] L. unfold agrees. assert (E : callees p (fn_at p g) = []) by (apply callees_none, nth_error_None; exact L). cbn [sol]. rewrite E.
    specialize (S2 g). rewrite E in S2. destruct (args_at st g); [reflexivity | discriminate].
  Qed.
  Lemma agrees_call : forall st f i g, (forall f, agrees st f) -> nth_error (callees p (fn_at p f)) i = Some g -> nth i (args_at st f) [] = arguments p st f g.
  Proof.
    intros st f i g A E. rewrite (A f). cbn [sol]. set (F := fun g0 => _). rewrite (nth_error_nth (map F (callees p (fn_at p f))) i (x := F g)) by (apply map_nth_error; exact E).
    unfold F. symmetry. apply arguments_agree; [apply A | apply (rank_callee f i); exact E].
  Qed.
  Lemma visit_calls_still : forall f gs i st, (forall k g, nth_error gs k = Some g -> nth (i + k) (args_at st f) [] = arguments p st f g) -> visit_calls p f i gs st = (st, false).
  Proof.
    induction gs as [|g gs IH]; cbn [visit_calls]; intros i st H; [reflexivity|].
    assert (V : visit_call p f i g st = (st, false)). { unfold visit_call. rewrite (proj2 (traces_eqb_eq _ _)); [reflexivity|]. symmetry. rewrite <- (Nat.add_0_r i). apply H. reflexivity. }
    rewrite V, IH; [reflexivity|]. intros k g' E. replace (S i + k) with (i + S k) by lia. apply H. exact E.
  Qed.
  Lemma visit_all_still : forall fs st, (forall f, agrees st f) -> visit_all p fs st = (st, false).
  Proof.
    induction fs as [|f fs IH]; cbn [visit_all]; intros st A; [reflexivity|]. rewrite visit_calls_still; [rewrite IH by exact A; reflexivity|].
    intros k g E. cbn. apply agrees_call; assumption.
  Qed.
  Lemma propagate_ends : forall n st k, shaped p st -> (forall g, rank g < k -> agrees st g) -> (forall f, f < length p -> rank f < k + n) -> exists st', propagate (S n) p st = Some st'.
  Proof.
    induction n as [|n IH]; intros st k S H B.
    - assert (A : forall f, agrees st f). { intros f. destruct (Nat.lt_ge_cases f (length p)) as [L|L]; [apply H; specialize (B f L); lia | apply agrees_out; assumption]. }
      cbn. unfold round. rewrite visit_all_still by exact A. eexists. reflexivity.
    - change (propagate (Datatypes.S (Datatypes.S n)) p st) with (let '(st', changed) := round p st in if changed then propagate (Datatypes.S n) p st' else Some st').
      pose proof (round_shaped p st S) as S'. pose proof (round_agrees st k S H) as R. destruct (round p st) as [st1 c]. cbn [fst] in *. destruct c; [|eexists; reflexivity].
      apply (IH st1 (Datatypes.S k) S').
      + intros g L. destruct (Nat.lt_ge_cases g (length p)) as [Lp|Lp]; [apply R; assumption | apply agrees_out; assumption].
      + intros f L. specialize (B f L). lia.
  Qed.
  Lemma bounded : forall n, exists k, forall f, f < n -> rank f < k.
  Proof. induction n as [|n [k IH]]; [exists 0; intros; lia|]. exists (S (Nat.max k (rank n))). intros f L. destruct (Nat.eq_dec f n) as [->|]; [lia|]. specialize (IH f ltac:(lia)). lia. Qed.
  Lemma propagation_ends : exists fuel st, propagate fuel p (start p) = Some st.
  Proof.
    destruct (bounded (length p)) as [k B]. exists (S k). apply (propagate_ends k (start p) 0); [apply start_shaped | intros; lia | exact B].
  Qed.

  (** *** Traces are paths *)
  Variable st : state.
  Hypotheses (Hshaped : shaped p st) (Hsolved : solved p st).
  Lemma upper : forall f src, (forall x, In x src -> rank x < rank f) -> existsb (Nat.eqb f) src = false.
  Proof.
    intros f src H. destruct (existsb (Nat.eqb f) src) eqn:E; [|reflexivity]. apply existsb_exists in E. destruct E as (x & I & E). apply Nat.eqb_eq in E. subst. specialize (H x I). lia.
  Qed.
  Lemma arguments_in : forall f g a, In a (arguments p st f g) <->
    exists l b, In l (groups p st g) /\ In b (fromkeys [] l) /\ a = extend f b.
  Proof.
    intros f g a. unfold arguments. rewrite in_flat_map. split.
    - intros (l & Il & I). apply in_map_iff in I. destruct I as (b & <- & Ib). eauto.
    - intros (l & b & Il & Ib & ->). exists l. split; [exact Il | apply in_map; exact Ib].
  Qed.
  Lemma args_callee : forall g l, In l (args_at st g) -> exists i h, nth_error (callees p (fn_at p g)) i = Some h /\ l = arguments p st g h /\ nth i (args_at st g) [] = l.
  Proof.
    intros g l I. apply (In_nth _ _ []) in I. destruct I as (i & L & E). rewrite (proj2 Hshaped g) in L. destruct (nth_error (callees p (fn_at p g)) i) as [h|] eqn:C; [|apply nth_error_None in C; lia].
    exists i, h. split; [exact C|]. split; [rewrite <- E; apply Hsolved; exact C | exact E].
  Qed.
  Lemma traces_paths : forall n f g a, rank f < n -> rank g < rank f -> In a (arguments p st f g) ->
    (exists s, t_src a = s ++ [g; f]) /\ (forall x, In x (t_src a) -> rank x <= rank f).
  Proof.
    induction n as [|n IH]; intros f g a Ln L I; [lia|]. apply arguments_in in I. destruct I as (l & b & Il & Ib & ->). apply fromkeys_in in Ib. destruct Ib as [Ib _].
    assert (B : (exists s, t_src b = s ++ [g]) /\ forall x, In x (t_src b) -> rank x <= rank g).
    { destruct Il as [<-|Il].
      - apply in_map_iff in Ib. destruct Ib as (r & <- & _). cbn. split; [exists []; reflexivity | intros x [<-|[]]; lia].
      - apply in_map_iff in Il. destruct Il as (l' & <- & Il). apply filter_In in Ib. destruct Ib as [Ib _]. apply args_callee in Il. destruct Il as (i & h & C & -> & _).
        destruct (IH g h b ltac:(lia) (rank_callee g i h C) Ib) as [[s E] R]. split; [exists (s ++ [h]); rewrite E, <- app_assoc; reflexivity | exact R]. }
    destruct B as [[s E] R]. unfold extend. rewrite upper by (intros x Ix; specialize (R x Ix); lia). cbn. split.
    - exists s. rewrite E, <- app_assoc. reflexivity.
    - intros x Ix. apply in_app_or in Ix. destruct Ix as [Ix|[<-|[]]]; [specialize (R x Ix); lia | lia].
  Qed.
  Lemma group_low : forall g l b, In l (groups p st g) -> In b l -> (exists s, t_src b = s ++ [g]) /\ forall x, In x (t_src b) -> rank x <= rank g.
  Proof.
    intros g l b Il Ib. destruct Il as [<-|Il].
    - apply in_map_iff in Ib. destruct Ib as (r & <- & _). cbn. split; [exists []; reflexivity | intros x [<-|[]]; lia].
    - apply in_map_iff in Il. destruct Il as (l' & <- & Il). apply filter_In in Ib. destruct Ib as [Ib _]. apply args_callee in Il. destruct Il as (i & h & C & -> & _).
      destruct (traces_paths (S (rank g)) g h b ltac:(lia) (rank_callee g i h C) Ib) as [[s E] R]. split; [exists (s ++ [h]); rewrite E, <- app_assoc; reflexivity | exact R].
  Qed.
  Lemma extend_low : forall f g l b, rank g < rank f -> In l (groups p st g) -> In b l -> extend f b = mkTrace (t_src b ++ [f]) (t_ref b).
  Proof. intros f g l b L Il Ib. destruct (group_low g l b Il Ib) as [_ R]. unfold extend. rewrite upper; [reflexivity|]. intros x Ix. specialize (R x Ix). lia. Qed.
  Lemma args_long : forall f g a, rank g < rank f -> In a (arguments p st f g) -> long a = true.
  Proof. intros f g a L I. destruct (traces_paths (S (rank f)) f g a ltac:(lia) L I) as [[s E] _]. unfold long. rewrite E, app_length. apply Nat.ltb_lt. cbn [length]. lia. Qed.

  (** *** No two equal traces *)
  Lemma nodup_map_in : forall {A B} (h : A -> B) l, NoDup l -> (forall x y, In x l -> In y l -> h x = h y -> x = y) -> NoDup (map h l).
  Proof.
    intros A B h l N. induction N as [|a l Na Nl IH]; cbn; intros H; constructor.
    - intros I. apply in_map_iff in I. destruct I as (b & E & I). apply H in E; auto. subst. contradiction.
    - apply IH. intros x y Ix Iy. apply H; auto.
  Qed.
  Lemma nodup_app : forall {A} (a b : list A), NoDup a -> NoDup b -> (forall x, In x a -> In x b -> False) -> NoDup (a ++ b).
  Proof.
    intros A a b N M D. induction N as [|x a Nx Na IH]; cbn; [exact M|]. constructor.
    - intros I. apply in_app_or in I. destruct I as [I|I]; [contradiction | apply (D x); auto; left; reflexivity].
    - apply IH. intros y I J. apply (D y); auto. right. exact I.
  Qed.
  Definition key (a : trace) : option nat := nth_error (rev (t_src a)) 2.
  Lemma nodup_keys : forall {A B K} (key : B -> K) (F : A -> list B) (k : A -> K) l,
    (forall a, In a l -> NoDup (F a)) -> (forall a b, In a l -> In b (F a) -> key b = k a) -> NoDup (map k l) -> NoDup (flat_map F l).
  Proof.
    intros A B K ky F k l H1 H2. induction l as [|a l IH]; cbn; intros N; [constructor|]. inversion N as [|? ? Na Nl]; subst. apply nodup_app.
    - apply H1. left. reflexivity.
    - apply IH; [intros; apply H1; right; assumption | intros a' b I; apply H2; right; exact I | exact Nl].
    - intros b I J. apply in_flat_map in J. destruct J as (a' & Ia & J). apply Na. rewrite <- (H2 a b (or_introl eq_refl) I), (H2 a' b (or_intror Ia) J). apply in_map. exact Ia.
  Qed.
  Lemma arguments_nodup : forall f g, rank g < rank f -> NoDup (callees p (fn_at p g)) -> NoDup (arguments p st f g).
  Proof.
    intros f g L N. unfold arguments, groups. cbn [flat_map].
    assert (Inj : forall l, In l (groups p st g) -> NoDup (map (extend f) (fromkeys [] l))).
    { intros l Il. apply nodup_map_in; [apply fromkeys_nodup|]. intros x y Ix Iy E. apply fromkeys_in in Ix, Iy. destruct Ix as [Ix _], Iy as [Iy _].
      rewrite (extend_low f g l x L Il Ix), (extend_low f g l y L Il Iy) in E. injection E as E1 E2. apply app_inj_tail in E1. destruct x, y. cbn in *. destruct E1. congruence. }
    apply nodup_app.
    - apply Inj. left. reflexivity.
    - rewrite flat_map_concat_map, map_map, <- flat_map_concat_map.
      assert (E : args_at st g = map (arguments p st g) (callees p (fn_at p g))).
      { apply nth_ext with (d := []) (d' := []); [rewrite map_length; apply (proj2 Hshaped)|]. intros i Li. rewrite (proj2 Hshaped g) in Li.
        destruct (nth_error (callees p (fn_at p g)) i) as [h|] eqn:C; [|apply nth_error_None in C; lia]. rewrite (Hsolved g i h C). symmetry. apply nth_error_nth. apply map_nth_error. exact C. }
      assert (Sub : forall h, In h (callees p (fn_at p g)) -> In (filter long (arguments p st g h)) (groups p st g)).
      { intros h I. right. rewrite E, map_map. apply in_map_iff. exists h. auto. }
      rewrite E, flat_map_concat_map, map_map, <- flat_map_concat_map.
      apply (nodup_keys key _ (fun h => Some h)).
      + intros h I. apply Inj, Sub, I.
      + intros h b I J. apply in_map_iff in J. destruct J as (a & <- & J). apply fromkeys_in in J. destruct J as [J _]. rewrite (extend_low f g _ a L (Sub h I) J). apply filter_In in J. destruct J as [J _].
        apply callees_calls, Hrank in I. destruct (traces_paths (S (rank g)) g h a ltac:(lia) I J) as [[s Es] _]. unfold key. cbn. rewrite Es, !rev_app_distr. reflexivity.
      + clear - N. apply nodup_map_in; [exact N | congruence].
    - intros a I J. apply in_map_iff in I. destruct I as (b & Eb & I). apply fromkeys_in in I. destruct I as [I _].
      rewrite (extend_low f g (local_traces p g) b L (or_introl eq_refl) I) in Eb. apply in_map_iff in I. destruct I as (r & <- & _). cbn in Eb.
      apply in_flat_map in J. destruct J as (l & Il & J). apply in_map_iff in J. destruct J as (c & Ec & J). apply fromkeys_in in J. destruct J as [J _].
      rewrite (extend_low f g l c L (or_intror Il) J) in Ec. apply in_map_iff in Il. destruct Il as (l' & <- & Il). apply filter_In in J. destruct J as [_ J]. unfold long in J. apply Nat.ltb_lt in J.
      subst a. injection Ec as Ec _. apply (f_equal (@length _)) in Ec. rewrite app_length in Ec. cbn in Ec. lia.
  Qed.
End Acyclic.

(** *** Signatures *)
#[local] Arguments long : simpl never.
Lemma mapped_snd : forall i l j x, In x (map snd (filter fst (mapped i j l))) -> exists k, x = For i k /\ j <= k.
Proof.
  induction l as [|a l IH]; cbn; intros j x I; [contradiction|]. destruct (long a); cbn in I.
  - destruct I as [<-|I]; [exists j; auto|]. apply IH in I. destruct I as (k & -> & L). exists k. split; [reflexivity | lia].
  - apply IH in I. destruct I as (k & -> & L). exists k. split; [reflexivity | lia].
Qed.
Lemma mapped_nodup : forall i l j, NoDup (map snd (filter fst (mapped i j l))).
Proof.
  induction l as [|a l IH]; cbn; intros j; [constructor|]. destruct (long a); cbn; [|apply IH]. constructor; [|apply IH]. intros I. apply mapped_snd in I. destruct I as (k & E & L). injection E as <-. lia.
Qed.
Lemma all_mapped_in : forall ls i x, In x (flat_map (fun l => map snd (filter fst l)) (all_mapped i ls)) -> exists k j, x = For k j /\ i <= k.
Proof.
  induction ls as [|l ls IH]; cbn; intros i x I; [contradiction|]. apply in_app_or in I. destruct I as [I|I].
  - apply mapped_snd in I. destruct I as (j & -> & _). exists i, j. auto.
  - apply IH in I. destruct I as (k & j & -> & L). exists k, j. split; [reflexivity | lia].
Qed.
Lemma all_mapped_nodup : forall ls i, NoDup (flat_map (fun l => map snd (filter fst l)) (all_mapped i ls)).
Proof.
  induction ls as [|l ls IH]; cbn; intros i; [constructor|]. apply nodup_app; [apply mapped_nodup | apply IH|].
  intros x I J. apply mapped_snd in I. destruct I as (j & -> & _). apply all_mapped_in in J. destruct J as (k & j' & E & L). injection E as <- _. lia.
Qed.
Lemma locals_nodup : forall p f, well_made p -> NoDup (locals (fn_at p f)).
Proof.
  intros p f W. unfold locals. destruct (f_method (fn_at p f)); [constructor|]. unfold fn_at. destruct (nth_in_or_default f p (mkFn true [] [])) as [I|E]; [apply W; exact I | rewrite E; constructor].
Qed.
Lemma signature_nodup : forall p st f, well_made p -> NoDup (signature p st f).
Proof.
  intros p st f W. unfold signature. apply nodup_app.
  - apply nodup_map_in; [apply locals_nodup; exact W | congruence].
  - apply all_mapped_nodup.
  - intros x I J. apply in_map_iff in I. destruct I as (r & <- & _). apply all_mapped_in in J. destruct J as (k & j & E & _). discriminate.
Qed.
Lemma mapped_length : forall i l j, length (map snd (filter fst (mapped i j l))) = length (filter long l).
Proof. induction l as [|a l IH]; cbn; intros j; [reflexivity|]. destruct (long a); cbn; rewrite IH; reflexivity. Qed.
Lemma signature_length : forall p st f, length (signature p st f) = list_sum (map (@length _) (groups p st f)).
Proof.
  intros p st f. unfold signature, groups. rewrite app_length, map_length. cbn [map list_sum]. unfold local_traces. rewrite map_length.
  change (list_sum (length (locals (fn_at p f)) :: map (@length _) (map (filter long) (args_at st f)))) with (length (locals (fn_at p f)) + list_sum (map (@length _) (map (filter long) (args_at st f)))).
  f_equal. generalize 0 as i. generalize (args_at st f) as ls. induction ls as [|l ls IH]; cbn; intros i; [reflexivity|]. rewrite app_length, mapped_length, IH. reflexivity.
Qed.
Lemma mapped_all_length : forall i l j, length (mapped i j l) = length l.
Proof. induction l as [|a l IH]; cbn; intros j; [reflexivity | rewrite IH; reflexivity]. Qed.
Lemma given_length : forall p st f i, length (given p st f i) = length (nth i (args_at st f) []).
Proof. intros p st f i. unfold given. destruct (f_method (fn_at p f)); rewrite map_length; [apply seq_length | apply mapped_all_length]. Qed.
Lemma arguments_length : forall p st f g, (forall l, In l (groups p st g) -> NoDup l) -> length (arguments p st f g) = list_sum (map (@length _) (groups p st g)).
Proof.
  intros p st f g H. unfold arguments. induction (groups p st g) as [|l ls IH]; [reflexivity|]. cbn [flat_map map]. rewrite app_length, map_length, fromkeys_same; [| apply H; left; reflexivity | auto].
  rewrite IH by (intros; apply H; right; assumption). reflexivity.
Qed.
Lemma mapped_nth : forall i l j k, (forall a, In a l -> long a = true) -> k < length l -> nth_error (mapped i j l) k = Some (true, For i (j + k)).
Proof.
  induction l as [|a l IH]; cbn; intros j k H L; [lia|]. rewrite (H a) by auto. destruct k as [|k]; [cbn; rewrite Nat.add_0_r; reflexivity|]. cbn. rewrite IH by (try lia; intros; apply H; auto). rewrite Nat.add_succ_r. reflexivity.
Qed.
Lemma mapped_in_sig : forall i l j k b x, nth_error (mapped i j l) k = Some (b, x) -> b = true -> In x (map snd (filter fst (mapped i j l))).
Proof. intros i l j k b x E ->. apply in_map_iff. exists (true, x). split; [reflexivity|]. apply filter_In. split; [eapply nth_error_In; exact E | reflexivity]. Qed.
Lemma all_mapped_nth : forall ls i k, k < length ls -> nth_error (all_mapped i ls) k = Some (mapped (i + k) 0 (nth k ls [])).
Proof. induction ls as [|l ls IH]; cbn; intros i k L; [lia|]. destruct k; cbn; [rewrite Nat.add_0_r; reflexivity|]. rewrite IH by lia. rewrite Nat.add_succ_r. reflexivity. Qed.
Lemma for_in_sig : forall p st f i k, i < length (args_at st f) -> (forall a, In a (nth i (args_at st f) []) -> long a = true) -> k < length (nth i (args_at st f) []) -> In (For i k) (signature p st f).
Proof.
  intros p st f i k L H Lk. unfold signature. apply in_or_app. right. apply in_flat_map. exists (mapped i 0 (nth i (args_at st f) [])). split.
  - eapply nth_error_In. rewrite (all_mapped_nth _ 0 i L). reflexivity.
  - apply (mapped_in_sig i _ 0 k true); [|reflexivity]. rewrite mapped_nth by assumption. reflexivity.
Qed.

(** *** Every call gives every parameter *)
Lemma map_fst_combine : forall {A B} (a : list A) (b : list B), length a = length b -> map fst (combine a b) = a.
Proof. induction a as [|x a IH]; intros [|y b] L; cbn in *; try lia; [reflexivity|]. f_equal. apply IH. lia. Qed.
Definition complete (p : list fn) (st : state) : Prop := forall f i g, nth_error (callees p (fn_at p f)) i = Some g -> length (given p st f i) = length (signature p st g).

Lemma groups_nodup_complete : forall p st, solved p st -> (forall f i g, nth_error (callees p (fn_at p f)) i = Some g -> forall l, In l (groups p st g) -> NoDup l) -> complete p st.
Proof.
  intros p st S H f i g E. rewrite given_length, (S f i g E), signature_length. apply arguments_length. apply (H f i g E).
Qed.
Lemma acyclic_complete : forall p st rank, (forall f g, calls p f g -> rank g < rank f) -> well_made p -> shaped p st -> solved p st ->
  (forall f g, called p f -> calls p f g -> calls_once p g) -> complete p st.
Proof.
  intros p st rank R W Sh So O. apply groups_nodup_complete; [exact So|]. intros f i g E l [<-|I].
  - unfold local_traces. apply nodup_map_in; [apply locals_nodup; exact W | congruence].
  - apply in_map_iff in I. destruct I as (l' & <- & I). destruct (args_callee p rank R st Sh So g l' I) as (j & h & C & -> & _). apply NoDup_filter.
    apply arguments_nodup with (rank := rank); [exact R | exact Sh | exact So | |].
    + apply R. apply callees_calls. eapply nth_error_In. exact C.
    + apply calls_once_nodup. apply (O g h); [exists f|]; apply callees_calls; eapply nth_error_In; eassumption.
Qed.

(** *** Running *)
Lemma param_eqb_eq : forall x y, param_eqb x y = true <-> x = y.
Proof.
  intros [r|i j] [s|k l]; cbn; split; intros H; try discriminate.
  - apply Nat.eqb_eq in H. congruence.
  - injection H as ->. apply Nat.eqb_refl.
  - apply andb_true_iff in H. destruct H as [A B]. apply Nat.eqb_eq in A, B. congruence.
  - injection H as -> ->. rewrite !Nat.eqb_refl. reflexivity.
Qed.
Lemma find_combine : forall (a : list param) (b : list value) x k v, NoDup a -> nth_error a k = Some x -> nth_error b k = Some v -> find (fun c => param_eqb x (fst c)) (combine a b) = Some (x, v).
Proof.
  induction a as [|y a IH]; intros [|w b] x [|k] v N A B; cbn in *; try discriminate.
  - injection A as ->. injection B as ->. rewrite (proj2 (param_eqb_eq x x) eq_refl). reflexivity.
  - inversion N as [|? ? Ny Na]; subst. destruct (param_eqb x y) eqn:E; [apply param_eqb_eq in E; subst; exfalso; apply Ny; eapply nth_error_In; exact A|]. apply (IH b x k v Na A B).
Qed.

Section Running.
  Variables (p : list fn) (st : state) (rank : nat -> nat).
  Hypotheses (Hrank : forall f g, calls p f g -> rank g < rank f) (Hmade : well_made p) (Hsh : shaped p st) (Hso : solved p st) (Hc : complete p st).

  Lemma helper_fn : forall f, helper p f -> f_method (fn_at p f) = false.
  Proof. intros f (d & E & F). rewrite (fn_at_some _ _ _ E). exact F. Qed.
  Lemma call_long : forall f i g a, nth_error (callees p (fn_at p f)) i = Some g -> In a (nth i (args_at st f) []) -> long a = true.
  Proof. intros f i g a E I. rewrite (Hso f i g E) in I. apply (args_long p rank Hrank st Hsh Hso f g a); [apply (rank_callee p rank Hrank f i g E) | exact I]. Qed.
  Lemma call_index : forall f i g, nth_error (callees p (fn_at p f)) i = Some g -> i < length (args_at st f).
  Proof. intros f i g E. rewrite (proj2 Hsh f). apply nth_error_Some. congruence. Qed.
  (** What position [k] of the callee's signature is bound to. *)
  Lemma bound_helper : forall f e i g k x, helper p f -> nth_error (callees p (fn_at p f)) i = Some g -> nth_error (signature p st g) k = Some x ->
    In (For i k) (signature p st f) /\ bound f e (passed p st f i g) x = e (For i k).
  Proof.
    intros f e i g k x H E X. assert (Lk : k < length (nth i (args_at st f) [])).
    { rewrite <- (given_length p st f i), (Hc f i g E). apply nth_error_Some. congruence. }
    split; [apply for_in_sig; [apply (call_index f i g E) | intros a I; apply (call_long f i g a E I) | exact Lk]|].
    unfold bound, passed. rewrite (find_combine (signature p st g) (given p st f i) x k (FromParam (For i k))); [reflexivity | apply signature_nodup; exact Hmade | exact X|].
    unfold given. rewrite helper_fn by exact H. rewrite (map_nth_error _ k (mapped i 0 (nth i (args_at st f) [])) (d := (true, For i k))); [reflexivity|].
    rewrite mapped_nth; [rewrite Nat.add_0_l; reflexivity | intros a I; apply (call_long f i g a E I) | exact Lk].
  Qed.
  Lemma bound_method : forall m e i g k x, f_method (fn_at p m) = true -> nth_error (callees p (fn_at p m)) i = Some g -> nth_error (signature p st g) k = Some x ->
    bound m e (passed p st m i g) x = Some (Object m i k).
  Proof.
    intros m e i g k x M E X. assert (Lk : k < length (nth i (args_at st m) [])).
    { rewrite <- (given_length p st m i), (Hc m i g E). apply nth_error_Some. congruence. }
    unfold bound, passed. rewrite (find_combine (signature p st g) (given p st m i) x k (OnInstance i k)); [reflexivity | apply signature_nodup; exact Hmade | exact X|].
    unfold given. rewrite M. rewrite (map_nth_error (OnInstance i) k (seq 0 (length (nth i (args_at st m) []))) (d := k)); [reflexivity|].
    rewrite (nth_error_nth' _ 0) by (rewrite seq_length; exact Lk). rewrite seq_nth by exact Lk. reflexivity.
  Qed.
  Lemma callee_helper : forall f i g, nth_error (callees p (fn_at p f)) i = Some g -> helper p g.
  Proof. intros f i g E. apply nth_error_In, callees_calls in E. destruct E as (d & _ & _ & H). exact H. Qed.
  Lemma image : forall path f e g e' x, helper p f -> run_path p st f e path = Some (g, e') -> In x (signature p st g) -> exists y, In y (signature p st f) /\ e' x = e y.
  Proof.
    induction path as [|i path IH]; cbn; intros f e g e' x H R I.
    - injection R as <- <-. eauto.
    - destruct (nth_error (callees p (fn_at p f)) i) as [h|] eqn:E; [|discriminate]. destruct (IH h _ g e' x (callee_helper f i h E) R I) as (y & Iy & Ey).
      apply In_nth_error in Iy. destruct Iy as [k Ek]. destruct (bound_helper f e i h k y H E Ek) as [J B]. exists (For i k). split; [exact J | congruence].
  Qed.
  Lemma own_in_sig : forall f r, In r (locals (fn_at p f)) -> In (Own r) (signature p st f).
  Proof. intros f r I. unfold signature. apply in_or_app. left. apply in_map. exact I. Qed.
  Definition faithful (f : nat) (e : env) : Prop := forall x y o, In x (signature p st f) -> In y (signature p st f) -> e x = Some o -> e y = Some o -> x = y.
  Definition defined (f : nat) (e : env) : Prop := forall x, In x (signature p st f) -> exists o, e x = Some o.
  Lemma helper_faithful : forall f e i g, helper p f -> faithful f e -> nth_error (callees p (fn_at p f)) i = Some g -> faithful g (bound f e (passed p st f i g)).
  Proof.
    intros f e i g H F E x y o Ix Iy Ex Ey. apply In_nth_error in Ix, Iy. destruct Ix as [k Ek], Iy as [l El].
    destruct (bound_helper f e i g k x H E Ek) as [J1 B1], (bound_helper f e i g l y H E El) as [J2 B2]. rewrite B1 in Ex. rewrite B2 in Ey.
    specialize (F _ _ o J1 J2 Ex Ey). injection F as <-. congruence.
  Qed.
  Lemma helper_defined : forall f e i g, helper p f -> defined f e -> nth_error (callees p (fn_at p f)) i = Some g -> defined g (bound f e (passed p st f i g)).
  Proof.
    intros f e i g H D E x Ix. apply In_nth_error in Ix. destruct Ix as [k Ek]. destruct (bound_helper f e i g k x H E Ek) as [J B]. rewrite B. apply D. exact J.
  Qed.
  Lemma run_defined : forall path f e g e', helper p f -> defined f e -> run_path p st f e path = Some (g, e') -> defined g e'.
  Proof.
    induction path as [|i path IH]; cbn; intros f e g e' H D R; [injection R as <- <-; exact D|].
    destruct (nth_error (callees p (fn_at p f)) i) as [h|] eqn:E; [|discriminate]. apply (IH h _ g e' (callee_helper f i h E) (helper_defined f e i h H D E) R).
  Qed.
  Lemma run_faithful : forall path1 path2 f e g1 e1 g2 e2 r1 r2 o, helper p f -> faithful f e ->
    run_path p st f e path1 = Some (g1, e1) -> run_path p st f e path2 = Some (g2, e2) -> In r1 (locals (fn_at p g1)) -> In r2 (locals (fn_at p g2)) ->
    e1 (Own r1) = Some o -> e2 (Own r2) = Some o -> path1 = path2 /\ r1 = r2.
  Proof.
    assert (Down : forall i path f e g e' r o, helper p f -> run_path p st f e (i :: path) = Some (g, e') -> In r (locals (fn_at p g)) -> e' (Own r) = Some o ->
      exists k, In (For i k) (signature p st f) /\ e (For i k) = Some o).
    { intros i path f e g e' r o H R I Eo. cbn in R. destruct (nth_error (callees p (fn_at p f)) i) as [h|] eqn:E; [|discriminate].
      destruct (image path h _ g e' (Own r) (callee_helper f i h E) R (own_in_sig g r I)) as (y & Iy & Ey). apply In_nth_error in Iy. destruct Iy as [k Ek].
      destruct (bound_helper f e i h k y H E Ek) as [J B]. exists k. split; [exact J | congruence]. }
    induction path1 as [|i path1 IH]; intros [|i2 path2] f e g1 e1 g2 e2 r1 r2 o H F R1 R2 I1 I2 E1 E2.
    - cbn in R1, R2. injection R1 as <- <-. injection R2 as <- <-. split; [reflexivity|].
      specialize (F _ _ o (own_in_sig f r1 I1) (own_in_sig f r2 I2) E1 E2). congruence.
    - destruct (Down i2 path2 f e g2 e2 r2 o H R2 I2 E2) as (k & J & B). cbn in R1. injection R1 as <- <-. specialize (F _ _ o (own_in_sig f r1 I1) J E1 B). discriminate.
    - destruct (Down i path1 f e g1 e1 r1 o H R1 I1 E1) as (k & J & B). cbn in R2. injection R2 as <- <-. specialize (F _ _ o (own_in_sig f r2 I2) J E2 B). discriminate.
    - destruct (Down i path1 f e g1 e1 r1 o H R1 I1 E1) as (k & J & B). destruct (Down i2 path2 f e g2 e2 r2 o H R2 I2 E2) as (k2 & J2 & B2).
      pose proof (F _ _ o J J2 B B2) as X. injection X as <- _. cbn in R1, R2. destruct (nth_error (callees p (fn_at p f)) i) as [h|] eqn:E; [|discriminate].
      destruct (IH path2 h _ g1 e1 g2 e2 r1 r2 o (callee_helper f i h E) (helper_faithful f e i h H F E) R1 R2 I1 I2 E1 E2) as [-> ->]. auto.
  Qed.
  Lemma method_fn : forall m, method p m -> f_method (fn_at p m) = true /\ locals (fn_at p m) = [].
  Proof. intros m (d & E & F). rewrite (fn_at_some _ _ _ E). split; [exact F|]. unfold locals. rewrite F. reflexivity. Qed.
  Lemma from_method_defined : forall m path g e r, method p m -> run_path p st m no_env path = Some (g, e) -> In r (locals (fn_at p g)) -> exists o, e (Own r) = Some o.
  Proof.
    intros m [|i path] g e r M R I; cbn in R.
    - injection R as <- <-. rewrite (proj2 (method_fn m M)) in I. contradiction.
    - destruct (nth_error (callees p (fn_at p m)) i) as [h|] eqn:E; [|discriminate]. apply (run_defined path h _ g e (callee_helper m i h E)) in R; [apply R, own_in_sig; exact I|].
      intros x Ix. apply In_nth_error in Ix. destruct Ix as [k Ek]. rewrite (bound_method m no_env i h k x (proj1 (method_fn m M)) E Ek). eauto.
  Qed.
  Lemma from_method_own : forall m path g e r o, method p m -> run_path p st m no_env path = Some (g, e) -> In r (locals (fn_at p g)) -> e (Own r) = Some o -> exists i path' k, path = i :: path' /\ o = Object m i k.
  Proof.
    intros m [|i path] g e r o M R I Eo; cbn in R.
    - injection R as <- <-. rewrite (proj2 (method_fn m M)) in I. contradiction.
    - destruct (nth_error (callees p (fn_at p m)) i) as [h|] eqn:E; [|discriminate].
      destruct (image path h _ g e (Own r) (callee_helper m i h E) R (own_in_sig g r I)) as (y & Iy & Ey). apply In_nth_error in Iy. destruct Iy as [k Ek].
      rewrite (bound_method m no_env i h k y (proj1 (method_fn m M)) E Ek) in Ey. exists i, path, k. split; [reflexivity | congruence].
  Qed.
  Lemma from_method_distinct : forall m1 m2 path1 path2 g1 e1 g2 e2 r1 r2 o, method p m1 -> method p m2 ->
    run_path p st m1 no_env path1 = Some (g1, e1) -> run_path p st m2 no_env path2 = Some (g2, e2) -> In r1 (locals (fn_at p g1)) -> In r2 (locals (fn_at p g2)) ->
    e1 (Own r1) = Some o -> e2 (Own r2) = Some o -> m1 = m2 /\ path1 = path2 /\ r1 = r2.
  Proof.
    intros m1 m2 path1 path2 g1 e1 g2 e2 r1 r2 o M1 M2 R1 R2 I1 I2 E1 E2.
    destruct (from_method_own m1 path1 g1 e1 r1 o M1 R1 I1 E1) as (i & q1 & k & -> & ->). destruct (from_method_own m2 path2 g2 e2 r2 _ M2 R2 I2 E2) as (i2 & q2 & k2 & -> & X). injection X as <- <- <-.
    split; [reflexivity|]. cbn in R1, R2. destruct (nth_error (callees p (fn_at p m1)) i) as [h|] eqn:E; [|discriminate].
    assert (F : faithful h (bound m1 no_env (passed p st m1 i h))).
    { intros x y o Ix Iy Ex Ey. apply In_nth_error in Ix, Iy. destruct Ix as [a Ea], Iy as [b Eb].
    rewrite (bound_method m1 no_env i h a x (proj1 (method_fn m1 M1)) E Ea) in Ex. rewrite (bound_method m1 no_env i h b y (proj1 (method_fn m1 M1)) E Eb) in Ey. congruence. }
    destruct (run_faithful q1 q2 h _ g1 e1 g2 e2 r1 r2 _ (callee_helper m1 i h E) F R1 R2 I1 I2 E1 E2) as [-> ->]. auto.
  Qed.
End Running.

(** *** In any program: what is passed are parameters *)
Definition rooted (p : list fn) (f : nat) (a : trace) : Prop := exists g s, t_src a = g :: s /\ In (t_ref a) (locals (fn_at p g)) /\ last (t_src a) 0 = f.
Definition all_rooted (p : list fn) (st : state) : Prop := forall f l a, In l (args_at st f) -> In a l -> rooted p f a.
Lemma last_app_one : forall {A} (l : list A) a d, last (l ++ [a]) d = a.
Proof. induction l as [|b l IH]; intros a d; [reflexivity|]. cbn. rewrite IH. destruct l; reflexivity. Qed.
Lemma upto_rooted : forall f src, In f src -> exists g s, upto f src = g :: s /\ hd_error src = Some g /\ last (upto f src) 0 = f.
Proof.
  induction src as [|g s IH]; cbn; intros I; [contradiction|]. destruct (g =? f) eqn:E.
  - apply Nat.eqb_eq in E. subst. exists f, []. auto.
  - destruct I as [->|I]; [rewrite Nat.eqb_refl in E; discriminate|]. destruct (IH I) as (g' & s' & U & _ & L). rewrite U in *. exists g, (g' :: s'). split; [reflexivity|]. split; [reflexivity|]. exact L.
Qed.
Lemma extend_rooted : forall p f g a, rooted p g a -> rooted p f (extend f a).
Proof.
  intros p f g a (h & s & E & R & L). unfold rooted, extend. cbn. destruct (existsb (Nat.eqb f) (t_src a)) eqn:X.
  - apply existsb_exists in X. destruct X as (x & I & Ex). apply Nat.eqb_eq in Ex. subst x. destruct (upto_rooted f (t_src a) I) as (g' & s' & U & H & La). rewrite E in H. injection H as <-.
    exists h, s'. rewrite U in *. auto.
  - exists h, (s ++ [f]). rewrite last_app_one. rewrite E. auto.
Qed.
Lemma arguments_rooted : forall p st f g a, all_rooted p st -> In a (arguments p st f g) -> rooted p f a.
Proof.
  intros p st f g a H I. unfold arguments in I. apply in_flat_map in I. destruct I as (l & Il & I). apply in_map_iff in I. destruct I as (b & <- & I). apply fromkeys_in in I. destruct I as [I _].
  apply extend_rooted with (g := g). destruct Il as [<-|Il].
  - apply in_map_iff in I. destruct I as (r & <- & I). exists g, []. auto.
  - apply in_map_iff in Il. destruct Il as (l' & <- & Il). apply filter_In in I. destruct I as [I _]. apply (H g l' b Il I).
Qed.
Lemma set_nth_in : forall {A} n (a b : A) l, In b (set_nth n a l) -> b = a \/ In b l.
Proof. induction n as [|n IH]; intros a b [|c l] I; cbn in *; try contradiction; destruct I as [<-|I]; auto. apply IH in I. tauto. Qed.
Lemma visit_call_rooted : forall p f i g st, all_rooted p st -> all_rooted p (fst (visit_call p f i g st)).
Proof.
  intros p f i g st H. unfold visit_call. destruct (traces_eqb _ _); [exact H|]. cbn [fst]. intros f' l a Il Ia.
  destruct (Nat.lt_ge_cases f (length st)) as [L|L].
  - rewrite args_set in Il by exact L. destruct (f =? f') eqn:E; [|apply (H f' l a Il Ia)]. apply Nat.eqb_eq in E. subst f'.
    apply set_nth_in in Il. destruct Il as [->|Il]; [apply (arguments_rooted p st f g a H Ia) | apply (H f l a Il Ia)].
  - apply (H f' l a); [|exact Ia]. unfold args_at in *. destruct (Nat.eq_dec f f') as [<-|N]; [rewrite nth_overflow in Il by (rewrite set_nth_length; exact L); contradiction|]. rewrite nth_set_other in Il by exact N. exact Il.
Qed.
Lemma visit_calls_rooted : forall p f gs i st, all_rooted p st -> all_rooted p (fst (visit_calls p f i gs st)).
Proof.
  induction gs as [|g gs IH]; cbn [visit_calls]; intros i st S; [exact S|]. pose proof (visit_call_rooted p f i g st S) as S'. destruct (visit_call p f i g st) as [st' c]. cbn [fst] in S'.
  specialize (IH (Datatypes.S i) st' S'). destruct (visit_calls p f (Datatypes.S i) gs st') as [st2 c']. exact IH.
Qed.
Lemma visit_all_rooted : forall p fs st, all_rooted p st -> all_rooted p (fst (visit_all p fs st)).
Proof.
  induction fs as [|f fs IH]; cbn [visit_all]; intros st S; [exact S|].
  pose proof (visit_calls_rooted p f (callees p (fn_at p f)) 0 st S) as S'. destruct (visit_calls p f 0 (callees p (fn_at p f)) st) as [st' c]. cbn [fst] in S'.
  specialize (IH st' S'). destruct (visit_all p fs st') as [st2 c']. exact IH.
Qed.
Lemma start_rooted : forall p, all_rooted p (start p).
Proof.
  intros p f l a Il Ia. unfold args_at, start in Il. destruct (nth_in_or_default f (map (fun d => map (fun _ : nat => ([] : list trace)) (callees p d)) p) []) as [I|E]; [|rewrite E in Il; contradiction].
  apply in_map_iff in I. destruct I as (d & E & _). rewrite <- E in Il. apply in_map_iff in Il. destruct Il as (_ & <- & _). contradiction.
Qed.
Lemma propagate_rooted : forall fuel p st st', all_rooted p st -> propagate fuel p st = Some st' -> all_rooted p st'.
Proof.
  induction fuel as [|n IH]; intros p st st' S H; [discriminate|]. cbn [propagate] in H. pose proof (visit_all_rooted p (seq 0 (length p)) st S) as S'. unfold round in H.
  destruct (visit_all p (seq 0 (length p)) st) as [st1 c]. cbn [fst] in S'. destruct c; [apply (IH p st1 st' S' H) | injection H as <-; exact S'].
Qed.
Lemma mapped_sound : forall p st f i, all_rooted p st -> f_method (fn_at p f) = false -> i < length (args_at st f) ->
  forall x, In x (mapped i 0 (nth i (args_at st f) [])) -> In (snd x) (signature p st f).
Proof.
  intros p st f i H M L [b x] I. cbn. unfold signature. destruct b.
  - apply in_or_app. right. apply in_flat_map. exists (mapped i 0 (nth i (args_at st f) [])). split; [eapply nth_error_In; rewrite (all_mapped_nth _ 0 i L); reflexivity|].
    apply in_map_iff. exists (true, x). split; [reflexivity|]. apply filter_In. auto.
  - apply in_or_app. left. pose proof (fun a => H f (nth i (args_at st f) []) a (nth_In _ _ L)) as R. revert R I. generalize 0 as j. generalize (nth i (args_at st f) []) as l. clear.
    induction l as [|a l IH]; cbn; intros j R I; [contradiction|]. destruct I as [E|I]; [|apply (IH (S j)); [intros; apply R; auto | exact I]].
    destruct (long a) eqn:La; [discriminate|]. injection E as <-. apply in_map. destruct (R a (or_introl eq_refl)) as (g & s & Es & Ir & Ls). unfold long in La. rewrite Es in La. destruct s; [|discriminate].
    rewrite Es in Ls. cbn in Ls. subst. exact Ir.
Qed.
Lemma passed_sound : forall fuel p st, well_made p -> propagate fuel p (start p) = Some st -> forall f i g, nth_error (callees p (fn_at p f)) i = Some g ->
  NoDup (map fst (passed p st f i g)) /\ incl (map fst (passed p st f i g)) (signature p st g) /\
  forall x y, In (x, FromParam y) (passed p st f i g) -> f_method (fn_at p f) = false /\ In y (signature p st f).
Proof.
  intros fuel p st W P f i g E. pose proof (propagate_rooted fuel p _ st (start_rooted p) P) as R. destruct (propagate_solved fuel p _ st (start_shaped p) P) as [Sh So].
  assert (C : forall {A B} (a : list A) (b : list B), exists n, map fst (combine a b) = firstn n a).
  { clear. induction a as [|x a IH]; intros b; [exists 0; reflexivity|]. destruct b as [|y b]; [exists 0; reflexivity|]. destruct (IH b) as [n IHn]. exists (S n). cbn. rewrite IHn. reflexivity. }
  split; [|split].
  - destruct (C _ _ (signature p st g) (given p st f i)) as [n En]. unfold passed. rewrite En. pose proof (signature_nodup p st g W) as N. rewrite <- (firstn_skipn n (signature p st g)) in N.
    clear - N. induction (firstn n (signature p st g)) as [|a l IH]; [constructor|]. cbn in N. inversion N as [|? ? Na Nl]; subst. constructor; [intros I; apply Na, in_or_app; left; exact I | apply IH; exact Nl].
  - destruct (C _ _ (signature p st g) (given p st f i)) as [n En]. unfold passed. rewrite En. intros x I. rewrite <- (firstn_skipn n (signature p st g)). apply in_or_app. left. exact I.
  - intros x y I. apply in_combine_r in I. unfold given in I. destruct (f_method (fn_at p f)) eqn:M.
    + apply in_map_iff in I. destruct I as (k & X & _). discriminate.
    + split; [reflexivity|]. apply in_map_iff in I. destruct I as (z & X & I). injection X as <-. apply (mapped_sound p st f i R M); [|exact I]. rewrite (proj2 Sh f). apply nth_error_Some. congruence.
Qed.
