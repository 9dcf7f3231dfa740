(** Proofs about the running Hessian. *)
From Verif Require Import Prelude TilingModel GranularityModel AffineModel FuseModel GptqModel GptqSpec.
From Coq Require Import QArith Qfield Permutation Lqa.
Local Open Scope Q_scope.

Lemma nat_nz n : n <> 0%nat -> ~ inject_Z (Z.of_nat n) == 0.
Proof. intros N X. unfold inject_Z, Qeq in X. cbn in X. lia. Qed.

Lemma qsum_app l l' : qsum (l ++ l') == qsum l + qsum l'.
Proof. induction l as [|a l IH]; unfold qsum in *; cbn [app fold_right]; [ring|]. rewrite IH. ring. Qed.

Lemma moment_app xs ys i j : moment (xs ++ ys) i j == moment xs i j + moment ys i j.
Proof. unfold moment. rewrite map_app. apply qsum_app. Qed.

Lemma qsum_perm l l' : Permutation l l' -> qsum l == qsum l'.
Proof.
  induction 1; unfold qsum in *; cbn [fold_right].
  - reflexivity.
  - now rewrite IHPermutation.
  - ring.
  - now rewrite IHPermutation1.
Qed.

Lemma moment_perm xs ys i j : Permutation xs ys -> moment xs i j == moment ys i j.
Proof. intros P. unfold moment. apply qsum_perm. now apply Permutation_map. Qed.

Lemma qsum_nonneg {A} (f : A -> Q) l : (forall a, In a l -> 0 <= f a) -> 0 <= qsum (map f l).
Proof.
  intros H. induction l as [|a l IH]; unfold qsum in *; cbn [map fold_right]; [apply Qle_refl|].
  pose proof (H a (or_introl eq_refl)). assert (0 <= fold_right Qplus 0 (map f l)) by (apply IH; intros; apply H; now right).
  lra.
Qed.

Lemma moment_batch k x i j : moment (map (fun s => fun i => x i s) (seq 0 k)) i j = gram k x i j.
Proof. unfold moment, gram. now rewrite map_map. Qed.

Lemma entry_flatten l n s args xs : entry l n s args xs ->
  exists id k x, args = [id] /\ flatten_input l (act_data (s id)) = Ok (n, k, x) /\ length xs = k /\ act_sq (s id) == 1 /\
    forall i j, moment xs i j = gram k x i j.
Proof.
  intros (id & -> & S & Q1). exists id. destruct l as [|unfold]; cbn [samples_in] in S.
  - destruct S as (b & q & E & ->). unfold flatten_input, flatten_linear. rewrite E.
    exists (b * q)%nat, (fun i k => nth (k * n + i) (data (act_data (s id))) 0). split; [reflexivity|]. split; [reflexivity|].
    split; [now rewrite map_length, seq_length|]. split; [exact Q1|]. intros i j.
    exact (moment_batch (b * q) (fun i k => nth (k * n + i) (data (act_data (s id))) 0) i j).
  - destruct S as (k & x & E & ->). exists k, x. cbn [flatten_input]. rewrite E. split; [reflexivity|]. split; [reflexivity|].
    split; [now rewrite map_length, seq_length|]. split; [exact Q1|]. intros i j. apply moment_batch.
Qed.

Local Open Scope nat_scope.

(** Invariant: what has been accumulated, and which tensors may have changed. *)
Record hinv_ok (l : layer) (n : nat) (s : store) (done : list (list nat)) (xs : list sample) (st : hstate) : Prop := {
  ho_n : h_n st = length xs;
  ho_m : forall i j, i < n -> j < n -> (h_mat st i j * inject_Z (Z.of_nat (length xs)) == 2 * moment xs i j)%Q;
  ho_0 : done = [] -> forall i j, h_mat st i j = 0%Q;
  ho_data : forall id, act_data (h_store st id) = act_data (s id) /\ act_aliases (h_store st id) = act_aliases (s id);
  ho_sq : forall id, h_store st id <> s id -> l = Linear /\ act_aliases (s id) = true /\ In [id] done
}.

Lemma hstep_inv l n s done xs st args ys :
  hinv_ok l n s done xs st -> entry l n s args ys -> length xs + length ys <> 0 ->
  (l = Linear -> forall id, args = [id] -> act_aliases (s id) = true -> ~ In [id] done) ->
  exists st', hessian_step l n st args = Ok st' /\ hinv_ok l n s (done ++ [args]) (xs ++ ys) st'.
Proof.
  intros I E N0 R. destruct (entry_flatten _ _ _ _ _ E) as (id & k & x & -> & F & L & S1 & M). subst k.
  unfold hessian_step. destruct (ho_data _ _ _ _ _ _ I id) as [Da Al]. rewrite Da, F. cbn [rbind].
  rewrite (ho_n _ _ _ _ _ _ I). destruct (Nat.eqb_spec (length xs + length ys) 0) as [Z|Z]; [contradiction|].
  rewrite Nat.eqb_refl. cbn [orb negb].
  assert (Sq : (act_sq (h_store st id) == 1)%Q).
  { destruct (Bool.bool_dec (act_aliases (s id)) true) as [A|A].
    - destruct l as [|u].
      + destruct (Qeq_dec (act_sq (h_store st id)) 1) as [Y|Y]; [exact Y|]. exfalso.
        assert (h_store st id <> s id) as X by (intros X; rewrite X in Y; contradiction).
        apply (ho_sq _ _ _ _ _ _ I) in X. apply (R eq_refl id eq_refl A). tauto.
      + destruct (Qeq_dec (act_sq (h_store st id)) 1) as [Y|Y]; [exact Y|]. exfalso.
        assert (h_store st id <> s id) as X by (intros X; rewrite X in Y; contradiction).
        apply (ho_sq _ _ _ _ _ _ I) in X. destruct X; discriminate.
    - destruct (Qeq_dec (act_sq (h_store st id)) 1) as [Y|Y]; [exact Y|]. exfalso.
      assert (h_store st id <> s id) as X by (intros X; rewrite X in Y; contradiction).
      apply (ho_sq _ _ _ _ _ _ I) in X. tauto. }
  eexists. split; [reflexivity|]. split; cbn [h_n h_mat h_store].
  - now rewrite app_length.
  - intros i j Hi Hj. rewrite app_length, moment_app, M. pose proof (ho_m _ _ _ _ _ _ I i j Hi Hj) as H.
    set (T := inject_Z (Z.of_nat (length xs + length ys))). set (Nq := inject_Z (Z.of_nat (length xs))) in *.
    assert (T0 : ~ (T == 0)%Q).
    { apply nat_nz. exact N0. }
    rewrite Sq.
    transitivity (h_mat st i j * Nq + 2 * gram (length ys) x i j)%Q; [field; exact T0|]. rewrite H. ring.
  - intros X. exfalso. eapply app_cons_not_nil. symmetry. exact X.
  - intros i. destruct l; [|apply (ho_data _ _ _ _ _ _ I)]. destruct (act_aliases (h_store st id)) eqn:A; [|apply (ho_data _ _ _ _ _ _ I)].
    destruct (Nat.eqb_spec i id) as [->|]; [|apply (ho_data _ _ _ _ _ _ I)]. cbn. split; [reflexivity|congruence].
  - intros i. destruct l.
    2: { intros X. apply (ho_sq _ _ _ _ _ _ I) in X. destruct X; discriminate. }
    destruct (act_aliases (h_store st id)) eqn:A.
    + destruct (Nat.eqb_spec i id) as [->|N].
      * intros _. split; [reflexivity|]. split; [congruence|]. apply in_or_app. right. now left.
      * intros X. apply (ho_sq _ _ _ _ _ _ I) in X. destruct X as (X & Y & W). split; [exact X|]. split; [exact Y|]. apply in_or_app. now left.
    + intros X. apply (ho_sq _ _ _ _ _ _ I) in X. destruct X as (X & Y & W). split; [exact X|]. split; [exact Y|]. apply in_or_app. now left.
Qed.

Lemma hloop_inv l n s ds xss :
  forall done xs st, hinv_ok l n s done xs st -> Forall2 (entry l n s) ds xss ->
  (xs = [] -> forall ys, hd_error xss = Some ys -> ys <> []) -> no_reuse l s (done ++ ds) ->
  exists st', hessian_loop l n st ds = Ok st' /\ hinv_ok l n s (done ++ ds) (xs ++ concat xss) st'.
Proof.
  revert xss. induction ds as [|args ds IH]; intros xss done xs st I F H0 R; inversion F as [|? ys ? xss' E F']; subst; cbn [hessian_loop concat].
  - rewrite !app_nil_r. eauto.
  - assert (N0 : length xs + length ys <> 0).
    { intros X. destruct xs; [|discriminate]. apply (H0 eq_refl ys eq_refl). destruct ys; [reflexivity|discriminate]. }
    destruct (hstep_inv l n s done xs st args ys I E N0) as (st1 & Es & I1).
    { intros L id -> A Hin. apply in_split in Hin. destruct Hin as (a & b & ->).
      rewrite (R L a b ds id) in A; [discriminate|]. now rewrite <- app_assoc. }
    rewrite Es. cbn [rbind].
    destruct (IH xss' (done ++ [args]) (xs ++ ys) st1 I1 F') as (st2 & E2 & I2).
    + intros X. apply app_eq_nil in X. destruct X as [-> ->]. cbn in N0. lia.
    + now rewrite <- app_assoc.
    + exists st2. split; [exact E2|]. rewrite <- !app_assoc in I2. exact I2.
Qed.

Lemma hessian_value l n s ds xss :
  Forall2 (entry l n s) ds xss -> (forall xs, hd_error xss = Some xs -> xs <> []) -> no_reuse l s ds ->
  exists h s', calculate_hessian l n s ds = Ok (h, s') /\ is_hessian n (concat xss) h /\
    forall id, act_data (s' id) = act_data (s id) /\
      (s' id <> s id -> l = Linear /\ act_aliases (s id) = true /\ In [id] ds).
Proof.
  intros F H0 R. unfold calculate_hessian.
  assert (I0 : hinv_ok l n s [] [] (mkH (fun _ _ => 0%Q) 0 s)).
  { split; cbn; auto. - intros; unfold moment; cbn; ring. - intros id X. contradiction. }
  destruct (hloop_inv l n s ds xss [] [] _ I0 F (fun _ => H0) R) as (st & E & I). rewrite E. cbn [rbind app] in *.
  do 2 eexists. split; [reflexivity|]. split.
  - intros i j Hi Hj. set (xs := concat xss) in *.
    assert (V : forall i j, i < n -> j < n -> (h_mat st i j == 2 / inject_Z (Z.of_nat (length xs)) * moment xs i j)%Q).
    { intros a b Ha Hb. destruct (Nat.eq_dec (length xs) 0) as [Z|Z].
      - assert (xss = []).
        { destruct xss as [|ys xss]; [reflexivity|]. exfalso. apply (H0 ys eq_refl). unfold xs in Z. cbn in Z. rewrite app_length in Z.
          destruct ys; [reflexivity|cbn in Z; lia]. }
        subst xss. inversion F; subst. rewrite (ho_0 _ _ _ _ _ _ I eq_refl). unfold xs. cbn. reflexivity.
      - pose proof (ho_m _ _ _ _ _ _ I a b Ha Hb) as H.
        assert (T0 : ~ (inject_Z (Z.of_nat (length xs)) == 0)%Q).
        { apply nat_nz. exact Z. }
        setoid_replace (2 / inject_Z (Z.of_nat (length xs)) * moment xs a b)%Q
          with ((2 * moment xs a b) / inject_Z (Z.of_nat (length xs)))%Q by (field; exact T0).
        rewrite <- H. field. exact T0. }
    assert (Zi : Qeq_bool (h_mat st i i) 0 = true <-> (moment xs i i == 0)%Q).
    { rewrite Qeq_bool_iff, (V i i Hi Hi). split; [|intros ->; ring]. intros X.
      destruct (Nat.eq_dec (length xs) 0) as [Z|Z].
      - assert (xs = []) as -> by (destruct xs; [reflexivity|discriminate]). reflexivity.
      - apply Qmult_integral in X. destruct X as [X|X]; [|exact X]. exfalso.
        assert (T0 : ~ (inject_Z (Z.of_nat (length xs)) == 0)%Q).
        { apply nat_nz. exact Z. }
        assert (2 == 0)%Q; [|discriminate].
        setoid_replace 2%Q with (2 / inject_Z (Z.of_nat (length xs)) * inject_Z (Z.of_nat (length xs)))%Q by (field; exact T0).
        rewrite X. ring. }
    split.
    + intros <- M. rewrite Nat.eqb_refl, (proj2 Zi M). reflexivity.
    + intros M. destruct (Nat.eqb_spec i j) as [->|D]; cbn [andb]; [|apply V; assumption].
      destruct (Qeq_bool (h_mat st j j) 0) eqn:B; [|apply V; assumption]. exfalso. apply M. split; [reflexivity|]. now apply Zi.
  - intros id. split; [apply (ho_data _ _ _ _ _ _ I)|apply (ho_sq _ _ _ _ _ _ I)].
Qed.

Lemma hessian_order l n s ds xss ds' xss' h h' s1 s1' :
  Forall2 (entry l n s) ds xss -> (forall xs, hd_error xss = Some xs -> xs <> []) -> no_reuse l s ds ->
  Forall2 (entry l n s) ds' xss' -> (forall xs, hd_error xss' = Some xs -> xs <> []) -> no_reuse l s ds' ->
  Permutation (concat xss) (concat xss') ->
  calculate_hessian l n s ds = Ok (h, s1) -> calculate_hessian l n s ds' = Ok (h', s1') ->
  forall i j, i < n -> j < n -> (h i j == h' i j)%Q.
Proof.
  intros F H0 R F' H0' R' P E E' i j Hi Hj.
  destruct (hessian_value _ _ _ _ _ F H0 R) as (x & y & Ex & V & _). rewrite E in Ex. injection Ex as <- <-.
  destruct (hessian_value _ _ _ _ _ F' H0' R') as (x & y & Ex & V' & _). rewrite E' in Ex. injection Ex as <- <-.
  destruct (V i j Hi Hj) as [A B]. destruct (V' i j Hi Hj) as [A' B'].
  pose proof (moment_perm _ _ i i P) as Mi. pose proof (moment_perm _ _ i j P) as Mj. pose proof (Permutation_length P) as L.
  destruct (Nat.eq_dec i j) as [D|D].
  - destruct (Qeq_dec (moment (concat xss) i i) 0) as [Z|Z].
    + rewrite (A D Z), (A' D); [reflexivity|now rewrite <- Mi].
    + rewrite B, B'; [now rewrite L, Mj| |]; intros [_ X]; apply Z; [now rewrite Mi|exact X].
  - rewrite B, B'; [now rewrite L, Mj| |]; tauto.
Qed.

(** ** Rejections *)

Lemma hstep_data l n st args st' : hessian_step l n st args = Ok st' ->
  forall id, act_data (h_store st' id) = act_data (h_store st id).
Proof.
  unfold hessian_step. destruct args as [|id [|]]; try discriminate.
  destruct (flatten_input l (act_data (h_store st id))) as [[[f k] x]|]; [|discriminate]. cbn [rbind].
  destruct (_ =? 0); [discriminate|]. destruct (negb _); [discriminate|]. intros E. injection E as <-. intros i. cbn [h_store].
  destruct l; [|reflexivity]. destruct (act_aliases _); [|reflexivity]. destruct (Nat.eqb_spec i id) as [->|]; reflexivity.
Qed.

Lemma hstep_bad l n s st args : (forall id, act_data (h_store st id) = act_data (s id)) -> bad_entry l n s args ->
  exists e, hessian_step l n st args = Err e.
Proof.
  intros D [B|(id & -> & B)].
  - unfold hessian_step. destruct args as [|? [|]]; try (eauto; fail). now cbn in B.
  - unfold hessian_step. rewrite D. destruct l as [|u]; cbn [flatten_input].
    + unfold flatten_linear. destruct B as [B|(b & q & f & E & F1 & F2)].
      * destruct (shape (act_data (s id))) as [|? [|? [|? [|]]]]; cbn [rbind]; eauto. now cbn in B.
      * rewrite E. cbn [rbind]. destruct (_ =? 0); [eauto|].
        rewrite (proj2 (Nat.eqb_neq f n) F1), (proj2 (Nat.eqb_neq f 1) F2). cbn [orb negb]. eauto.
    + destruct B as (f & k & x & E & F1 & F2). rewrite E. cbn [rbind]. destruct (_ =? 0); [eauto|].
      rewrite (proj2 (Nat.eqb_neq f n) F1), (proj2 (Nat.eqb_neq f 1) F2). cbn [orb negb]. eauto.
Qed.

Lemma bad_rejected l n s ds args : In args ds -> bad_entry l n s args ->
  exists e, calculate_hessian l n s ds = Err e.
Proof.
  intros I B. unfold calculate_hessian.
  assert (G : forall st, (forall id, act_data (h_store st id) = act_data (s id)) -> exists e, hessian_loop l n st ds = Err e).
  { induction ds as [|a ds IH]; [destruct I|]. intros st D. cbn [hessian_loop]. destruct I as [<-|I].
    - destruct (hstep_bad l n s st a D B) as [e ->]. cbn. eauto.
    - destruct (hessian_step l n st a) as [st'|e] eqn:E; cbn [rbind]; [|eauto].
      apply IH; [exact I|]. intros id. rewrite (hstep_data _ _ _ _ _ E). apply D. }
  destruct (G (mkH (fun _ _ => 0%Q) 0 s) (fun _ => eq_refl)) as [e ->]. cbn. eauto.
Qed.

Lemma empty_rejected l n s args ds : entry l n s args [] -> calculate_hessian l n s (args :: ds) = Err ZeroDivisionError.
Proof.
  intros E. destruct (entry_flatten _ _ _ _ _ E) as (id & k & x & -> & F & L & _). unfold calculate_hessian. cbn [hessian_loop].
  unfold hessian_step. cbn [h_store h_n]. rewrite F. cbn [rbind]. cbn in L. now subst k.
Qed.

(** In-place scaling, exactly. *)
Lemma scaled_first n s id b q h s' :
  shape (act_data (s id)) = [b; q; n] -> b * q <> 0 -> act_aliases (s id) = true ->
  calculate_hessian Linear n s [[id]] = Ok (h, s') ->
  (act_sq (s' id) == act_sq (s id) * (2 / inject_Z (Z.of_nat (b * q))))%Q.
Proof.
  intros E N A. unfold calculate_hessian. cbn [hessian_loop]. unfold hessian_step. cbn [h_store h_n flatten_input].
  unfold flatten_linear. rewrite E. cbn [rbind]. cbn [Nat.add].
  rewrite (proj2 (Nat.eqb_neq (b * q) 0) N), Nat.eqb_refl, A. cbn [orb negb rbind h_mat h_store].
  intros X. injection X as <- <-. rewrite Nat.eqb_refl. reflexivity.
Qed.

Lemma dampen_damped n damp h order : damped n damp h order (dampen n damp (fun i j => h (order i) (order j))).
Proof.
  intros i j Hi Hj. unfold dampen. destruct (Nat.eqb_spec i j) as [->|]; [reflexivity|]. ring.
Qed.
