(** Proofs about grouped tokens. *)
From Coq Require Import Ascii List Arith Bool Lia.
From Verif Require Import Prelude TokModel TokSpec.
Import ListNotations.

Lemma join_spec : forall l, with_empty_lines l (join_nn l).
Proof.
  induction l as [|t r IH]; [constructor|]. destruct r as [|u r]; [constructor|].
  change (join_nn (t :: u :: r)) with (t ++ newline :: newline :: join_nn (u :: r)). constructor; [discriminate|exact IH].
Qed.
Lemma wel_unique : forall l s, with_empty_lines l s -> s = join_nn l.
Proof.
  induction 1 as [|t|t l s N H IH]; try reflexivity. subst. destruct l; [congruence|reflexivity].
Qed.

Lemma pieces_cut_from : forall (A : Type) n q j (t : list A), 0 < n -> (j + q) * n <= length t ->
  Forall (fun p => length p = n) (map (fun i => firstn n (skipn (i * n) t)) (seq j q))
  /\ skipn (j * n) t = concat (map (fun i => firstn n (skipn (i * n) t)) (seq j q)) ++ skipn ((j + q) * n) t.
Proof.
  intros A n. induction q as [|q IH]; intros j t Hn H.
  - cbn. rewrite Nat.add_0_r. split; [constructor|reflexivity].
  - destruct (IH (S j) t Hn) as [F E]; [nia|]. cbn [seq map concat]. split.
    + constructor; [|exact F]. rewrite firstn_length, skipn_length. nia.
    + replace (j + S q) with (S j + q) by lia. rewrite <- app_assoc, <- E.
      replace (S j * n) with (n + j * n) by lia.
      assert (Hk : forall a b (l : list A), skipn (a + b) l = skipn a (skipn b l)).
      { intros a b. revert a. induction b as [|b IHb]; intros a l; [now rewrite Nat.add_0_r|].
        rewrite Nat.add_succ_r. destruct l; [now rewrite !skipn_nil|]. cbn. apply IHb. }
      rewrite Hk. symmetry. apply firstn_skipn.
Qed.

Lemma ceil_multiple : forall q n, 0 < n -> (q * n + n - 1) / n = q.
Proof.
  intros q n H. symmetry. apply Nat.div_unique with (r := n - 1); [lia|]. nia.
Qed.

Lemma pieces_cut : forall (A : Type) n (t : list A), 0 < n -> cut n t (pieces n (length t / n * n) t).
Proof.
  intros A n t H. unfold pieces. rewrite ceil_multiple by exact H.
  pose proof (Nat.div_mod (length t) n ltac:(lia)) as D. pose proof (Nat.mod_upper_bound (length t) n ltac:(lia)) as M.
  destruct (pieces_cut_from A n (length t / n) 0 t H) as [F E]; [nia|].
  split; [exact F|]. exists (skipn (length t / n * n) t). split; [exact E|]. rewrite skipn_length. nia.
Qed.

Lemma cut_unique : forall (A : Type) n (t : list A) p p', cut n t p -> cut n t p' -> p = p'.
Proof.
  intros A n t p. revert t. induction p as [|x p IH]; intros t p' (F & r & E & L) (F' & r' & E' & L').
  - destruct p' as [|y p']; [reflexivity|]. inversion F'; subst. exfalso.
    apply (f_equal (@length A)) in E'. rewrite !app_length in E'. cbn in E'. rewrite app_length in E'. lia.
  - inversion F as [|? ? Fx Fp]; subst. destruct p' as [|y p'].
    + exfalso. apply (f_equal (@length A)) in E'. cbn in E'. rewrite !app_length in E'. lia.
    + inversion F' as [|? ? Fy Fp']; subst. cbn in E'. rewrite <- !app_assoc in E'.
      assert (X : x = y /\ concat p ++ r = concat p' ++ r').
      { assert (G : forall (a b u w : list A), length a = length b -> a ++ u = b ++ w -> a = b /\ u = w).
        { induction a as [|h a IHa]; intros [|g b] u w Hl He; try discriminate; [auto|].
          injection He as -> He. injection Hl as Hl. destruct (IHa b u w Hl He) as [-> ->]. auto. }
        apply G; auto. }
      destruct X as [-> X]. f_equal. apply (IH (concat p ++ r)).
      * split; [exact Fp|]. exists r. auto.
      * split; [exact Fp'|]. exists r'. auto.
Qed.

Section Keys.
  Variables (key : Type) (key_eqb : key -> key -> bool).
  Hypothesis eqb_spec : forall a b, key_eqb a b = true <-> a = b.

  Lemma lookup_map : forall (A B : Type) (f : A -> B) k d,
    lookup key_eqb k (map (fun kv => (fst kv, f (snd kv))) d) = option_map f (lookup key_eqb k d).
  Proof. induction d as [|[k' v] d IH]; cbn; [reflexivity|]. now destruct (key_eqb k k'). Qed.
  Lemma lookup_put : forall (A : Type) k (v : A) d k',
    lookup key_eqb k' (put key_eqb k v d) = if key_eqb k' k then Some v else lookup key_eqb k' d.
  Proof.
    induction d as [|[k1 v1] d IH]; intro k'; cbn; [reflexivity|].
    destruct (key_eqb k k1) eqn:E.
    - apply eqb_spec in E. subst. cbn. now destruct (key_eqb k' k1).
    - cbn. rewrite IH. destruct (key_eqb k' k1) eqn:E1; [|reflexivity].
      destruct (key_eqb k' k) eqn:E2; [|reflexivity]. apply eqb_spec in E1, E2. assert (key_eqb k k1 = true) by (apply eqb_spec; congruence). congruence.
  Qed.

  Variable token : Type.
  Variables input_ids label : key.

  Lemma group_spec : forall n examples N v, 0 < n ->
    (forall k c, lookup key_eqb k examples = Some c -> length (concat c) = N) ->
    lookup key_eqb input_ids examples = Some v ->
    exists out ids, group_texts key_eqb input_ids label n examples = Ok out
      /\ cut n (concat v) ids
      /\ forall k, match lookup key_eqb k out with
                   | Some p => if key_eqb k label then p = ids
                               else exists c, lookup key_eqb k examples = Some c /\ cut (A := token) n (concat c) p
                   | None => k <> label /\ lookup key_eqb k examples = None
                   end.
  Proof.
    intros n examples N v Hn HN Hv. unfold group_texts.
    set (conc := map (fun kv => (fst kv, concat (snd kv))) examples).
    assert (LC : forall k, lookup key_eqb k conc = option_map (@concat token) (lookup key_eqb k examples)) by (intro; apply lookup_map).
    destruct conc as [|[k0 first] r] eqn:EC.
    - exfalso. specialize (LC input_ids). rewrite Hv in LC. discriminate.
    - assert (LF : length first = N).
      { specialize (LC k0). cbn in LC. rewrite (proj2 (eqb_spec k0 k0) eq_refl) in LC.
        destruct (lookup key_eqb k0 examples) as [c|] eqn:E; [|discriminate]. injection LC as ->. eapply HN; eauto. }
      rewrite <- EC in *. clear EC.
      set (T := if n <=? length first then length first / n * n else 0).
      assert (TN : T = N / n * n).
      { unfold T. rewrite LF. destruct (Nat.leb_spec n N); [reflexivity|]. now rewrite Nat.div_small. }
      set (out := map (fun kv => (fst kv, pieces n T (snd kv))) conc).
      assert (LO : forall k, lookup key_eqb k out = option_map (fun c => pieces n T (concat c)) (lookup key_eqb k examples)).
      { intro k. unfold out. rewrite lookup_map, LC. now destruct (lookup key_eqb k examples). }
      assert (CUT : forall k c, lookup key_eqb k examples = Some c -> cut n (concat c) (pieces n T (concat c))).
      { intros k c Hc. rewrite TN, <- (HN k c Hc). now apply pieces_cut. }
      exists (put key_eqb label (pieces n T (concat v)) out), (pieces n T (concat v)).
      split; [|split; [now apply CUT with (k := input_ids)|]].
      + assert (LI := LO input_ids). rewrite Hv in LI. cbn [option_map] in LI.
        unfold out, T in *. destruct (n <=? length first) eqn:B.
        * destruct (Nat.eqb_spec n 0); [lia|]. now rewrite LI.
        * now rewrite LI.
      + intro k. rewrite lookup_put. destruct (key_eqb k label) eqn:E; [reflexivity|]. rewrite LO.
        destruct (lookup key_eqb k examples) as [c|] eqn:Ec; cbn [option_map].
        * exists c. split; [reflexivity|]. now apply CUT with (k := k).
        * split; [|reflexivity]. intros ->. rewrite (proj2 (eqb_spec label label) eq_refl) in E. discriminate.
  Qed.
End Keys.

Section Columns.
  Variables (key : Type) (key_eqb : key -> key -> bool).
  Hypothesis eqb_spec : forall a b, key_eqb a b = true <-> a = b.

  Lemma lookup_in : forall (A : Type) k (v : A) d, lookup key_eqb k d = Some v -> In (k, v) d.
  Proof.
    induction d as [|[k' v'] d IH]; cbn; [discriminate|]. destruct (key_eqb k k') eqn:E; [|auto].
    intro H. injection H as <-. apply eqb_spec in E. subst. now left.
  Qed.
  Lemma in_lookup : forall (A : Type) k (v : A) d, NoDup (map fst d) -> In (k, v) d -> lookup key_eqb k d = Some v.
  Proof.
    induction d as [|[k' v'] d IH]; cbn; intros N H; [contradiction|]. inversion N as [|? ? N1 N2]; subst.
    destruct H as [H|H].
    - injection H as -> ->. now rewrite (proj2 (eqb_spec k k) eq_refl).
    - destruct (key_eqb k k') eqn:E; [|auto]. apply eqb_spec in E. subst. exfalso. apply N1. change k' with (fst (k', v)). now apply in_map.
  Qed.
  Lemma put_keys : forall (A : Type) k (v : A) d x, In x (map fst (put key_eqb k v d)) -> x = k \/ In x (map fst d).
  Proof.
    induction d as [|[k' v'] d IH]; cbn; intros x H; [destruct H as [<-|[]]; auto|].
    destruct (key_eqb k k'); cbn in H; destruct H as [<-|H]; auto. apply IH in H. tauto.
  Qed.
  Lemma put_nodup : forall (A : Type) k (v : A) d, NoDup (map fst d) -> NoDup (map fst (put key_eqb k v d)).
  Proof.
    induction d as [|[k' v'] d IH]; cbn; intro N; [constructor; [intros []|constructor]|]. inversion N as [|? ? N1 N2]; subst.
    destruct (key_eqb k k') eqn:E; cbn; constructor; auto. intro H. apply put_keys in H as [->|H]; [|contradiction].
    rewrite (proj2 (eqb_spec k k) eq_refl) in E. discriminate.
  Qed.

  Variable token : Type.
  Variables input_ids label : key.

  Lemma tokenize_spec : forall n (tokenizer : list Ascii.ascii -> list (key * list token)) texts s N v, 0 < n ->
    with_empty_lines texts s -> NoDup (map fst (tokenizer s)) ->
    (forall k c, In (k, c) (tokenizer s) -> length c = N) -> In (input_ids, v) (tokenizer s) ->
    exists out ids, tokenize_dataset key_eqb input_ids label tokenizer texts n = Ok out
      /\ NoDup (map fst out) /\ cut n v ids /\ In (label, ids) out
      /\ (forall k c, In (k, c) (tokenizer s) -> k <> label -> exists p, In (k, p) out /\ cut n c p)
      /\ (forall k p, In (k, p) out -> k = label \/ exists c, In (k, c) (tokenizer s)).
  Proof.
    intros n tokenizer texts s N v Hn J ND HN Hv. apply wel_unique in J. subst s. unfold tokenize_dataset.
    set (d := tokenizer (join_nn texts)) in *. set (ex := map (fun kv => (fst kv, [snd kv])) d).
    assert (LE : forall k, lookup key_eqb k ex = option_map (fun c => [c]) (lookup key_eqb k d)) by (intro k; apply (lookup_map key key_eqb _ _ (fun c => [c]))).
    destruct (group_spec key key_eqb eqb_spec token input_ids label n ex N [v] Hn) as (out & ids & G & C & R).
    - intros k c H. rewrite LE in H. destruct (lookup key_eqb k d) as [c'|] eqn:E; [|discriminate]. injection H as <-.
      cbn. rewrite app_nil_r. apply (HN k). now apply lookup_in.
    - rewrite LE, (in_lookup _ _ _ _ ND Hv). reflexivity.
    - exists out, ids. cbn [concat] in C. rewrite app_nil_r in C. split; [exact G|].
      assert (NO : NoDup (map fst out)).
      { assert (KE : map fst ex = map fst d) by (unfold ex; rewrite map_map; reflexivity).
        unfold group_texts in G. destruct (map (fun kv => (fst kv, concat (snd kv))) ex) as [|[k0 f0] r0] eqn:E0; [discriminate|].
        rewrite <- E0 in G. clear E0.
        destruct (n <=? length f0); [destruct (n =? 0); [discriminate|]|];
        match type of G with context [lookup key_eqb input_ids ?o] => destruct (lookup key_eqb input_ids o); [|discriminate] end;
        injection G as <-; apply put_nodup; rewrite !map_map; cbn; fold (map fst ex);
        change (map (fun x : key * list (list token) => fst x) ex) with (map fst ex); now rewrite KE. }
      split; [exact NO|]. split; [exact C|]. split; [|split].
      + specialize (R label). destruct (lookup key_eqb label out) as [p|] eqn:E; [|destruct R as [R _]; congruence].
        rewrite (proj2 (eqb_spec label label) eq_refl) in R. subst p. now apply lookup_in.
      + intros k c Hc Hk. specialize (R k). rewrite LE, (in_lookup _ _ _ _ ND Hc) in R. cbn in R.
        destruct (lookup key_eqb k out) as [p|] eqn:E; [|destruct R; discriminate].
        destruct (key_eqb k label) eqn:E1; [apply eqb_spec in E1; contradiction|].
        destruct R as (c' & H & CU). injection H as <-. cbn in CU. rewrite app_nil_r in CU. exists p. split; [now apply lookup_in|exact CU].
      + intros k p H. apply (in_lookup _ _ _ _ NO) in H. specialize (R k). rewrite H in R.
        destruct (key_eqb k label) eqn:E1; [left; now apply eqb_spec|]. right. destruct R as (c & Hc & _).
        rewrite LE in Hc. destruct (lookup key_eqb k d) as [c'|] eqn:E; [|discriminate]. exists c'. now apply lookup_in.
  Qed.
End Columns.
