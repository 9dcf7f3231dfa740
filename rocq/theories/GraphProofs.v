(** Proofs about topological sorting and ancestors. *)
From Coq Require Import String Ascii Permutation Relations.
From Verif Require Import Prelude GraphModel GraphSpec.
Local Open Scope nat_scope.
Local Open Scope list_scope.

Lemma mem_in x l : existsb (Nat.eqb x) l = true <-> In x l.
Proof.
  rewrite existsb_exists. split.
  - intros (y & H & E). apply Nat.eqb_eq in E. now subst.
  - intros H. exists x. split; [exact H|apply Nat.eqb_refl].
Qed.
Lemma mem_notin x l : existsb (Nat.eqb x) l = false <-> ~ In x l.
Proof. rewrite <- mem_in. destruct existsb; split; congruence. Qed.

Lemma dedup_in seen l x : In x (dedup seen l) <-> In x l /\ ~ In x seen.
Proof.
  revert seen. induction l as [|y l IH]; intros seen; cbn [dedup].
  - split; [intros []|intros [[] _]].
  - destruct (existsb (Nat.eqb y) seen) eqn:E.
    + apply mem_in in E. rewrite IH. split; [intros [H N]; split; [now right|exact N]|].
      intros [[->|H] N]; [now destruct N|now split].
    + apply mem_notin in E. cbn [In]. rewrite IH. cbn [In]. split.
      * intros [->|[H N]]; [split; [now left|exact E]|]. split; [now right|]. tauto.
      * intros [[->|H] N]; [now left|]. destruct (Nat.eq_dec y x); [now left|]. right. tauto.
Qed.
Lemma dedup_nodup seen l : NoDup (dedup seen l).
Proof.
  revert seen. induction l as [|y l IH]; intros seen; cbn [dedup]; [constructor|].
  destruct (existsb (Nat.eqb y) seen); [apply IH|]. constructor; [|apply IH].
  rewrite dedup_in. intros [_ N]. apply N. now left.
Qed.

Lemma about_unwrap r i : about r i <-> exists s, unwrap r = RNode i s.
Proof.
  split.
  - induction 1 as [i s|r a i H [s IH]]; [exists s|exists s]; [reflexivity|exact IH].
  - intros [s E]. induction r; cbn in E; try discriminate; [injection E as -> ->; constructor|].
    constructor. now apply IHr.
Qed.
Lemma base_ids_in l x : In x (base_ids l) <-> exists r, In r l /\ about r x.
Proof.
  unfold base_ids. rewrite in_flat_map. split; intros (r & H & A); exists r; (split; [exact H|]).
  - apply about_unwrap. destruct (unwrap r); cbn in A; try contradiction. destruct A as [<-|[]]. eauto.
  - apply about_unwrap in A. destruct A as [s ->]. now left.
Qed.
Lemma call_refs_in n r : In r (call_refs n) <-> In r (n_args n) \/ exists k, In (k, r) (n_kwargs n).
Proof.
  unfold call_refs. rewrite in_app_iff, in_map_iff. split; (intros [H|H]; [now left|right]).
  - destruct H as ([k r'] & E & H). cbn in E. subst. eauto.
  - destruct H as (k & H). now exists (k, r).
Qed.
Lemma inputs_in n x : In x (inputs_of n) <-> exists r, In r (call_refs n) /\ about r x.
Proof. unfold inputs_of. rewrite dedup_in, base_ids_in. cbn. tauto. Qed.
Lemma feeds_inputs g a b : feeds g a b <-> exists n, In n (g_nodes g) /\ n_id n = b /\ In a (inputs_of n).
Proof.
  split.
  - intros (n & r & H & E & R & A). exists n. repeat split; try assumption. apply inputs_in. exists r. split; [now apply call_refs_in|exact A].
  - intros (n & H & E & I). apply inputs_in in I. destruct I as (r & R & A). exists n, r. apply call_refs_in in R. auto.
Qed.
Lemma outputs_feeds g x y : In y (node_outputs g x) <-> feeds g x y.
Proof.
  unfold node_outputs. rewrite in_map_iff, feeds_inputs. split.
  - intros (n & E & H). apply filter_In in H. destruct H as [H M]. exists n. repeat split; try assumption.
    apply mem_in in M. unfold inputs_of. apply dedup_in. split; [exact M|intros []].
  - intros (n & H & E & I). exists n. split; [exact E|]. apply filter_In. split; [exact H|]. apply mem_in.
    unfold inputs_of in I. now apply dedup_in in I.
Qed.
Lemma outputs_nodup g x : graph_ok g -> NoDup (node_outputs g x).
Proof.
  unfold graph_ok, node_outputs. generalize (fun n => existsb (Nat.eqb x) (base_ids (call_refs n))). intros f.
  induction (g_nodes g) as [|n l IH]; cbn; intros N; [constructor|]. inversion N as [|? ? N1 N2]; subst.
  destruct (f n); cbn; [|now apply IH]. constructor; [|now apply IH].
  intros H. apply N1. apply in_map_iff in H. destruct H as (m & E & H). apply filter_In in H. rewrite <- E. now apply in_map.
Qed.

Lemma get_node_in g x n : graph_ok g -> In n (g_nodes g) -> n_id n = x -> get_node g x = Some n.
Proof.
  unfold graph_ok, get_node. induction (g_nodes g) as [|m l IH]; intros N H E; [destruct H|]. cbn in N.
  inversion N as [|? ? N1 N2]; subst. cbn [find]. destruct H as [->|H].
  - now rewrite Nat.eqb_refl.
  - destruct (n_id m =? n_id n) eqn:Q; [|now apply IH]. apply Nat.eqb_eq in Q. exfalso. apply N1. rewrite Q. now apply in_map.
Qed.
Lemma get_node_some g x n : get_node g x = Some n -> In n (g_nodes g) /\ n_id n = x.
Proof. intros H. apply find_some in H. destruct H as [H E]. apply Nat.eqb_eq in E. auto. Qed.
Lemma node_unique g n m : graph_ok g -> In n (g_nodes g) -> In m (g_nodes g) -> n_id n = n_id m -> n = m.
Proof. intros G H H' E. pose proof (get_node_in g (n_id m) n G H E) as P. rewrite (get_node_in g (n_id m) m G H' eq_refl) in P. now injection P. Qed.

(** ** Kahn's algorithm *)
Lemma leaves_in g x : In x (leaves g) <-> is_leaf g x.
Proof.
  unfold leaves, is_leaf, node_in, leaf. rewrite !in_map_iff. split.
  - intros (n & E & H). apply filter_In in H. destruct H as [H L]. split; [eauto|]. apply negb_true_iff, mem_notin in L. congruence.
  - intros [(n & E & H) L]. exists n. split; [exact E|]. apply filter_In. split; [exact H|]. apply negb_true_iff, mem_notin. congruence.
Qed.
Lemma map_filter_nodup {A B} (f : A -> B) p l : NoDup (map f l) -> NoDup (map f (filter p l)).
Proof.
  induction l as [|a l IH]; cbn; intros N; [constructor|]. inversion N as [|? ? N1 N2]; subst.
  destruct (p a); cbn; [|now apply IH]. constructor; [|now apply IH].
  intros H. apply N1. apply in_map_iff in H. destruct H as (m & E & H). apply filter_In in H. rewrite <- E. now apply in_map.
Qed.
Lemma leaves_nodup g : graph_ok g -> NoDup (leaves g).
Proof. apply map_filter_nodup. Qed.

Lemma deg_decr d x y : In x (map fst d) -> deg (decr d x) y = if y =? x then (deg d y - 1)%Z else deg d y.
Proof.
  unfold deg, decr. induction d as [|[k v] d IH]; [intros []|]. cbn [map fst snd find]. intros H.
  destruct (k =? x) eqn:E; cbn [fst snd find map].
  - apply Nat.eqb_eq in E. subst. destruct (x =? y) eqn:Q.
    + rewrite Nat.eqb_sym, Q. reflexivity.
    + rewrite (Nat.eqb_sym y x), Q. clear IH H. induction d as [|[k v'] d IH]; [reflexivity|]. cbn [map fst snd find].
      destruct (k =? x) eqn:E2; cbn [fst snd find].
      * apply Nat.eqb_eq in E2. subst. rewrite Q. exact IH.
      * destruct (k =? y); [reflexivity|exact IH].
  - destruct (k =? y) eqn:Q; cbn [fst snd].
    + apply Nat.eqb_eq in Q. subst. now rewrite E.
    + apply IH. destruct H as [->|H]; [now rewrite Nat.eqb_refl in E|exact H].
Qed.
Lemma decr_keys d x : map fst (decr d x) = map fst d.
Proof. unfold decr. rewrite map_map. apply map_ext. intros [k v]. cbn. now destruct (k =? x). Qed.

Lemma relax_all g l : forall d q, NoDup l -> map fst d = leaves g ->
  exists d', fold_left (relax g) l (d, q) =
      (d', q ++ filter (fun y => existsb (Nat.eqb y) (leaves g) && (deg d y =? 1)%Z) l) /\
    map fst d' = leaves g /\
    forall y, deg d' y = if existsb (Nat.eqb y) (leaves g) && existsb (Nat.eqb y) l then (deg d y - 1)%Z else deg d y.
Proof.
  induction l as [|x l IH]; intros d q N K; cbn [fold_left].
  - exists d. cbn. rewrite app_nil_r. repeat split; [exact K|]. intros y. now rewrite andb_false_r.
  - inversion N as [|? ? N1 N2]; subst. unfold relax at 2. cbn [fst snd filter].
    destruct (existsb (Nat.eqb x) (leaves g)) eqn:E; cbn [andb].
    + assert (Ix : In x (map fst d)) by (rewrite K; now apply mem_in).
      assert (D1 : deg (decr d x) x = (deg d x - 1)%Z) by (rewrite deg_decr by exact Ix; now rewrite Nat.eqb_refl).
      assert (K' : map fst (decr d x) = leaves g) by now rewrite decr_keys.
      set (q1 := if (deg d x =? 1)%Z then q ++ [x] else q).
      assert (R : (if (deg (decr d x) x =? 0)%Z then (decr d x, q ++ [x]) else (decr d x, q)) = (decr d x, q1)).
      { unfold q1. rewrite D1. destruct (Z.eqb_spec (deg d x - 1) 0), (Z.eqb_spec (deg d x) 1); (reflexivity || lia). }
      rewrite R. destruct (IH (decr d x) q1 N2 K') as (d' & F & KK & D).
      exists d'. split; [|split; [exact KK|]].
      * etransitivity; [exact F|]. f_equal. rewrite (filter_ext_in _ (fun y => existsb (Nat.eqb y) (leaves g) && (deg d y =? 1)%Z)).
        { unfold q1. destruct (deg d x =? 1)%Z; [now rewrite <- app_assoc|reflexivity]. }
        intros y Hy. rewrite deg_decr by exact Ix. destruct (y =? x) eqn:Q; [|reflexivity].
        apply Nat.eqb_eq in Q. subst. contradiction.
      * intros y. rewrite D, deg_decr by exact Ix. cbn [existsb]. rewrite (Nat.eqb_sym y x) in *.
        destruct (Nat.eqb_spec x y) as [<-|Ne]; cbn [orb].
        -- rewrite E. cbn [andb]. assert (existsb (Nat.eqb x) l = false) as -> by now apply mem_notin. reflexivity.
        -- reflexivity.
    + destruct (IH d q N2 K) as (d' & F & KK & D). exists d'. split; [exact F|]. split; [exact KK|].
      intros y. rewrite D. cbn [existsb]. destruct (Nat.eqb_spec y x) as [->|Ne]; [|reflexivity].
      rewrite E. reflexivity.
Qed.

(** how many inputs are still missing *)
Definition missing (n : gnode) (order : list nat) : nat :=
  length (filter (fun x => negb (existsb (Nat.eqb x) order)) (inputs_of n)).
Lemma count_snoc l : forall order x, NoDup l -> ~ In x order ->
  length (filter (fun y => negb (existsb (Nat.eqb y) order)) l) =
  length (filter (fun y => negb (existsb (Nat.eqb y) (order ++ [x]))) l) + (if existsb (Nat.eqb x) l then 1 else 0).
Proof.
  induction l as [|y l IH]; intros order x N O; [reflexivity|]. inversion N as [|? ? N1 N2]; subst. cbn [filter existsb].
  rewrite existsb_app. cbn [existsb]. rewrite orb_false_r. rewrite (Nat.eqb_sym y x). specialize (IH order x N2 O).
  destruct (Nat.eqb_spec x y) as [<-|Ne].
  - rewrite orb_true_r. cbn [negb orb]. assert (existsb (Nat.eqb x) order = false) as -> by now apply mem_notin.
    cbn [negb length]. assert (existsb (Nat.eqb x) l = false) as E by now apply mem_notin. rewrite E in IH. lia.
  - rewrite orb_false_r. cbn [orb]. destruct (existsb (Nat.eqb y) order); cbn [negb length]; lia.
Qed.
Lemma missing_zero n order : missing n order = 0 <-> forall x, In x (inputs_of n) -> In x order.
Proof.
  unfold missing. rewrite length_zero_iff_nil. split.
  - intros H x I. destruct (existsb (Nat.eqb x) order) eqn:E; [now apply mem_in|].
    assert (X : In x (filter (fun y => negb (existsb (Nat.eqb y) order)) (inputs_of n))) by (apply filter_In; now rewrite E).
    rewrite H in X. destruct X.
  - intros H. destruct (filter _ _) as [|x l] eqn:E; [reflexivity|].
    assert (X : In x (x :: l)) by now left. rewrite <- E in X. apply filter_In in X. destruct X as [I M].
    apply negb_true_iff, mem_notin in M. now destruct M; apply H.
Qed.

Record KInv (g : graph) (d : degrees) (q o : list nat) : Prop := {
  k_nodup : NoDup (o ++ q);
  k_leaves : incl (o ++ q) (leaves g);
  k_keys : map fst d = leaves g;
  k_deg : forall n, In n (g_nodes g) -> In (n_id n) (leaves g) -> deg d (n_id n) = Z.of_nat (missing n o);
  k_ready : forall n, In n (g_nodes g) -> In (n_id n) (leaves g) -> (In (n_id n) (o ++ q) <-> missing n o = 0);
  k_order : forall o1 x o2 n, o = o1 ++ x :: o2 -> In n (g_nodes g) -> n_id n = x -> incl (inputs_of n) o1 }.

Lemma leaf_node g x : In x (leaves g) -> exists n, In n (g_nodes g) /\ n_id n = x.
Proof. unfold leaves. rewrite in_map_iff. intros (n & E & H). apply filter_In in H. exists n. tauto. Qed.

Lemma snoc_split {A} (o1 o2 o : list A) x y : o ++ [y] = o1 ++ x :: o2 ->
  (o2 = [] /\ o1 = o /\ x = y) \/ exists o3, o2 = o3 ++ [y] /\ o = o1 ++ x :: o3.
Proof.
  intros H. destruct o2 as [|z o2] using rev_ind.
  - left. apply app_inj_tail in H. destruct H; auto.
  - right. clear IHo2. exists o2. rewrite app_comm_cons, app_assoc in H. apply app_inj_tail in H. destruct H as [-> ->]. auto.
Qed.

Lemma kahn_step g d x q o d' q' : graph_ok g -> KInv g d (x :: q) o ->
  fold_left (relax g) (node_outputs g x) (d, q) = (d', q') -> KInv g d' q' (o ++ [x]).
Proof.
  intros G [N L K D R O] F.
  destruct (relax_all g (node_outputs g x) d q (outputs_nodup g x G) K) as (d2 & F2 & K2 & D2).
  pose proof (eq_trans (eq_sym F) F2) as F3. injection F3 as <- E. subst q'.
  set (new := filter (fun y => existsb (Nat.eqb y) (leaves g) && (deg d y =? 1)%Z) (node_outputs g x)) in *.
  assert (Ox : ~ In x o) by (intros H; apply NoDup_remove_2 in N; apply N; rewrite in_app_iff; now left).
  assert (M : forall n, In n (g_nodes g) -> missing n o = missing n (o ++ [x]) + (if existsb (Nat.eqb x) (inputs_of n) then 1 else 0)).
  { intros n _. unfold missing. apply count_snoc; [apply dedup_nodup|exact Ox]. }
  assert (OI : forall n, In n (g_nodes g) -> existsb (Nat.eqb (n_id n)) (node_outputs g x) = existsb (Nat.eqb x) (inputs_of n)).
  { intros n H. apply eq_true_iff_eq. rewrite !mem_in, outputs_feeds, feeds_inputs. split.
    - intros (m & Hm & E & I). now rewrite (node_unique g n m G H Hm (eq_sym E)).
    - intros I. exists n. auto. }
  assert (NW : forall n, In n (g_nodes g) -> In (n_id n) (leaves g) ->
            (In (n_id n) new <-> In x (inputs_of n) /\ missing n (o ++ [x]) = 0)).
  { intros n H Hl. unfold new. rewrite filter_In, andb_true_iff, !mem_in, Z.eqb_eq, (D n H Hl).
    assert (In (n_id n) (node_outputs g x) <-> In x (inputs_of n)) as ->.
    { rewrite <- !mem_in. now rewrite OI. }
    pose proof (M n H) as Mn. rewrite <- mem_in. destruct (existsb (Nat.eqb x) (inputs_of n)); intuition lia. }
  assert (Nn : forall y, In y new -> ~ In y (o ++ x :: q)).
  { intros y Hy Ho. assert (Hl : In y (leaves g)) by (unfold new in Hy; apply filter_In in Hy; destruct Hy as [_ Hy]; apply andb_true_iff in Hy; now apply mem_in).
    destruct (leaf_node g y Hl) as (n & H & <-). apply (R n H Hl) in Ho.
    apply (NW n H Hl) in Hy. destruct Hy as [I _]. pose proof (M n H) as Mn. apply mem_in in I. rewrite I in Mn. lia. }
  split.
  - rewrite <- app_assoc. cbn [app]. rewrite app_comm_cons, app_assoc.
    assert (N2 : NoDup new).
    { unfold new. apply NoDup_filter. now apply outputs_nodup. }
    revert Nn. generalize (o ++ x :: q), N. clear - N2. induction l as [|a l IH]; intros Na Nn; [exact N2|].
    inversion Na as [|? ? A1 A2]; subst. cbn. constructor.
    + rewrite in_app_iff. intros [H|H]; [contradiction|]. apply (Nn a H). now left.
    + apply IH; [exact A2|]. intros y Hy H. apply (Nn y Hy). now right.
  - intros y Hy. rewrite <- app_assoc in Hy. cbn [app] in Hy. rewrite app_comm_cons, app_assoc, in_app_iff in Hy.
    destruct Hy as [Hy|Hy]; [now apply L|]. unfold new in Hy. apply filter_In in Hy. destruct Hy as [_ Hy]. apply andb_true_iff in Hy. now apply mem_in.
  - exact K2.
  - intros n H Hl. rewrite D2, OI by exact H. apply mem_in in Hl as Hl'. rewrite Hl'. cbn [andb].
    rewrite (D n H Hl), (M n H). destruct (existsb (Nat.eqb x) (inputs_of n)); lia.
  - intros n H Hl. rewrite <- app_assoc. cbn [app]. rewrite app_comm_cons, app_assoc, in_app_iff.
    rewrite (R n H Hl), (NW n H Hl), <- mem_in. pose proof (M n H) as Mn. destruct (existsb (Nat.eqb x) (inputs_of n)); intuition lia.
  - intros o1 y o2 n E H Ey. apply snoc_split in E. destruct E as [(-> & -> & ->)|(o3 & -> & ->)].
    + assert (Hl : In (n_id n) (leaves g)) by (apply L; rewrite in_app_iff; right; left; congruence).
      assert (Z0 : missing n o = 0) by (apply R; try assumption; rewrite in_app_iff; right; left; congruence).
      intros z Hz. now apply (proj1 (missing_zero n o)).
    + apply (O o1 y o3 n eq_refl H Ey).
Qed.

Lemma kahn_total g : graph_ok g -> forall fuel d q o, KInv g d q o -> length (leaves g) <= fuel + length o ->
  exists order d', kahn fuel g d q o = Ok order /\ KInv g d' [] order.
Proof.
  intros G. induction fuel as [|k IH]; intros d q o I F.
  - destruct q as [|x q]; [exists o, d; now split|]. exfalso.
    pose proof (NoDup_incl_length (k_nodup _ _ _ _ I) (k_leaves _ _ _ _ I)) as X. rewrite app_length in X. cbn in X. lia.
  - destruct q as [|x q]; [exists o, d; now split|]. cbn [kahn].
    destruct (fold_left (relax g) (node_outputs g x) (d, q)) as [d' q'] eqn:E.
    apply IH; [now apply (kahn_step g d x q o)|]. rewrite app_length. cbn [length]. lia.
Qed.

Lemma find_map_key {A} (f : A -> nat) (v : A -> Z) l n : NoDup (map f l) -> In n l ->
  find (fun e => fst e =? f n) (map (fun n => (f n, v n)) l) = Some (f n, v n).
Proof.
  induction l as [|m l IH]; intros N H; [destruct H|]. cbn in N. inversion N as [|? ? N1 N2]; subst. cbn [map find fst].
  destruct H as [->|H]; [now rewrite Nat.eqb_refl|]. destruct (f m =? f n) eqn:E; [|now apply IH].
  apply Nat.eqb_eq in E. exfalso. apply N1. rewrite E. now apply in_map.
Qed.
Lemma leaf_in_filter g n : graph_ok g -> In n (g_nodes g) -> In (n_id n) (leaves g) -> In n (filter (leaf g) (g_nodes g)).
Proof.
  intros G H L. unfold leaves in L. apply in_map_iff in L. destruct L as (m & E & Hm). apply filter_In in Hm as Hm'.
  now rewrite (node_unique g n m G H (proj1 Hm') (eq_sym E)).
Qed.

Lemma kahn_init g : graph_ok g ->
  KInv g (map (fun n => (n_id n, Z.of_nat (length (inputs_of n)))) (filter (leaf g) (g_nodes g)))
         (map fst (filter (fun e => (snd e =? 0)%Z) (map (fun n => (n_id n, Z.of_nat (length (inputs_of n)))) (filter (leaf g) (g_nodes g))))) [].
Proof.
  intros G. set (ls := filter (leaf g) (g_nodes g)).
  assert (Kk : map fst (map (fun n => (n_id n, Z.of_nat (length (inputs_of n)))) ls) = leaves g) by (rewrite map_map; reflexivity).
  assert (Mi : forall n, missing n [] = length (inputs_of n)).
  { intros n. unfold missing. f_equal. induction (inputs_of n) as [|a l IH]; [reflexivity|]. cbn in *. now rewrite IH. }
  split; cbn [app].
  - apply map_filter_nodup. rewrite Kk. now apply leaves_nodup.
  - intros x H. apply in_map_iff in H. destruct H as (e & <- & H). apply filter_In in H. rewrite <- Kk. now apply in_map.
  - exact Kk.
  - intros n H L. rewrite Mi. unfold deg. rewrite (find_map_key n_id _ ls n); [reflexivity|now apply leaves_nodup|].
    now apply leaf_in_filter.
  - intros n H L. rewrite Mi, in_map_iff. split.
    + intros (e & E & I). apply filter_In in I. destruct I as [I Z0]. apply in_map_iff in I. destruct I as (m & <- & I).
      cbn in E, Z0. apply Z.eqb_eq in Z0. apply filter_In in I. rewrite (node_unique g n m G H (proj1 I) (eq_sym E)). lia.
    + intros Z0. exists (n_id n, Z.of_nat (length (inputs_of n))). split; [reflexivity|]. apply filter_In.
      split; [|cbn; rewrite Z0; reflexivity]. apply in_map_iff. exists n. split; [reflexivity|]. now apply leaf_in_filter.
  - intros o1 x o2 n E. destruct o1; discriminate.
Qed.

(** the whole sort without closure *)
Lemma sort_spec g : graph_ok g -> exists order d, KInv g d [] order /\
  topological_sort g None = (if length order =? length (leaves g) then Ok order else Err ValueError).
Proof.
  intros G. unfold topological_sort. set (ls := filter (leaf g) (g_nodes g)).
  assert (Ll : length ls = length (leaves g)) by (unfold leaves; now rewrite map_length).
  destruct (kahn_total g G (length ls) _ _ [] (kahn_init g G)) as (order & d & E & I); [cbn; lia|].
  exists order, d. split; [exact I|]. fold ls in E. rewrite E. cbn [rbind]. rewrite Ll. now destruct (length order =? length (leaves g)).
Qed.

Lemma order_full g d order : KInv g d [] order -> length order = length (leaves g) -> Permutation order (leaves g).
Proof.
  intros [N L _ _ _ _] E. rewrite app_nil_r in N, L. apply NoDup_Permutation_bis; try assumption. lia.
Qed.

Lemma before_of_split {A} (l1 l2 : list A) x y : In x l1 -> before (l1 ++ y :: l2) x y.
Proof. intros H. apply in_split in H. destruct H as (a & b & ->). exists a, b, l2. now rewrite <- app_assoc. Qed.

Theorem sort_order g order : graph_ok g -> topological_sort g None = Ok order ->
  NoDup order /\ (forall x, In x order <-> is_leaf g x) /\
  forall a b, is_leaf g b -> feeds g a b -> before order a b.
Proof.
  intros G H. destruct (sort_spec g G) as (o & d & I & E). rewrite H in E.
  destruct (length o =? length (leaves g)) eqn:Q; [|discriminate]. injection E as ->. apply Nat.eqb_eq in Q.
  pose proof (order_full g d o I Q) as P. destruct I as [N L _ _ _ O]. rewrite app_nil_r in N.
  split; [exact N|]. split.
  - intros x. rewrite <- leaves_in. split; apply Permutation_in; [exact P|now apply Permutation_sym].
  - intros a b Lb Fe. apply feeds_inputs in Fe. destruct Fe as (n & Hn & En & Ia).
    apply leaves_in in Lb. apply (Permutation_in b (Permutation_sym P)) in Lb. apply in_split in Lb.
    destruct Lb as (o1 & o2 & ->). apply before_of_split. now apply (O o1 b o2 n).
Qed.

Lemma before_lt {A} (l : list A) x y : NoDup l -> before l x y ->
  exists i j, nth_error l i = Some x /\ nth_error l j = Some y /\ i < j.
Proof.
  intros N (l1 & l2 & l3 & ->). exists (length l1), (length l1 + S (length l2)). repeat split; [| |lia].
  - rewrite nth_error_app2 by lia. now rewrite Nat.sub_diag.
  - rewrite nth_error_app2 by lia. replace (length l1 + S (length l2) - length l1) with (S (length l2)) by lia. cbn.
    rewrite nth_error_app2 by lia. now rewrite Nat.sub_diag.
Qed.

Theorem sort_acyclic g order : graph_ok g -> topological_sort g None = Ok order -> ~ cyclic g /\ leaf_inputs g.
Proof.
  intros G H. destruct (sort_order g order G H) as (N & L & B). split.
  - intros (x & Lx & C).
    assert (X : forall a b, clos_trans nat (feeds g) a b -> is_leaf g b ->
              exists i j, nth_error order i = Some a /\ nth_error order j = Some b /\ i < j).
    { intros a b T. apply clos_trans_tn1 in T. induction T as [b Fe|b c Fe T IH]; intros Lb.
      - apply before_lt; [exact N|]. now apply B.
      - destruct (before_lt order b c N (B b c Lb Fe)) as (i & j & Hi & Hj & Lt).
        destruct IH as (i' & j' & Hi' & Hj' & Lt'); [apply L; eapply nth_error_In; eauto|].
        assert (j' = i). { apply (proj1 (NoDup_nth_error order) N); [apply nth_error_Some; congruence|congruence]. }
        subst. exists i', j. repeat split; try assumption. lia. }
    destruct (X x x C Lx) as (i & j & Hi & Hj & Lt).
    assert (i = j) by (apply (proj1 (NoDup_nth_error order) N); [apply nth_error_Some; congruence|congruence]). lia.
  - intros a b Lb Fe. destruct (B a b Lb Fe) as (l1 & l2 & l3 & E). apply L. rewrite E, in_app_iff. right. now left.
Qed.

(** a finite set in which every element has a predecessor contains a cycle *)
Inductive chain {A} (R : A -> A -> Prop) : list A -> Prop :=
| chain_one x : chain R [x]
| chain_cons x y l : R x y -> chain R (y :: l) -> chain R (x :: y :: l).
Lemma chain_trans {A} (R : A -> A -> Prop) l : forall x y, chain R (x :: l) -> In y l -> clos_trans A R x y.
Proof.
  induction l as [|z l IH]; intros x y C H; [destruct H|]. inversion C; subst. destruct H as [->|H]; [now constructor|].
  apply t_trans with z; [now constructor|]. now apply IH.
Qed.
Lemma chain_dup {A} (R : A -> A -> Prop) (dec : forall a b : A, {a = b} + {a <> b}) l : chain R l -> ~ NoDup l -> exists x, In x l /\ clos_trans A R x x.
Proof.
  induction l as [|x l IH]; intros C N; [destruct N; constructor|].
  destruct (in_dec dec x l) as [H|H].
  - exists x. split; [now left|]. now apply (chain_trans R l).
  - destruct l as [|y l]; [destruct N; repeat constructor; intros []|]. inversion C; subst.
    destruct IH as (z & Hz & T); [assumption| |exists z; split; [now right|exact T]].
    intros N2. apply N. now constructor.
Qed.
Lemma finite_cycle {A} (R : A -> A -> Prop) (dec : forall a b : A, {a = b} + {a <> b}) (S : list A) :
  S <> [] -> (forall x, In x S -> exists y, In y S /\ R y x) -> exists x, In x S /\ clos_trans A R x x.
Proof.
  intros Ne H.
  assert (X : forall n, exists l, chain R l /\ length l = Datatypes.S n /\ incl l S).
  { induction n as [|n (l & C & Ln & I)].
    - destruct S as [|x S]; [congruence|]. exists [x]. repeat split; [constructor|]. intros y [<-|[]]. now left.
    - destruct l as [|x l]; [discriminate|]. destruct (H x) as (y & Hy & Ry); [apply I; now left|].
      exists (y :: x :: l). repeat split; [now constructor|cbn in *; lia|]. intros z [<-|Hz]; [exact Hy|now apply I]. }
  destruct (X (length S)) as (l & C & Ln & I).
  destruct (chain_dup R dec l C) as (x & Hx & T).
  - intros N. pose proof (NoDup_incl_length N I). lia.
  - exists x. split; [now apply I|exact T].
Qed.

Theorem sort_raises g : graph_ok g -> leaf_inputs g -> ~ (exists order, topological_sort g None = Ok order) ->
  topological_sort g None = Err ValueError /\ cyclic g.
Proof.
  intros G LI H. destruct (sort_spec g G) as (o & d & I & E).
  destruct (length o =? length (leaves g)) eqn:Q; [exfalso; eauto|]. split; [exact E|]. apply Nat.eqb_neq in Q.
  destruct I as [N L _ _ R _]. rewrite app_nil_r in N, L.
  set (rest := filter (fun x => negb (existsb (Nat.eqb x) o)) (leaves g)).
  assert (Ri : forall x, In x rest <-> In x (leaves g) /\ ~ In x o).
  { intros x. unfold rest. rewrite filter_In, negb_true_iff, mem_notin. tauto. }
  destruct (finite_cycle (feeds g) Nat.eq_dec rest) as (x & Hx & T).
  - intros E0. apply Q. assert (incl (leaves g) o).
    { intros x Hx. destruct (in_dec Nat.eq_dec x o) as [?|Nx]; [assumption|]. assert (In x rest) by now apply Ri. rewrite E0 in H0. destruct H0. }
    pose proof (NoDup_incl_length N L). pose proof (NoDup_incl_length (leaves_nodup g G) H0). lia.
  - intros x Hx. apply Ri in Hx. destruct Hx as [Hl No]. destruct (leaf_node g x Hl) as (n & Hn & <-).
    assert (M : missing n o <> 0).
    { intros M. apply No. rewrite <- (app_nil_r o). now apply R. }
    destruct (filter (fun y => negb (existsb (Nat.eqb y) o)) (inputs_of n)) as [|y l] eqn:F.
    + unfold missing in M. rewrite F in M. now destruct M.
    + assert (Hy : In y (y :: l)) by now left. rewrite <- F in Hy. apply filter_In in Hy. destruct Hy as [Hy Ny].
      apply negb_true_iff, mem_notin in Ny. assert (Fe : feeds g y (n_id n)) by (apply feeds_inputs; eauto).
      exists y. split; [|exact Fe]. apply Ri. split; [|exact Ny]. apply leaves_in. apply (LI y (n_id n)); [now apply leaves_in|exact Fe].
  - exists x. apply Ri in Hx. split; [now apply leaves_in|exact T].
Qed.

Lemma filter_before {A} (f : A -> bool) l x y : before l x y -> f x = true -> f y = true -> before (filter f l) x y.
Proof.
  intros (l1 & l2 & l3 & ->) Hx Hy. exists (filter f l1), (filter f l2), (filter f l3).
  rewrite filter_app. cbn [filter]. rewrite Hx, filter_app. cbn [filter]. now rewrite Hy.
Qed.
Theorem sort_closure g order c : graph_ok g -> topological_sort g None = Ok order ->
  ((forall x, In x c -> is_leaf g x) ->
    exists sub, topological_sort g (Some c) = Ok sub /\ NoDup sub /\ (forall x, In x sub <-> In x c) /\
      forall x y, before order x y -> In x c -> In y c -> before sub x y) /\
  ((exists x, In x c /\ ~ is_leaf g x) -> topological_sort g (Some c) = Err ValueError).
Proof.
  intros G H. destruct (sort_order g order G H) as (N & L & B).
  unfold topological_sort in *. set (ls := filter (leaf g) (g_nodes g)) in *.
  destruct (kahn (length ls) g _ _ []) as [o|]; [|discriminate]. cbn [rbind] in *.
  destruct (length o =? length ls) eqn:Q; [|discriminate]. cbn [negb] in *. injection H as ->.
  assert (Ml : forall x, existsb (Nat.eqb x) (map n_id ls) = true <-> is_leaf g x).
  { intros x. rewrite mem_in. apply leaves_in. }
  split.
  - intros A. assert (existsb (fun x => negb (existsb (Nat.eqb x) (map n_id ls))) c = false) as ->.
    { apply not_true_iff_false. intros X. apply existsb_exists in X. destruct X as (x & Hx & X). apply A, Ml in Hx. rewrite Hx in X. discriminate. }
    exists (filter (fun x => existsb (Nat.eqb x) c) order). split; [reflexivity|]. split; [now apply NoDup_filter|]. split.
    + intros x. rewrite filter_In, mem_in, L. split; [tauto|]. intros Hx. split; [now apply A|exact Hx].
    + intros x y Hb Hx Hy. apply filter_before; [exact Hb| |]; now apply mem_in.
  - intros (x & Hx & Nx). assert (existsb (fun x => negb (existsb (Nat.eqb x) (map n_id ls))) c = true) as ->; [|reflexivity].
    apply existsb_exists. exists x. split; [exact Hx|]. apply negb_true_iff. apply not_true_iff_false. now rewrite Ml.
Qed.

Theorem sort_exactly g : graph_ok g ->
  ((exists order, topological_sort g None = Ok order) <-> ~ cyclic g /\ leaf_inputs g) /\
  ((exists order, topological_sort g None = Ok order) \/ topological_sort g None = Err ValueError).
Proof.
  intros G. assert (D : (exists order, topological_sort g None = Ok order) \/ topological_sort g None = Err ValueError).
  { destruct (sort_spec g G) as (o & d & _ & E). rewrite E. destruct (_ =? _); eauto. }
  split; [split|exact D].
  - intros (o & H). exact (sort_acyclic g o G H).
  - intros [A L]. destruct D as [D|D]; [exact D|]. exfalso. apply A. apply (sort_raises g G L). rewrite D. intros [? ?]. discriminate.
Qed.
