(** Proofs about the ratio. *)
From Coq Require Import List Arith Bool QArith Lia Lqa.
From Verif Require Import Prelude SnrModel SnrSpec.
Import ListNotations.
Local Open Scope Q_scope.

Lemma sq_nonneg : forall x : Q, 0 <= x * x.
Proof. intro x. destruct (Qlt_le_dec x 0); nra. Qed.
Lemma total_nonneg : forall l, Forall (fun x => 0 <= x) l -> 0 <= total l.
Proof. unfold total. induction 1; cbn; lra. Qed.
Lemma len_nonneg : forall (A : Type) (l : list A), 0 <= inject_Z (Z.of_nat (length l)).
Proof. intros. change 0 with (inject_Z 0). rewrite <- Zle_Qle. lia. Qed.
Lemma div_mono : forall a b n, a <= b -> 0 <= n -> a / n <= b / n.
Proof. intros a b n H N. unfold Qdiv. apply Qmult_le_compat_r; [exact H|]. now apply Qinv_le_0_compat. Qed.
Lemma div_nonneg : forall a n, 0 <= a -> 0 <= n -> 0 <= a / n.
Proof. intros a n H N. unfold Qdiv. apply Qmult_le_0_compat; [exact H|]. now apply Qinv_le_0_compat. Qed.
Lemma mean_nonneg : forall l, Forall (fun x => 0 <= x) l -> 0 <= mean l.
Proof. intros l H. apply div_nonneg; [now apply total_nonneg|apply len_nonneg]. Qed.
Lemma squares_nonneg : forall l, Forall (fun x => 0 <= x) (map (fun x : Q => x * x) l).
Proof. induction l; cbn; constructor; auto. apply sq_nonneg. Qed.
Lemma mean_square_nonneg : forall l, 0 <= mean_square l.
Proof. intro l. apply mean_nonneg, squares_nonneg. Qed.

Lemma error_total : forall a b, total (map (fun x => x * x) (difference a b)) == squared_error a b.
Proof.
  induction a as [|x a IH]; intros [|y b]; cbn; try reflexivity. specialize (IH b). unfold total, difference in *. cbn in *. rewrite IH. reflexivity.
Qed.
Lemma difference_length : forall a b, length b = length a -> length (difference a b) = length a.
Proof. intros a b H. unfold difference. rewrite map_length, combine_length. lia. Qed.
Lemma error_mono : forall a b c, length b = length a -> length c = length a -> squared_error a b <= squared_error a c ->
  mean_square (difference a b) <= mean_square (difference a c).
Proof.
  intros a b c B C H. unfold mean_square, mean. rewrite !map_length, !difference_length by assumption.
  apply div_mono; [|apply len_nonneg]. now rewrite !error_total.
Qed.

Lemma ratio_mono : forall s a b, 0 <= s -> 0 < a -> a <= b -> s / b <= s / a.
Proof.
  intros s a b S A H. apply Qle_shift_div_r; [lra|].
  assert (E : s == s / a * a) by (field; lra). assert (0 <= s / a) by (apply div_nonneg; lra).
  rewrite E at 1. rewrite (Qmult_comm (s / a) a), (Qmult_comm (s / a) b). now apply Qmult_le_compat_r.
Qed.

Definition ratios (eps : Q) (x y : list (list Q)) : list Q :=
  map (fun p => mean_square (fst p) / (mean_square (difference (fst p) (snd p)) + eps)) (combine x y).

Lemma ratios_mono : forall eps x y z, 0 < eps -> nearer x y z ->
  total (ratios eps x z) <= total (ratios eps x y) /\ length (ratios eps x z) = length (ratios eps x y).
Proof.
  intros eps x y z E H. unfold total. induction H as [|a b c x y z B C D H [IH IL]]; cbn [ratios combine map fold_right fst snd length]; [split; [lra|reflexivity]|].
  split; [|unfold ratios in IL; now f_equal]. apply Qplus_le_compat; [|exact IH].
  apply ratio_mono.
  - apply mean_square_nonneg.
  - pose proof (mean_square_nonneg (difference a b)). lra.
  - pose proof (error_mono a b c B C D). lra.
Qed.

Lemma nearer_shape : forall x y z, nearer x y z -> shape x = shape y /\ shape x = shape z.
Proof. induction 1 as [|a b c x y z B C D H [I J]]; cbn [shape map]; [auto|]. unfold shape in *. split; congruence. Qed.

Lemma sqnr_ok : forall x y eps, shape x = shape y -> sqnr x y eps = Ok (mean (ratios eps x y)).
Proof. intros x y eps H. unfold sqnr. destruct (list_eq_dec Nat.eq_dec (shape x) (shape y)); [reflexivity|contradiction]. Qed.
Lemma sqnr_mono : forall x y z eps, 0 < eps -> nearer x y z -> exists p q,
  sqnr x y eps = Ok p /\ sqnr x z eps = Ok q /\ 0 <= q /\ q <= p.
Proof.
  intros x y z eps E H. destruct (nearer_shape _ _ _ H) as [S1 S2]. exists (mean (ratios eps x y)), (mean (ratios eps x z)).
  rewrite !sqnr_ok by assumption. split; [reflexivity|]. split; [reflexivity|]. split.
  - apply mean_nonneg. apply Forall_forall. intros r Hr. unfold ratios in Hr. apply in_map_iff in Hr as ([a b] & <- & _). cbn [fst snd].
    apply div_nonneg; [apply mean_square_nonneg|]. pose proof (mean_square_nonneg (difference a b)). lra.
  - destruct (ratios_mono eps x y z E H) as [T L]. unfold mean. rewrite L. apply div_mono; [exact T|apply len_nonneg].
Qed.

Lemma error_self : forall a, squared_error a a == 0.
Proof. induction a as [|x a IH]; cbn; [reflexivity|]. rewrite IH. ring. Qed.
Lemma error_nonneg : forall a b, 0 <= squared_error a b.
Proof. induction a as [|x a IH]; intros [|y b]; cbn; try lra. pose proof (sq_nonneg (x - y)). specialize (IH b). lra. Qed.
Lemma self_nearest : forall x y, shape x = shape y -> nearer x x y.
Proof.
  induction x as [|a x IH]; intros [|b y] H; try discriminate; constructor; auto.
  - injection H as H _. now symmetry.
  - rewrite error_self. apply error_nonneg.
  - apply IH. now injection H.
Qed.

Lemma squares_energy : forall a, total (map (fun x => x * x) a) == energy a.
Proof. unfold total. induction a as [|x a IH]; cbn; [reflexivity|]. now rewrite IH. Qed.
Lemma len_pos : forall (A : Type) (l : list A), l <> [] -> 0 < inject_Z (Z.of_nat (length l)).
Proof. intros A [|x l] H; [contradiction|]. change 0 with (inject_Z 0). rewrite <- Zlt_Qlt. cbn [length]. lia. Qed.
Lemma single : forall a b eps, length b = length a -> a <> [] -> 0 < eps ->
  mean (ratios eps [a] [b]) == energy a / (squared_error a b + inject_Z (Z.of_nat (length a)) * eps).
Proof.
  intros a b eps L N E. cbn [ratios combine map fst snd]. unfold mean at 1. cbn [total fold_right length].
  unfold mean_square, mean. rewrite !map_length, difference_length by exact L. rewrite squares_energy, error_total.
  pose proof (len_pos _ a N) as P. pose proof (error_nonneg a b) as R. set (n := inject_Z (Z.of_nat (length a))) in *.
  change (inject_Z (Z.of_nat 1)) with 1.
  assert (0 <= n * eps) by (apply Qmult_le_0_compat; lra).
  assert (0 < n * eps) by nra.
  field. split; lra.
Qed.
Lemma total_app : forall a b, total (a ++ b) == total a + total b.
Proof. unfold total. induction a as [|x a IH]; intro b; cbn; [ring|]. rewrite IH. ring. Qed.
Lemma combine_app : forall (A B : Type) (a : list A) (c : list B) b d, length a = length c ->
  combine (a ++ b) (c ++ d) = combine a c ++ combine b d.
Proof. induction a as [|x a IH]; intros [|y c] b d H; try discriminate; [reflexivity|]. cbn. f_equal. apply IH. now injection H. Qed.
Lemma shape_length : forall x y, shape x = shape y -> length x = length y.
Proof. intros x y H. apply (f_equal (@length nat)) in H. unfold shape in H. now rewrite !map_length in H. Qed.
Lemma mean_total : forall l, l <> [] -> mean l * inject_Z (Z.of_nat (length l)) == total l.
Proof. intros l N. unfold mean. pose proof (len_pos _ l N). field. lra. Qed.
Lemma ratios_length : forall eps x y, shape x = shape y -> length (ratios eps x y) = length x.
Proof. intros eps x y H. apply shape_length in H. unfold ratios. rewrite map_length, combine_length. lia. Qed.
Lemma ratios_total : forall eps x y, shape x = shape y -> x <> [] ->
  mean (ratios eps x y) * inject_Z (Z.of_nat (length x)) == total (ratios eps x y).
Proof.
  intros eps x y H N. rewrite <- (ratios_length eps x y H). apply mean_total. intro E.
  apply (f_equal (@length Q)) in E. rewrite ratios_length in E by exact H. destruct x; [contradiction|discriminate].
Qed.
Lemma batches : forall eps x y x' y', shape x = shape y -> shape x' = shape y' -> x <> [] -> x' <> [] ->
  mean (ratios eps (x ++ x') (y ++ y')) * inject_Z (Z.of_nat (length (x ++ x')))
  == mean (ratios eps x y) * inject_Z (Z.of_nat (length x)) + mean (ratios eps x' y') * inject_Z (Z.of_nat (length x')).
Proof.
  intros eps x y x' y' H H' N N'. rewrite !ratios_total; try assumption.
  - unfold ratios. rewrite combine_app by now apply shape_length. rewrite map_app. apply total_app.
  - unfold shape in *. now rewrite !map_app, H, H'.
  - destruct x; [contradiction|discriminate].
Qed.
