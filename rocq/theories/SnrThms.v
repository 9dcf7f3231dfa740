(** C166: the ratio orders tensors by their distance to the original. *)
From Coq Require Import List Arith Bool QArith Lia Lqa.
From Verif Require Import Prelude SnrModel SnrSpec SnrProofs.
Import ListNotations.
Local Open Scope Q_scope.

(** A tensor that is nearer in each entry of the batch has no smaller ratio; ratios are not negative. *)
Theorem C166_nearer_partial : forall x y z eps, 0 < eps -> nearer x y z -> exists p q,
  sqnr x y eps = Ok p /\ sqnr x z eps = Ok q /\ 0 <= q /\ q <= p.
Proof. exact sqnr_mono. Qed.
Print Assumptions C166_nearer_partial.

(** No tensor has a higher ratio than the original itself. *)
Theorem C166_original_is_best : forall x y eps q, 0 < eps -> sqnr x y eps = Ok q -> exists p, sqnr x x eps = Ok p /\ q <= p.
Proof.
  intros x y eps q E H. assert (S : shape x = shape y).
  { unfold sqnr in H. destruct (list_eq_dec Nat.eq_dec (shape x) (shape y)); [assumption|discriminate]. }
  destruct (sqnr_mono x x y eps E (self_nearest x y S)) as (p & q' & P & Q' & _ & L).
  rewrite Q' in H. injection H as <-. now exists p.
Qed.
Print Assumptions C166_original_is_best.

(** Tensors of different shapes are rejected, and only these. *)
Theorem C166_shapes : forall x y eps,
  (map (@length Q) x <> map (@length Q) y -> sqnr x y eps = Err ValueError)
  /\ (map (@length Q) x = map (@length Q) y -> exists q, sqnr x y eps = Ok q).
Proof.
  intros x y eps. unfold sqnr. change (map (@length Q)) with shape.
  destruct (list_eq_dec Nat.eq_dec (shape x) (shape y)); split; intro H; try contradiction; eauto.
Qed.
Print Assumptions C166_shapes.

(** The ratio of a batch of one entry. *)
Theorem C166_one_entry : forall a b eps, length b = length a -> a <> [] -> 0 < eps -> exists q,
  sqnr [a] [b] eps = Ok q /\ q == energy a / (squared_error a b + inject_Z (Z.of_nat (length a)) * eps).
Proof.
  intros a b eps L N E. exists (mean (ratios eps [a] [b])). split; [|now apply single].
  apply sqnr_ok. cbn. now rewrite L.
Qed.
Print Assumptions C166_one_entry.

(** The ratio of two batches put together is the average of theirs, weighted by their sizes. *)
Theorem C166_batches : forall x y x' y' eps p q, x <> [] -> x' <> [] ->
  sqnr x y eps = Ok p -> sqnr x' y' eps = Ok q -> exists r,
  sqnr (x ++ x') (y ++ y') eps = Ok r
  /\ r * inject_Z (Z.of_nat (length (x ++ x'))) == p * inject_Z (Z.of_nat (length x)) + q * inject_Z (Z.of_nat (length x')).
Proof.
  intros x y x' y' eps p q N N' P R.
  assert (S : shape x = shape y) by (unfold sqnr in P; destruct (list_eq_dec Nat.eq_dec (shape x) (shape y)); [assumption|discriminate]).
  assert (S' : shape x' = shape y') by (unfold sqnr in R; destruct (list_eq_dec Nat.eq_dec (shape x') (shape y')); [assumption|discriminate]).
  rewrite sqnr_ok in P, R by assumption. injection P as <-. injection R as <-.
  exists (mean (ratios eps (x ++ x') (y ++ y'))). split; [|now apply batches].
  apply sqnr_ok. unfold shape in *. now rewrite !map_app, S, S'.
Qed.
Print Assumptions C166_batches.

(** A tensor of zeros has the ratio zero (minus infinity in decibels) even if it is reproduced exactly, and the
    ratio of an exact copy changes when both tensors are scaled. *)
Theorem C166_exact_copy_refuted : forall eps, 0 < eps -> exists z a b,
  sqnr [[0]] [[0]] eps = Ok z /\ z == 0 /\ sqnr [[1]] [[1]] eps = Ok a /\ sqnr [[2]] [[2]] eps = Ok b /\ ~ a == b.
Proof.
  intros eps E.
  destruct (C166_one_entry [0] [0] eps eq_refl ltac:(discriminate) E) as (z & Z & Ez).
  destruct (C166_one_entry [1] [1] eps eq_refl ltac:(discriminate) E) as (a & A & Ea).
  destruct (C166_one_entry [2] [2] eps eq_refl ltac:(discriminate) E) as (b & B & Eb).
  exists z, a, b. cbn [energy squared_error length] in *. change (inject_Z (Z.of_nat 1)) with 1 in *.
  assert (X : z == 0) by (rewrite Ez; field; lra).
  assert (Y : a * eps == 1) by (rewrite Ea; field; lra).
  assert (W : b * eps == 4) by (rewrite Eb; field; lra).
  repeat split; auto. intro H. rewrite H, W in Y. discriminate.
Qed.
Print Assumptions C166_exact_copy_refuted.

(** A batch of two entries; the second tensor is nearer than the third. *)
Example C166_nonvacuous :
  nearer [[1; 2]; [3; 0]] [[1; 1]; [3; 1]] [[0; 1]; [5; 1]]
  /\ (exists q, sqnr [[1; 2]; [3; 0]] [[1; 1]; [3; 1]] 1 = Ok q /\ q == 7 # 3)
  /\ (exists q, sqnr [[1; 2]; [3; 0]] [[0; 1]; [5; 1]] 1 = Ok q /\ q == 71 # 56)
  /\ sqnr [[1; 2]] [[1]] 1 = Err ValueError.
Proof.
  split; [repeat constructor; discriminate|]. split; [eexists; split; [reflexivity|vm_compute; reflexivity]|].
  split; [eexists; split; [reflexivity|vm_compute; reflexivity]|reflexivity].
Qed.
