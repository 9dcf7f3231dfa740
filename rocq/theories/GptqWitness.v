(** Concrete runs of the GPTQ model, and what it refuses. *)
From Verif Require Import Prelude TilingModel TilingSpec TilingProofs GranularityModel GranularitySpec GranularityProofs
  AffineModel AffineSpec AffineProofs AffineTensorProofs FuseModel FuseSpec FuseFloatProofs GptqModel GptqSpec
  GptqHessianProofs GptqColumnProofs GptqLoopProofs GptqTopProofs GptqFixProofs GptqGroupProofs GptqTotalProofs.
From Verif Require RangeSpec.
From Coq Require Import QArith Qabs Qminmax Qfield Lqa Permutation.
Local Open Scope nat_scope.

(** ** Refusals *)
Section Reject.
  Variable estimate : quantizer -> tensor Q -> result quantizer.
  Variable argsort : list Q -> list nat.
  Variable cholesky : nat -> (nat -> nat -> Q) -> result (nat -> nat -> Q).
  Variables (fmt : format) (weight : tensor Q) (s : store) (ds : list (list nat)) (damp : Q) (actorder : bool).

  Lemma reject_quantizer l bs : gptq estimate argsort cholesky l fmt weight None s ds bs damp actorder = Err ValueError.
  Proof. reflexivity. Qed.

  Lemma reject_conv u q bs : q_gran q <> PerTensor -> q_gran q <> PerChannel [0%Z] ->
    gptq estimate argsort cholesky (Conv2d u) fmt weight (Some q) s ds bs damp actorder = Err NotImplementedError.
  Proof.
    intros H1 H2. unfold gptq, check_granularity. destruct (q_gran q) as [|dm|? ? ? st|]; [congruence| |destruct st; reflexivity|reflexivity].
    destruct dm as [|[| |] [|]]; try reflexivity. congruence.
  Qed.

  Lemma reject_loose q a b c bs : q_gran q = PerBlock a b c false ->
    gptq estimate argsort cholesky Linear fmt weight (Some q) s ds bs damp actorder = Err ValueError.
  Proof. intros H. unfold gptq, check_granularity. now rewrite H. Qed.

  Lemma reject_zero_block l q r : gptq estimate argsort cholesky l fmt weight (Some q) s ds 0 damp actorder <> Ok r.
  Proof. destruct r as [[w' q'] s']. intros H. apply gptq_steps in H. destruct H as (? & ? & ? & ? & ? & ? & ? & _ & _ & _ & _ & K). cbn zeta in K. now destruct K as (_ & _ & X & _). Qed.

  Lemma reject_channels q dims o i bs r :
    q_gran q = PerChannel dims -> dims <> [0%Z] -> dims <> [1%Z] -> dims <> [0%Z; 1%Z] ->
    (forall t q', estimate q t = Ok q' -> q_gran q' = q_gran q) ->
    shape weight = [o; i] -> 0 < i -> (0 < bs)%Z ->
    gptq estimate argsort cholesky Linear fmt weight (Some q) s ds bs damp actorder <> Ok r.
  Proof.
    intros G N1 N2 N3 He Sh Hi Hb. destruct r as [[w' q'] s']. intros H. apply gptq_steps in H.
    destruct H as (rows & cols & q1 & h & hinv & grp & st' & _ & E2 & E3 & _ & K). cbn zeta in K. destruct K as (_ & _ & _ & (w & E8) & _).
    rewrite Sh in E2. injection E2 as <- <-. rewrite (proj2 (Z.ltb_ge bs 0)) in E8 by lia.
    assert (G1 : q_gran q1 = PerChannel dims) by (rewrite (He _ _ E3); exact G).
    unfold range_step in E8. set (b := Z.to_nat bs) in *. assert (0 < b) by (unfold b; lia).
    assert (P : 0 < (i + b - 1) / b) by (apply Nat.div_str_pos; lia). destruct ((i + b - 1) / b) as [|m]; [lia|].
    cbn [seq map blocks_loop] in E8. cbn [Nat.mul] in E8.
    destruct (block_step _ _ _ _ _ _ _ _) as [wst|] eqn:E; [|discriminate]. clear E8. unfold block_step in E. cbn [Nat.add] in E.
    destruct (columns_loop _ _ _ _ _ _ _ _ _) as [st1|] eqn:L; [|discriminate]. clear E. rewrite Nat.sub_0_r in L.
    assert (Hm : 0 < Nat.min b i) by lia. destruct (Nat.min b i) as [|k]; [lia|]. cbn [seq columns_loop] in L.
    destruct (column_step _ _ _ _ _ _ _ _ _) as [st2|] eqn:C; [|discriminate]. clear L. unfold column_step in C. cbn [g_q] in C.
    assert (Q : exists q2, q_gran q2 = PerChannel dims /\
      match nth_error (order_for argsort actorder i h) 0 with
      | None => False
      | Some col => exists y, column_quantizer q2 o i col (map (fun r : nat => nth (r * i + nth 0 (order_for argsort actorder i h) 0) (data weight) 0%Q) (seq 0 o)) = Ok y
      end).
    { destruct grp as [[[cb nrb] ncb]|].
      - destruct (0 mod cb =? 0).
        + destruct (recompute _ _ _ _ _ _ _ _) as [q2|] eqn:R; [|discriminate]. cbn [rbind] in C. exists q2. split.
          * unfold recompute in R. destruct (group_rows _ _ _ _ _ _) as [g|]; [|discriminate]. cbn [rbind] in R.
            destruct (rmapM list_min g) as [mn|]; [|discriminate]. cbn [rbind] in R. destruct (rmapM list_max g) as [mx|]; [|discriminate].
            cbn [rbind] in R. apply update_spec in R. destruct R as (? & ? & _ & _ & -> & _). exact G1.
          * destruct (nth_error _ 0); [|discriminate]. destruct (column_quantizer _ _ _ _ _) eqn:Y; [|discriminate]. eexists. reflexivity.
        + cbn [rbind] in C. exists q1. split; [exact G1|]. destruct (nth_error _ 0); [|discriminate].
          destruct (column_quantizer _ _ _ _ _) eqn:Y; [|discriminate]. eexists. reflexivity.
      - cbn [rbind] in C. exists q1. split; [exact G1|]. destruct (nth_error _ 0); [|discriminate].
        destruct (column_quantizer _ _ _ _ _) eqn:Y; [|discriminate]. eexists. reflexivity. }
    destruct Q as (q2 & G2 & Q). destruct (nth_error _ 0) as [col|]; [|exact Q]. destruct Q as [y Y].
    unfold column_quantizer in Y. rewrite G2 in Y.
    assert (T : column_params (PerChannel dims) o i (q_scale q2) col = Err TypeError).
    { unfold column_params. destruct dims as [|[|p|p] dims']; try reflexivity.
      - destruct dims' as [|[|p'|p'] dims'']; [congruence|reflexivity| |reflexivity].
        destruct p'; try reflexivity. destruct dims''; [congruence|reflexivity].
      - destruct p; try reflexivity. destruct dims'; [congruence|reflexivity]. }
    rewrite T in Y. discriminate.
  Qed.

  (** A negative block size skips the loop: the weight becomes zero. *)
  Lemma negative_block l q bs w' q' s' : (bs < 0)%Z ->
    gptq estimate argsort cholesky l fmt weight (Some q) s ds bs damp actorder = Ok (w', q', s') ->
    forall x, In x (data w') -> (x == 0)%Q.
  Proof.
    intros Hb H. apply gptq_steps in H. destruct H as (rows & cols & q1 & h & hinv & grp & st' & _ & _ & _ & _ & K).
    cbn zeta in K. destruct K as (_ & _ & _ & (w & E8) & _ & ->). rewrite (proj2 (Z.ltb_lt bs 0)) in E8 by lia.
    cbn [blocks_loop] in E8. injection E8 as _ <-. cbn [data g_quant]. intros x Hx. apply in_flat_map in Hx.
    destruct Hx as (r & Hr & Hx). apply in_map_iff in Hx. destruct Hx as (c & <- & _). apply in_seq in Hr. unfold get.
    rewrite nth_repeat. apply cast_zero.
  Qed.
End Reject.

(** ** Hessian *)

Definition one_sample : store := fun _ => mkAct (mkT [1; 1; 1] [1%Q]) 1 true.

Lemma second_layer_differs :
  exists h s1 h' s2, calculate_hessian Linear 1 one_sample [[0]] = Ok (h, s1) /\
    calculate_hessian Linear 1 s1 [[0]] = Ok (h', s2) /\ (h 0%nat 0%nat == 2)%Q /\ (h' 0%nat 0%nat == 4)%Q.
Proof. do 4 eexists. split; [reflexivity|]. split; [reflexivity|]. split; vm_compute; reflexivity. Qed.

Lemma reuse_differs :
  exists h s1, calculate_hessian Linear 1 one_sample [[0]; [0]] = Ok (h, s1) /\ (h 0%nat 0%nat == 3)%Q /\
    (2 / 2 * moment [fun _ => 1; fun _ => 1] 0%nat 0%nat == 2)%Q /\ ~ (act_sq (s1 0%nat) == 1)%Q.
Proof. do 2 eexists. split; [reflexivity|]. split; [vm_compute; reflexivity|]. split; [vm_compute; reflexivity|vm_compute; discriminate]. Qed.

Definition two_tensors : store := fun i => mkAct (mkT [1; 2; 2] (if i =? 0 then [1; 2; 3; 0]%Q else [0; 1; 1; 1]%Q)) 1 (i =? 0).

Lemma two_tensors_entries :
  exists xss, Forall2 (entry Linear 2 two_tensors) [[0]; [1]; [1]] xss /\ (forall xs, hd_error xss = Some xs -> xs <> []) /\
    no_reuse Linear two_tensors [[0]; [1]; [1]].
Proof.
  eexists. split; [|split].
  - constructor; [|constructor; [|constructor; [|constructor]]]; eexists; (split; [reflexivity|]); (split; [|reflexivity]); exists 1, 2; split; reflexivity.
  - intros xs H. injection H as <-. discriminate.
  - intros _ pre mid post id H.
    destruct pre as [|p1 pre]; [injection H as <- H|injection H as <- H].
    + destruct mid as [|m1 mid]; [discriminate|]. injection H as <- H. destruct mid as [|m2 mid]; [discriminate|]. injection H as <- H. destruct mid; discriminate.
    + destruct pre as [|p2 pre]; [injection H as <- H; reflexivity|injection H as <- H].
      destruct pre as [|p3 pre]; [injection H as <- H; destruct mid; discriminate|injection H as <- H; destruct pre; discriminate].
Qed.

(** ** A run *)

Definition demo_cholesky (n : nat) (_ : nat -> nat -> Q) : result (nat -> nat -> Q) :=
  Ok (fun i j => if i =? j then 1%Q else if i <? j then (1 # 2)%Q else 0%Q).
Definition demo_sort (l : list Q) : list nat := rev (seq 0 (length l)).
Definition demo_act : store := fun _ => mkAct (mkT [1; 1; 2] [1; 2]%Q) 1 false.

Lemma demo_sort_perm l : Permutation (demo_sort l) (seq 0 (length l)).
Proof. unfold demo_sort. apply Permutation_sym, Permutation_rev. Qed.

(** One group per column, two rows, two-bit symmetric codes. *)
Definition group_quantizer : quantizer := mkQuant (PerTile [2; 1]) 2 true false (FloatT 24) [1; 1]%Q None.
Definition group_weight : tensor Q := mkT [2; 2] [1; 1 # 2; 2 # 5; 1]%Q.
Definition group_estimate (q : quantizer) (_ : tensor Q) : result quantizer := Ok q.

Definition group_run (bs : Z) :=
  gptq group_estimate demo_sort demo_cholesky Linear Exact group_weight (Some group_quantizer) demo_act [[0]] bs 0 false.

Lemma group_fits : fits_matrix 2 2 [2; 1] group_quantizer.
Proof.
  split; [lia|]. split; [lia|]. split; [exact I|]. split; [repeat constructor|]. split; [exists (Tile [2; 1]); split; reflexivity|].
  split; [reflexivity|]. discriminate.
Qed.

Definition same_data (a b : list Q) : bool :=
  (length a =? length b) && forallb (fun '(x, y) => Qeq_bool x y) (combine a b).

Definition run_data (r : result (tensor Q * quantizer * store)) : result (list Q * list Q) :=
  rmap (fun '(w, q, _) => (map Qred (data w), map Qred (q_scale q))) r.

Lemma group_one : run_data (group_run 1) = Ok ([1; 4 # 5; 0; 4 # 5]%Q, [1; 4 # 5]%Q).
Proof. vm_compute. reflexivity. Qed.

Lemma group_two : run_data (group_run 2) = Ok ([1; 0; 0; 1]%Q, [1; 1]%Q).
Proof. vm_compute. reflexivity. Qed.

(** ** Dead groups *)
Definition zero_weight : tensor Q := mkT [1; 2] [0; 1]%Q.
Definition zero_quantizer : quantizer := mkQuant (PerTile [1; 1]) 4 true false (FloatT 24) [1; 1]%Q None.

Lemma dead_group bs : (0 < bs)%Z ->
  gptq group_estimate demo_sort demo_cholesky Linear Exact zero_weight (Some zero_quantizer) demo_act [[0]] bs 0 false = Err ZeroDivisionError.
Proof.
  intros Hb. unfold gptq. cbn [check_granularity q_gran zero_quantizer rbind flat_shape zero_weight shape group_estimate].
  destruct (calculate_hessian Linear 2 demo_act [[0]]) as [[h s']|] eqn:E; [|exfalso; revert E; vm_compute; discriminate].
  cbn [rbind]. unfold demo_cholesky. cbn [rbind].
  assert (G : groups_of zero_quantizer 1 2 false = Ok (Some (1, 1, 2))) by reflexivity. rewrite G. cbn [rbind].
  rewrite (proj2 (Z.eqb_neq bs 0)), (proj2 (Z.ltb_ge bs 0)) by lia. set (b := Z.to_nat bs). assert (0 < b) by (unfold b; lia).
  unfold range_step. assert (P : 0 < (2 + b - 1) / b) by (apply Nat.div_str_pos; lia). destruct ((2 + b - 1) / b) as [|m]; [lia|].
  cbn [seq map blocks_loop Nat.mul]. unfold block_step. cbn [Nat.add]. rewrite Nat.sub_0_r.
  assert (Hm : 0 < Nat.min b 2) by lia. destruct (Nat.min b 2) as [|k]; [lia|]. cbn [seq columns_loop].
  unfold column_step at 1. vm_compute. reflexivity.
Qed.

(** ** A convolution, with reordered columns *)
Definition conv_unfold (t : tensor Q) : result batch :=
  match shape t with
  | [_; _; _; _] => Ok (2, 1, fun i _ => nth i (data t) 0%Q)
  | _ => Err RuntimeError
  end.
Definition conv_act : store := fun _ => mkAct (mkT [1; 2; 1; 1] [1; 2]%Q) 1 true.
Definition conv_weight : tensor Q := mkT [2; 2; 1; 1] [7 # 10; -(3 # 2); 1 # 3; 2]%Q.
Definition conv_quantizer : quantizer := mkQuant (PerChannel [0%Z]) 4 false true (FloatT 24) [1 # 4; 1 # 3]%Q (Some [1; 2]%Q).

Lemma conv_fits : fits_matrix 2 2 [1; 2] conv_quantizer.
Proof.
  split; [lia|]. split; [lia|]. split; [exact I|]. split; [exact I|]. split; [exists (Tile [1; 2]); split; reflexivity|].
  split; [reflexivity|]. intros o H. injection H as <-. reflexivity.
Qed.

Definition conv_run (fmt : format) (bs : Z) :=
  gptq group_estimate demo_sort demo_cholesky (Conv2d conv_unfold) fmt conv_weight (Some conv_quantizer) conv_act [[0]] bs (1 # 100) true.

Lemma conv_result : run_data (conv_run Exact 1) = Ok ([3 # 4; -3 # 2; 1 # 3; 2]%Q, [1 # 4; 1 # 3]%Q).
Proof. vm_compute. reflexivity. Qed.

(** ** A group that starts inside a block keeps the range of the uncorrected weights *)

Definition stale_y (r c : nat) : Q := nth (r * 2 + c) [1; 0; 0; 1]%Q 0%Q.
Definition stale_e (r c : nat) : Q := nth (r * 2 + c) [0; 1 # 2; 2 # 5; -1 # 5]%Q 0%Q.
Definition stale_u (r c : nat) : Q := nth (r * 2 + c) (data group_weight) 0%Q.
Definition stale_h (i j : nat) : Q := if i =? j then 1%Q else if i <? j then (1 # 2)%Q else 0%Q.

Lemma stale_run : group_run 2 = Ok (mkT [2; 2] [1; 0; 0; 1]%Q, group_quantizer, demo_act).
Proof. vm_compute. reflexivity. Qed.

Lemma stale_recurrence : recurrence 2 2 [2; 1] group_quantizer stale_u (fun p => p) stale_h stale_y stale_e.
Proof.
  intros r p Hr Hp. cbn zeta. split.
  - destruct r as [|[|r]]; [| |lia]; destruct p as [|[|p]]; try lia;
      eexists; eexists; split; [reflexivity|split; [reflexivity|reflexivity]|reflexivity|split; [reflexivity|reflexivity]|reflexivity|split; [reflexivity|reflexivity]|reflexivity|split; [reflexivity|reflexivity]].
  - destruct r as [|[|r]]; [| |lia]; destruct p as [|[|p]]; try lia; vm_compute; reflexivity.
Qed.

Lemma stale_group : ~ group_scaled 2 2 2 1 group_quantizer (corrected stale_u stale_e stale_h 1) 1.
Proof.
  intros (ranges & scales & offsets & L & M & P & V). destruct ranges as [|[mn mx] [|]]; try discriminate.
  destruct (M 0 mn mx eq_refl) as [[(r' & c' & Hr' & _ & Hc' & Hn) _] [(r & c & Hr & _ & Hc & Hx) _]]. clear M.
  destruct (V 0 1 ltac:(lia) eq_refl) as [V1 _]. cbn in V1. rewrite Nat.div_1_r in Hc, Hc'. subst c c'.
  assert (Hm : (mx <= 4 # 5)%Q /\ (0 <= mx)%Q).
  { rewrite Hx. destruct r as [|[|r]]; [| |lia]; vm_compute; split; discriminate. }
  assert (Hi : (mn <= 4 # 5)%Q /\ (0 <= mn)%Q).
  { rewrite Hn. destruct r' as [|[|r']]; [| |lia]; vm_compute; split; discriminate. }
  unfold parameters_for_range in P. cbn [q_symmetric group_quantizer q_one_sided q_bits] in P.
  replace (is_one_sided (map fst [(mn, mx)]) false) with false in P by (unfold is_one_sided; now rewrite andb_false_r).
  cbn [andb negb rmapM] in P. unfold symmetric_scale in P. change (QofZ (Z.abs (integer_minimum 2))) with 2%Q in P.
  change (QofZ (Z.abs (integer_maximum 2))) with 1%Q in P. unfold qdiv in P.
  change (Qeq_bool 2 0) with false in P. change (Qeq_bool 1 0) with false in P. cbn [rbind] in P. injection P as <- _.
  cbn [nth_error] in V1. injection V1 as V1.
  assert (X : (Qmax (Qabs mn / 2) (Qabs mx / 1) <= 4 # 5)%Q).
  { rewrite !Qabs_pos by tauto. apply Q.max_lub.
    - apply Qle_shift_div_r; [reflexivity|]. lra.
    - apply Qle_shift_div_r; [reflexivity|]. lra. }
  rewrite <- V1 in X. vm_compute in X. now apply X.
Qed.
