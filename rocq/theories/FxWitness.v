(** Concrete graphs for the FX passes. *)
From Verif Require Import Prelude TilingModel TilingSpec EncModel AffineModel FxModel FxSpec.
From Coq Require Import QArith Relations.
Local Open Scope nat_scope.
Local Open Scope list_scope.

Ltac in_list := repeat (first [left; reflexivity | right]).

(** Ordered graphs, by computation. *)
Fixpoint ordered_from (seen : list nat) (g : list node) : bool :=
  match g with
  | [] => true
  | n :: g' => negb (existsb (Nat.eqb (n_id n)) seen)
      && forallb (fun a => existsb (Nat.eqb a) seen) (n_args n) && ordered_from (seen ++ [n_id n]) g'
  end.

Lemma mem_true k l : existsb (Nat.eqb k) l = true <-> In k l.
Proof.
  rewrite existsb_exists. split.
  - intros (x & H & E). apply Nat.eqb_eq in E. now subst.
  - intros H. exists k. split; [exact H|apply Nat.eqb_refl].
Qed.

Lemma ordered_from_spec g : forall seen, ordered_from seen g = true ->
  (forall n, In n g -> ~ In (n_id n) seen) /\ NoDup (map n_id g) /\
  forall pre n post, g = pre ++ n :: post -> forall a, In a (n_args n) -> In a (seen ++ map n_id pre).
Proof.
  induction g as [|n g IH]; intros seen; cbn [ordered_from].
  - intros _. repeat split; [intros ? []|constructor|]. intros [|? ?] ? ? E; discriminate.
  - rewrite !andb_true_iff. intros [[H1 H2] H3]. destruct (IH _ H3) as (I1 & I2 & I3).
    assert (Hn : ~ In (n_id n) seen).
    { intros Hi. apply mem_true in Hi. rewrite Hi in H1. discriminate. }
    repeat split.
    + intros m [<-|Hm] Hs; [auto|]. apply (I1 m Hm). apply in_or_app; now left.
    + cbn. constructor; [|exact I2]. intros Hi. apply in_map_iff in Hi as (m & E & Hm).
      apply (I1 m Hm). rewrite E. apply in_or_app; right; now left.
    + intros [|p pre] m post E a Ha; cbn in E; injection E as <- E.
      * rewrite app_nil_r. rewrite forallb_forall in H2. apply mem_true. auto.
      * specialize (I3 pre m post E a Ha). rewrite <- app_assoc in I3. exact I3.
Qed.

Lemma ordered_check g : ordered_from [] g = true -> ordered g.
Proof. intros H. destruct (ordered_from_spec g [] H) as (_ & N & O). split; auto. Qed.

(** A value, a scale and an offset; the value is quantized, dequantized and used. *)
Definition w_params (k : nat) : option (list Q) :=
  if k =? 100 then Some [1 # 2]%Q else if k =? 101 then Some [0]%Q
  else if k =? 102 then Some [1 # 4]%Q else None.
Definition w_x := mkNode 0 (Placeholder 7) [] (Some [2; 3]).
Definition w_sc := mkNode 1 (GetAttr 100) [] None.
Definition w_of := mkNode 2 (GetAttr 101) [] None.
Definition w_q := mkNode 3 (Quantize (Some [2; 3]) (IntBits 4)) [0; 1; 2] (Some [2; 3]).
Definition w_dq := mkNode 4 (Dequantize (Some [2; 3])) [3; 1; 2] (Some [2; 3]).
Definition w_f (args : list nat) := mkNode 5 (CallFunction 0 false) args (Some [2; 3]).
Definition w_h (args : list nat) := mkNode 6 (CallFunction 1 false) args (Some [2; 3]).
Definition w_out := mkNode 7 Output [5; 6] None.
Definition w_spec := mkSpec 4 [1 # 2]%Q [0]%Q true (Some [2; 3]) (Some [2; 3]).

(** both functions read the quantized tensor; or one reads it unquantized *)
Definition g_both := [w_x; w_sc; w_of; w_q; w_dq; w_f [4]; w_h [4]; w_out].
Definition g_raw := [w_x; w_sc; w_of; w_q; w_dq; w_f [4]; w_h [0]; w_out].

(** a second quantizer of the same tensor, with another scale *)
Definition w_sc2 := mkNode 8 (GetAttr 102) [] None.
Definition w_q2 := mkNode 9 (Quantize (Some [2; 3]) (IntBits 4)) [0; 8; 2] (Some [2; 3]).
Definition w_dq2 := mkNode 10 (Dequantize (Some [2; 3])) [9; 8; 2] (Some [2; 3]).
Definition g_two := [w_x; w_sc; w_of; w_sc2; w_q; w_dq; w_q2; w_dq2; w_f [4]; w_h [10]; w_out].
Definition g_last := [w_x; w_sc; w_of; w_sc2; w_q2; w_dq2; w_f [10]; w_h [10]; w_out].
Definition w_spec2 := mkSpec 4 [1 # 4]%Q [0]%Q true (Some [2; 3]) (Some [2; 3]).

Definition left_nodes := [w_x; w_sc; w_of; w_f [0]; w_h [0]; w_out].
Definition left_nodes2 := [w_x; w_sc; w_of; w_sc2; w_f [0]; w_h [0]; w_out].

(** Scalars: parameters have one entry. *)
Definition w_interp (o : op) (vs : list Q) : Q :=
  match o with
  | Placeholder _ => 7 # 10
  | GetAttr k => match w_params k with Some (v :: _) => v | _ => 0 end
  | Quantize _ (IntBits b) =>
      match vs with
      | v :: s :: off :: _ =>
          inject_Z (clamp (round_half_even (v / s - off)) (integer_minimum b) (integer_maximum b))
      | _ => 0
      end
  | Quantize _ _ => 0
  | Dequantize _ => match vs with c :: s :: off :: _ => (c + off) * s | _ => 0 end
  | CallFunction _ _ => match vs with v :: _ => v | _ => 0 end
  | Output => match vs with v :: _ => v | _ => 0 end
  end%Q.

Definition w_fake (s : spec) (v : Q) : Q :=
  match s_scale s, s_offset s with
  | sc :: _, off :: _ =>
      ((inject_Z (clamp (round_half_even (v / sc - off)) (integer_minimum (s_bits s))
          (integer_maximum (s_bits s))) + off) * sc)%Q
  | _, _ => 0%Q
  end.

(** [w_interp] with quantization switched off *)
Definition w_off (o : op) (vs : list Q) : Q :=
  match o with
  | Quantize _ _ | Dequantize _ => match vs with v :: _ => v | _ => 0%Q end
  | _ => w_interp o vs
  end.

Lemma g_both_ordered : ordered g_both.
Proof. now apply ordered_check. Qed.

Lemma w_supported : forall n, In n g_both -> supported w_params g_both n.
Proof.
  assert (N1 : named w_params g_both 1 [1 # 2]%Q).
  { exists w_sc, 100. cbn. repeat split; auto. }
  assert (N2 : named w_params g_both 2 [0]%Q).
  { exists w_of, 101. cbn. repeat split; auto. }
  intros n H. cbn in H.
  repeat destruct H as [<-|H]; try contradiction; try exact I.
  - split; [eexists; reflexivity|]. exists 0, 1, 2, [1 # 2]%Q, [0]%Q. auto.
  - exists 3, [1; 2]. split; [reflexivity|]. constructor; [eauto|]. constructor; eauto.
Qed.

Lemma w_separated : separated g_both.
Proof.
  split; [|split; [|split]].
  - intros n a m Hn Ha Hm E Hq. cbn in Hm.
    repeat destruct Hm as [<-|Hm]; try contradiction; cbn in E; subst a.
    cbn in Hn. repeat destruct Hn as [<-|Hn]; try contradiction; cbn in Ha;
      repeat destruct Ha as [Ha|Ha]; try discriminate; try contradiction.
    exists (Some [2; 3]), [1; 2]. auto.
  - intros n t Hn E. cbn in Hn. repeat destruct Hn as [<-|Hn]; try contradiction; try discriminate.
    exists w_q, [1; 2]. repeat split. cbn. auto.
  - intros q x rest n Hq Hqq E Hn Hne Hx. cbn in Hq.
    repeat destruct Hq as [<-|Hq]; try contradiction. injection E as <- <-.
    cbn in Hn. repeat destruct Hn as [<-|Hn]; try contradiction; cbn in Hx;
      repeat destruct Hx as [Hx|Hx]; try discriminate; try contradiction.
  - intros q x rest Hq Hqq E. cbn in Hq.
    repeat destruct Hq as [<-|Hq]; try contradiction. injection E as <- <-. split.
    + cbn. intros [H|[H|[]]]; discriminate.
    + exists w_x. repeat split; [left; reflexivity|]. cbn. auto.
Qed.

(** Views: two views of one node; only the second is annotated. *)
Definition v_x := mkNode 0 (Placeholder 7) [] None.
Definition v_1 := mkNode 1 (CallFunction 3 true) [0] None.
Definition v_2 := mkNode 2 (CallFunction 3 true) [0] None.
Definition g_fork := [v_x; v_1; v_2].
(** a chain of two views *)
Definition v_3 := mkNode 3 (CallFunction 3 true) [1] None.
Definition g_chain := [v_x; v_1; v_3].

Lemma g_fork_ordered : ordered g_fork.
Proof. now apply ordered_check. Qed.
Lemma g_chain_ordered : ordered g_chain.
Proof. now apply ordered_check. Qed.

Lemma g_fork_view1 : view_of g_fork 1 0.
Proof. exists v_1, 3. cbn. auto 6. Qed.
Lemma g_fork_view2 : view_of g_fork 2 0.
Proof. exists v_2, 3. cbn. auto 6. Qed.

(** A per-channel quantized square matrix and its transpose. *)
Definition sq : tensor Q := mkT [2; 2] [1 # 1; 3 # 1; 5 # 1; 7 # 1]%Q.
Definition sq_t : tensor Q := mkT [2; 2] [1 # 1; 5 # 1; 3 # 1; 7 # 1]%Q.
Definition swap (idx : list nat) : list nat := rev idx.

Lemma swap_view : is_view swap sq sq_t.
Proof.
  intros idx H. unfold valid in H. cbn in H.
  inversion H as [|i n idx' sh Hi H']; subst. inversion H' as [|j n' idx'' sh' Hj H'']; subst.
  inversion H''; subst. unfold swap. cbn [rev app]. split; [constructor; [exact Hj|constructor; [exact Hi|constructor]]|].
  destruct i as [|[|i]], j as [|[|j]]; try lia; reflexivity.
Qed.
