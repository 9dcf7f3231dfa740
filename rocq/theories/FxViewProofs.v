(** Quantization and views. *)
From Verif Require Import Prelude TilingModel TilingSpec TilingProofs AffineModel AffineSpec
  AffineProofs AffineTensorProofs FxSpec.
From Coq Require Import QArith.
Local Open Scope nat_scope.
Local Open Scope list_scope.

Lemma at_index_some {A} (t : tensor A) idx : wf t -> valid (shape t) idx ->
  exists x, at_index t idx = Some x.
Proof.
  intros W Hv. unfold at_index. destruct (nth_error (data t) (ravel (shape t) idx)) eqn:E; [eauto|].
  apply nth_error_None in E. pose proof (ravel_lt _ _ Hv). unfold wf in W. lia.
Qed.

Lemma fake_elementwise t scale ta b out off :
  wf t -> numel t <> 0 -> fits (shape t) ta scale off -> can_support_bitwidth out b = true ->
  exists res, fake_quantize t scale ta b out off = Ok res /\ shape res = shape t /\ wf res /\
    forall idx x, valid (shape t) idx -> at_index t idx = Some x ->
      exists s z, nth_error scale (tile_row (shape t) (resolve_tile (shape t) ta) idx) = Some s /\
        quantize_elem s (nth_offset off (tile_row (shape t) (resolve_tile (shape t) ta) idx)) b x = Ok z /\
        at_index res idx =
          Some (dequantize_elem s (nth_offset off (tile_row (shape t) (resolve_tile (shape t) ta) idx)) z).
Proof.
  intros W N [Fd Fs Fo Fn] Hsup.
  destruct (quantize_by_tile_elementwise t scale ta b out off W N Fd Fs Fo Fn Hsup)
    as (q & Eq & Sq & Wq & Hq).
  assert (Nq : numel q <> 0).
  { unfold numel, wf in *. rewrite Sq in Wq. congruence. }
  rewrite <- Sq in Fd, Fs.
  destruct (dequantize_by_tile_elementwise q scale ta off Wq Nq Fd Fs Fo) as (r & Er & Sr & Wr & Hr).
  exists r. unfold fake_quantize. rewrite Eq. cbn [rbind]. repeat split; auto; [congruence|].
  intros idx x Hv Hx. destruct (Hq idx x Hv Hx) as (s & z & Es & Ez & Hz).
  exists s, z. repeat split; auto. rewrite Sq in Hr.
  destruct (Hr idx z) as (s' & Es' & Ed); [exact Hv|exact Ez|]. congruence.
Qed.

Theorem fake_view p t t' scale ta ta' b out off :
  wf t -> wf t' -> numel t <> 0 -> numel t' <> 0 -> is_view p t t' ->
  fits (shape t) ta scale off -> fits (shape t') ta' scale off -> can_support_bitwidth out b = true ->
  (forall idx, valid (shape t') idx ->
     tile_row (shape t') (resolve_tile (shape t') ta') idx =
     tile_row (shape t) (resolve_tile (shape t) ta) (p idx)) ->
  exists r r', fake_quantize t scale ta b out off = Ok r /\
    fake_quantize t' scale ta' b out off = Ok r' /\ shape r' = shape t' /\ is_view p r r'.
Proof.
  intros W W' N N' Hview F F' Hsup Hrow.
  destruct (fake_elementwise t scale ta b out off W N F Hsup) as (r & Er & Sr & Wr & Hr).
  destruct (fake_elementwise t' scale ta' b out off W' N' F' Hsup) as (r' & Er' & Sr' & Wr' & Hr').
  exists r, r'. split; [exact Er|]. split; [exact Er'|]. split; [exact Sr'|].
  intros idx Hv. rewrite Sr' in Hv. rewrite Sr. destruct (Hview idx Hv) as [Hp Ea].
  split; [exact Hp|]. destruct (at_index_some t' idx W' Hv) as (x & Ex).
  destruct (Hr' idx x Hv Ex) as (s' & z' & Es' & Ez' & ->).
  destruct (Hr (p idx) x Hp) as (s & z & Es & Ez & ->); [congruence|].
  rewrite (Hrow idx Hv) in *. assert (s' = s) by congruence. subst s'. congruence.
Qed.

Lemma valid_grid_self sh idx : valid sh idx -> tile_row sh sh idx = 0.
Proof.
  unfold tile_row, grid, tile_coord. intros H. induction H as [|i n idx sh Hi H IH]; [reflexivity|].
  cbn [zipmap combine map] in *. unfold zipmap in *. cbn [combine map].
  rewrite (Nat.div_small i n) by exact Hi. rewrite Nat.div_same by lia.
  unfold ravel in *. cbn. rewrite IH. lia.
Qed.

Theorem fake_view_per_tensor p t t' s b out off :
  wf t -> wf t' -> Forall (fun n => 0 < n) (shape t) -> Forall (fun n => 0 < n) (shape t') ->
  is_view p t t' -> ~ (s == 0)%Q -> (forall l, off = Some l -> length l = 1) ->
  can_support_bitwidth out b = true ->
  exists r r', fake_quantize t [s] DataShape b out off = Ok r /\
    fake_quantize t' [s] DataShape b out off = Ok r' /\ shape r' = shape t' /\ is_view p r r'.
Proof.
  intros W W' P P' Hview Hs Ho Hsup.
  assert (G : forall sh, Forall (fun n => 0 < n) sh -> fits sh DataShape [s] off).
  { intros sh Hp. constructor; cbn [resolve_tile].
    - induction Hp; constructor; auto. split; [auto|]. exists 1. lia.
    - unfold grid. clear -Hp. induction Hp as [|n sh Hn Hp IH]; [reflexivity|].
      unfold zipmap in *. cbn [combine map]. rewrite prod_cons, Nat.div_same by lia. cbn [length] in IH |- *. lia.
    - exact Ho.
    - intros s' [<-|[]]. exact Hs. }
  assert (Z : forall sh, Forall (fun n => 0 < n) sh -> prod sh <> 0).
  { intros sh Hp. induction Hp as [|n sh Hn _ IH]; [discriminate|]. rewrite prod_cons. nia. }
  apply fake_view; auto; try (unfold numel; rewrite ?W, ?W'; now apply Z).
  intros idx Hv. cbn [resolve_tile]. rewrite !valid_grid_self; auto. now apply Hview.
Qed.
