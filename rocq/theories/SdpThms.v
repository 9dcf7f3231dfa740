(** C107, C108 and C109: scaled dot product attention. *)
From Coq Require Import QArith Lqa.
From Verif Require Import Prelude SdpModel SdpSpec SdpProofs.
Local Open Scope nat_scope.
Local Open Scope list_scope.

(** ** C107: what attention computes *)

(** Without quantizers and dropout the result is attention: each row is the mean of the values of the keys that are not
    masked, with weights given by scaled scores plus the mask, and 0 if all are masked; heads share keys and values as
    grouped-query attention says.  In particular nothing is infinite or not a number.  The scale is the square of the
    root of the scale asked for. *)
Theorem C107_attention : forall exp root drop, (forall x, (0 < exp x)%Q) -> (forall x y, (x == y)%Q -> (exp x == exp y)%Q) ->
  forall query key value m is_causal scale gqa s q k v,
  scale_is root scale (t_cols query) s -> sizes query key value gqa -> mask_fits m is_causal (t_heads query) (t_rows query) (t_rows key) ->
  holds query q -> holds key k -> holds value v ->
  exists out, sdpa_math exp root drop query key value m 0 is_causal scale gqa NInf no_quantizers false = Ok out /\
  equals out (t_heads query) (t_rows query) (t_cols value) (fun h i c =>
    attend exp (t_rows key) (logits root s q k (t_cols query) m is_causal (kv_head query key gqa h) h i) (fun j => v (kv_head query key gqa h) j c)).
Proof. exact math_attends. Qed.
Print Assumptions C107_attention.

(** Masked keys and their values have no influence on a row. *)
Theorem C107_masked : forall exp root drop, (forall x, (0 < exp x)%Q) -> (forall x y, (x == y)%Q -> (exp x == exp y)%Q) ->
  forall query key value key' value' m is_causal scale s q k v k' v' h i c out out',
  scale_is root scale (t_cols query) s -> sizes query key value false -> sizes query key' value' false ->
  mask_fits m is_causal (t_heads query) (t_rows query) (t_rows key) -> t_rows key' = t_rows key -> t_cols value' = t_cols value ->
  holds query q -> holds key k -> holds value v -> holds key' k' -> holds value' v' ->
  h < t_heads query -> i < t_rows query -> c < t_cols value ->
  (forall j, j < t_rows key -> says m is_causal h i j <> None -> (forall x, k h j x = k' h j x) /\ v h j c = v' h j c) ->
  sdpa_math exp root drop query key value m 0 is_causal scale false NInf no_quantizers false = Ok out ->
  sdpa_math exp root drop query key' value' m 0 is_causal scale false NInf no_quantizers false = Ok out' ->
  exists y y', t_at out h i c = Fin y /\ t_at out' h i c = Fin y' /\ (y == y')%Q.
Proof.
  intros exp root drop Pe Ee query key value key' value' m is_causal scale s q k v k' v' h i c out out' Hs Z Z' Hm R C Hq Hk Hv Hk' Hv' Lh Li Lc A E E'.
  destruct (math_attends exp root drop Pe Ee query key value m is_causal scale false s q k v Hs Z Hm Hq Hk Hv) as (o & Eo & _ & _ & _ & O). rewrite E in Eo. injection Eo as <-.
  rewrite <- R in Hm. destruct (math_attends exp root drop Pe Ee query key' value' m is_causal scale false s q k' v' Hs Z' Hm Hq Hk' Hv') as (o' & Eo' & _ & _ & _ & O'). rewrite E' in Eo'. injection Eo' as <-.
  destruct (O h i c Lh Li Lc) as (y & Ey & Qy). rewrite C in O'. destruct (O' h i c Lh Li Lc) as (y' & Ey' & Qy'). exists y, y'. split; [exact Ey|]. split; [exact Ey'|]. rewrite Qy, Qy', R. apply attend_ext; [exact Ee|]. intros j Lj. unfold logits, kv_head. specialize (A j Lj). destruct (says m is_causal h i j) as [b|]; cbn; [|exact I]. destruct (A ltac:(discriminate)) as [A1 A2].
  split; [|rewrite A2; reflexivity]. apply Qplus_comp; [|reflexivity]. apply Qmult_comp; [reflexivity|]. unfold dot. apply qsum_ext. intros x _. rewrite A1. reflexivity.
Qed.
Print Assumptions C107_masked.

(** A causal row depends on the keys and values up to it alone. *)
Theorem C107_causal : forall h i j, (says None true h i j <> None <-> j <= i) /\ says None false h i j <> None.
Proof.
  intros h i j. unfold says. cbn [andb]. split; [|discriminate]. destruct (Nat.ltb_spec i j); split; intros H'; try lia; try discriminate. contradiction H'. reflexivity.
Qed.
Print Assumptions C107_causal.

(** Every number in the result lies between the smallest and the largest value that is not masked. *)
Theorem C107_bounds : forall exp root drop, (forall x, (0 < exp x)%Q) -> (forall x y, (x == y)%Q -> (exp x == exp y)%Q) ->
  forall query key value m is_causal scale gqa s q k v lo hi h i c out,
  scale_is root scale (t_cols query) s -> sizes query key value gqa -> mask_fits m is_causal (t_heads query) (t_rows query) (t_rows key) ->
  holds query q -> holds key k -> holds value v ->
  h < t_heads query -> i < t_rows query -> c < t_cols value ->
  (exists j, j < t_rows key /\ says m is_causal h i j <> None) ->
  (forall j, j < t_rows key -> says m is_causal h i j <> None -> (lo <= v (kv_head query key gqa h) j c <= hi)%Q) ->
  sdpa_math exp root drop query key value m 0 is_causal scale gqa NInf no_quantizers false = Ok out ->
  exists y, t_at out h i c = Fin y /\ (lo <= y <= hi)%Q.
Proof.
  intros exp root drop Pe Ee query key value m is_causal scale gqa s q k v lo hi h i c out Hs Z Hm Hq Hk Hv Lh Li Lc (j0 & L0 & N0) B E.
  destruct (math_attends exp root drop Pe Ee query key value m is_causal scale gqa s q k v Hs Z Hm Hq Hk Hv) as (o & Eo & _ & _ & _ & O). rewrite E in Eo. injection Eo as <-. destruct (O h i c Lh Li Lc) as (y & Ey & Qy). exists y. split; [exact Ey|]. rewrite Qy.
  apply attend_bounds; [exact Pe | exists j0; split; [exact L0|]; unfold logits; destruct (says m is_causal h i j0); [discriminate | contradiction]|].
  intros j Lj Nj. apply (B j Lj). intros X. apply Nj. unfold logits. rewrite X. reflexivity.
Qed.
Print Assumptions C107_bounds.

(** With a finite [neg_inf] masked keys are penalised by it, and a row is 0 exactly if no penalised score is above it. *)
Theorem C107_penalised : forall exp root drop, (forall x, (0 < exp x)%Q) -> (forall x y, (x == y)%Q -> (exp x == exp y)%Q) ->
  forall query key value m is_causal scale gqa c s q k v,
  scale_is root scale (t_cols query) s -> sizes query key value gqa -> mask_fits m is_causal (t_heads query) (t_rows query) (t_rows key) -> (forall t, m <> Some (MFloat t)) ->
  holds query q -> holds key k -> holds value v ->
  exists out, sdpa_math exp root drop query key value m 0 is_causal scale gqa (Fin c) no_quantizers false = Ok out /\
  equals out (t_heads query) (t_rows query) (t_cols value) (fun h i col =>
    let logit := penalised root s q k (t_cols query) m is_causal c (kv_head query key gqa h) h i in
    if forallb (fun j => Qle_bool (logit j) c) (seq 0 (t_rows key)) then 0%Q
    else attend exp (t_rows key) (fun j => Some (logit j)) (fun j => v (kv_head query key gqa h) j col)).
Proof. exact math_penalises. Qed.
Print Assumptions C107_penalised.

(** One head, one row, one column; the scale is 1. *)
Definition one (x : Q) : tensor := mkT false 1 1 1 (fun _ _ _ => Fin x).
Definition run exp (q k v : Q) (m : option mask) (neg_inf : num) : result num :=
  let? t := sdpa_math exp (fun x => x) (fun _ t => t) (one q) (one k) (one v) m 0 false (Some 1%Q) false neg_inf no_quantizers false in Ok (t_at t 0 0 0).
(** With a finite [neg_inf] a row that is masked altogether is not 0, if a score is positive: the only value, 7, comes out. *)
Theorem C107_all_masked_refuted : run (fun x => 1 + x * x)%Q 2 3 7 (Some (MBool 1 1 1 (fun _ _ _ => false))) (Fin (-1)) <> Ok (Fin 0) /\
  exists y, run (fun x => 1 + x * x)%Q 2 3 7 (Some (MBool 1 1 1 (fun _ _ _ => false))) (Fin (-1)) = Ok (Fin y) /\ (y == 7)%Q.
Proof. split; [vm_compute; discriminate|]. eexists. split; [reflexivity|]. vm_compute. reflexivity. Qed.
Print Assumptions C107_all_masked_refuted.
(** ... and a row that is not masked is 0, if all scores are small: 7 is lost. *)
Theorem C107_not_masked_refuted : exists y, run (fun x => 1 + x * x)%Q 2 (-3) 7 None (Fin (-5)) = Ok (Fin y) /\ (y == 0)%Q.
Proof. eexists. split; [reflexivity|]. vm_compute. reflexivity. Qed.
Print Assumptions C107_not_masked_refuted.
(** A negative scale, which torch accepts, is refused. *)
Theorem C107_negative_refuted : forall exp root drop query key value m p is_causal s neg_inf qs strict, (s < 0)%Q ->
  sdpa_math exp root drop query key value m p is_causal (Some s) false neg_inf qs strict = Err ValueError.
Proof.
  intros exp root drop query key value m p is_causal s neg_inf qs strict N. unfold sdpa_math, scale_factor. cbn [rbind]. destruct (Qle_bool 0 s) eqn:B; [|reflexivity]. apply Qle_bool_iff in B. lra.
Qed.
Print Assumptions C107_negative_refuted.

(** Two heads of the query share a head of two keys; the first row sees the first key alone. *)
Example C107_nonvacuous :
  let query := mkT false 2 2 1 (fun h i _ => Fin (inject_Z (Z.of_nat (h + i)))) in
  let key := mkT false 1 2 1 (fun _ j _ => Fin (inject_Z (Z.of_nat j))) in
  let value := mkT false 1 2 1 (fun _ j _ => Fin (inject_Z (Z.of_nat (10 * j + 5)))) in
  sizes query key value true /\ mask_fits None true (t_heads query) (t_rows query) (t_rows key) /\ scale_is (fun x => x) (Some 1%Q) (t_cols query) 1 /\
  holds query (fun h i _ => inject_Z (Z.of_nat (h + i))) /\
  exists out, sdpa_math (fun x => 1 + x * x)%Q (fun x => x) (fun _ t => t) query key value None 0 true (Some 1%Q) true NInf no_quantizers false = Ok out /\
  (exists y, t_at out 1 0 0 = Fin y /\ y == 5)%Q /\ (exists y, t_at out 1 1 0 = Fin y /\ y == 80 # 6)%Q.
Proof.
  cbn zeta. split; [unfold sizes; cbn [t_heads t_rows t_cols]; split; [reflexivity|]; split; [reflexivity|]; split; [reflexivity|]; split; [lia|]; exists 2; lia|]. split; [exact I|]. split; [split; [discriminate | reflexivity]|]. split; [intros h i j _ _ _; reflexivity|].
  eexists. split; [reflexivity|]. split; eexists; (split; [reflexivity|]); vm_compute; reflexivity.
Qed.

(** ** C108: strict mode and torch's own function *)

(** In strict mode attention works only if everything is quantized: query, key, value, and each intermediate result by
    a quantizer; and never with shared heads. *)
Theorem C108_strict : forall exp root drop query key value m p is_causal scale gqa neg_inf qs out,
  sdpa_math exp root drop query key value m p is_causal scale gqa neg_inf qs true = Ok out ->
  gqa = false /\ t_quant query = true /\ t_quant key = true /\ t_quant value = true /\ Forall (fun q => q <> None) [q_scores qs; q_masked qs; q_weights qs; q_query qs; q_key qs; q_dropout qs; q_output qs] /\
  (q_mask qs <> None \/ exists t, m = Some (MFloat t) /\ t_quant t = true).
Proof. exact math_strict. Qed.
Print Assumptions C108_strict.

(** Each quantizer is applied to its intermediate result and later steps use what it returns: scaled query, scaled
    key, scores, mask, masked scores, weights, weights after dropout, result. *)
Theorem C108_quantizers : forall exp root drop query key value m p is_causal scale neg_inf qs strict out,
  sdpa_math exp root drop query key value m p is_causal scale false neg_inf qs strict = Ok out ->
  exists r query' key' scores b masked weights dropped,
  (exists s, scale_is root scale (t_cols query) s /\ r = root s) /\
  stage (q_query qs) (fun t => entries t (t_heads query) (t_rows query) (t_cols query) (fun h i j => nmul (t_at query h i j) (Fin r))) query' /\
  stage (q_key qs) (fun t => entries t (t_heads key) (t_cols key) (t_rows key) (fun h i j => nmul (t_at key h j i) (Fin r))) key' /\
  stage (q_scores qs) (product query' key') scores /\
  stage (q_mask qs) (bias m is_causal (t_rows query) (t_rows key) neg_inf) b /\
  stage (q_masked qs) (sum scores b) masked /\
  stage (q_weights qs) (weighted exp neg_inf masked) weights /\
  stage (q_dropout qs) (fun t => if Qeq_bool p 0 then entries t (t_heads weights) (t_rows weights) (t_cols weights) (t_at weights) else t = drop p weights) dropped /\
  stage (q_output qs) (product dropped value) out.
Proof. exact math_steps. Qed.
Print Assumptions C108_quantizers.

(** torch's function has no influence unless strict mode is off, it is allowed, and no quantizer is active. *)
Theorem C108_torch_partial : forall exp root drop torch torch' fs ff stub kernel query key value m p is_causal scale gqa neg_inf qs strict fallback,
  (match strict with Some b => b | None => fs end = true \/ match fallback with Some b => b | None => ff end = false \/ exists f, In (Some f) [q_query qs; q_key qs; q_scores qs; q_mask qs; q_masked qs; q_weights qs; q_dropout qs; q_output qs] /\ stub f = false) ->
  sdpa exp root drop torch fs ff stub kernel query key value m p is_causal scale gqa neg_inf qs strict fallback =
  sdpa exp root drop torch' fs ff stub kernel query key value m p is_causal scale gqa neg_inf qs strict fallback.
Proof.
  intros exp root drop torch torch' fs ff stub kernel query key value m p is_causal scale gqa neg_inf qs strict fallback H. unfold sdpa.
  assert (X : negb (match strict with Some b => b | None => fs end) && match fallback with Some b => b | None => ff end && negb (existsb (active stub) (all_quantizers qs)) = false).
  { destruct H as [-> |[-> |(f & I & N)]]; [reflexivity | rewrite Bool.andb_false_r; reflexivity|]. assert (A : existsb (active stub) (all_quantizers qs) = true) by (apply existsb_exists; exists (Some f); split; [unfold all_quantizers; cbn [In] in *; tauto | cbn; rewrite N; reflexivity]). rewrite A, Bool.andb_false_r. reflexivity. }
  rewrite X. reflexivity.
Qed.
Print Assumptions C108_torch_partial.

(** Otherwise torch's function is called, but its result is thrown away: the result is that of the kernel in any case. *)
Theorem C108_torch_refuted : forall exp root drop torch fs ff stub kernel query key value m p is_causal scale gqa neg_inf qs strict fallback,
  (exists t, torch query key value m p is_causal scale gqa = Ok t) ->
  sdpa exp root drop torch fs ff stub kernel query key value m p is_causal scale gqa neg_inf qs strict fallback =
  match kernel with Some r => r | None => sdpa_math exp root drop query key value m p is_causal scale gqa neg_inf qs (match strict with Some b => b | None => fs end) end.
Proof.
  intros exp root drop torch fs ff stub kernel query key value m p is_causal scale gqa neg_inf qs strict fallback (t & E). unfold sdpa. rewrite E. cbn [rbind]. destruct (_ && _ && _); reflexivity.
Qed.
Print Assumptions C108_torch_refuted.
(** If it fails, the call fails, though its result is not needed. *)
Theorem C108_torch_error_refuted : forall exp root drop torch ff stub kernel query key value m p is_causal scale gqa neg_inf e,
  torch query key value m p is_causal scale gqa = Err e ->
  sdpa exp root drop torch false ff stub kernel query key value m p is_causal scale gqa neg_inf no_quantizers None (Some true) = Err e.
Proof. intros. unfold sdpa. cbn. rewrite H. reflexivity. Qed.
Print Assumptions C108_torch_error_refuted.

(** Everything quantized: strict mode works. *)
Example C108_nonvacuous : let f : quantizer := fun t => Ok (mkT true (t_heads t) (t_rows t) (t_cols t) (t_at t)) in
  let qs := mkQs (Some f) (Some f) (Some f) (Some f) (Some f) (Some f) (Some f) (Some f) in
  let x := mkT true 1 2 2 (fun _ i j => Fin (inject_Z (Z.of_nat (i + j)))) in
  (let? out := sdpa_math (fun x => 1 + x * x)%Q (fun x => x) (fun _ t => t) x x x None 0 true (Some 1%Q) false NInf qs true in Ok (t_quant out)) = Ok true /\
  sdpa_math (fun x => 1 + x * x)%Q (fun x => x) (fun _ t => t) x x x None 0 true (Some 1%Q) false NInf (mkQs (Some f) None (Some f) (Some f) (Some f) (Some f) (Some f) (Some f)) true = Err QuantizationError.
Proof. cbn zeta. split; vm_compute; reflexivity. Qed.

(** ** C109: the dtype for attention *)

(** [with sdpa_upcast(...)] sets the dtype for its body and restores it afterwards, also after an exception, however
    such statements are nested.  Missing: managers that are made before they are entered. *)
Theorem C109_scoped_partial : forall p s vars, inline p ->
  u_state (urun s vars p) = s /\ (u_log (urun s vars p), u_failed (urun s vars p)) = reads s p.
Proof.
  intros p s vars H. split; [apply urun_restores, H|]. destruct (urun_reads p s vars H) as [-> ->]. destruct (reads s p); reflexivity.
Qed.
Print Assumptions C109_scoped_partial.

(** A manager that was made outside another one restores the dtype of the outside when it is entered inside. *)
Theorem C109_early_refuted : exists p s, u_log (urun s (fun _ => None) p) = [Some 3; Some 5; Some 0] /\ s = Some 0 /\
  p = UNew 1 (DType 5) (UWith (DType 3) (UGet (UEnter 1 (UGet UDone) (UGet UDone))) UDone).
Proof. eexists. eexists. split; [|split; reflexivity]. reflexivity. Qed.
Print Assumptions C109_early_refuted.

Example C109_nonvacuous : exists p, inline p /\ urun (Some 0) (fun _ => None) p = mkU (Some 0) (fun _ => None) true [None; Some 7; None; Some 0] /\
  p = UWith DFalse (UGet (UWith (DType 7) (UGet UDone) (UGet UDone))) (UGet (UWith DTrue URaise UDone)).
Proof. eexists. split; [|split; [|reflexivity]]; [cbn; tauto | reflexivity]. Qed.
