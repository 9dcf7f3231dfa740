(** Proofs for C107-C109. *)
From Coq Require Import QArith Lqa.
From Verif Require Import Prelude SdpModel SdpSpec.
Local Open Scope nat_scope.
Local Open Scope list_scope.

Lemma nsum_fin : forall g f n, (forall k, k < n -> g k = Fin (f k)) -> nsum g n = Fin (qsum f n).
Proof. intros g f. induction n as [|n IH]; intros H; cbn [nsum qsum]; [reflexivity|]. rewrite (IH (fun k L => H k (Nat.lt_lt_succ_r _ _ L))), (H n (Nat.lt_succ_diag_r n)). reflexivity. Qed.
Lemma qsum_ext : forall f g n, (forall k, k < n -> (f k == g k)%Q) -> (qsum f n == qsum g n)%Q.
Proof. intros f g. induction n as [|n IH]; intros H; cbn [qsum]; [reflexivity|]. rewrite (IH (fun k L => H k (Nat.lt_lt_succ_r _ _ L))), (H n (Nat.lt_succ_diag_r n)). reflexivity. Qed.
Lemma qsum_scale : forall c f n, (qsum (fun k => c * f k) n == c * qsum f n)%Q.
Proof. intros c f. induction n as [|n IH]; cbn [qsum]; [ring|]. rewrite IH. ring. Qed.
Lemma qsum_nonneg : forall f n, (forall k, k < n -> (0 <= f k)%Q) -> (0 <= qsum f n)%Q.
Proof.
  intros f. induction n as [|n IH]; intros H; cbn [qsum]; [apply Qle_refl|]. specialize (IH (fun k L => H k (Nat.lt_lt_succ_r _ _ L))). specialize (H n (Nat.lt_succ_diag_r n)). lra.
Qed.
Lemma qsum_pos : forall f n j, (forall k, k < n -> (0 <= f k)%Q) -> j < n -> (0 < f j)%Q -> (0 < qsum f n)%Q.
Proof.
  intros f. induction n as [|n IH]; intros j H L P; [lia|]. cbn [qsum]. pose proof (qsum_nonneg f n (fun k L => H k (Nat.lt_lt_succ_r _ _ L))) as X. pose proof (H n (Nat.lt_succ_diag_r n)) as Y.
  destruct (Nat.eq_dec j n) as [->|N]; [lra|]. assert (Z : (0 < qsum f n)%Q) by (apply (IH j); [intros k Lk; apply H; lia | lia | exact P]). lra.
Qed.
Lemma qsum_zero : forall f n, (forall k, k < n -> (f k == 0)%Q) -> (qsum f n == 0)%Q.
Proof. intros f n H. rewrite (qsum_ext f (fun _ => 0%Q) n H). induction n as [|n IH]; cbn [qsum]; [reflexivity|]. rewrite IH; [ring|]. intros k L. apply H. lia. Qed.
Lemma nall_iff : forall p n, nall p n = true <-> forall k, k < n -> p k = true.
Proof. intros p n. unfold nall. rewrite forallb_forall. split; intros H k I; apply H; [apply in_seq; lia | apply in_seq in I; lia]. Qed.
Lemma nall_false : forall p n, nall p n = false <-> exists k, k < n /\ p k = false.
Proof.
  intros p n. split.
  - intros H. unfold nall in H. assert (X : existsb (fun k => negb (p k)) (seq 0 n) = true).
    { clear -H. induction (seq 0 n) as [|a l IH]; cbn in *; [discriminate|]. destruct (p a); cbn in *; [apply IH, H | reflexivity]. }
    apply existsb_exists in X. destruct X as (k & I & Hk). exists k. apply in_seq in I. split; [lia|]. destruct (p k); [discriminate | reflexivity].
  - intros (k & L & Hk). destruct (nall p n) eqn:E; [|reflexivity]. rewrite nall_iff in E. rewrite (E k L) in Hk. discriminate.
Qed.
Lemma nall_ext : forall p q n, (forall k, k < n -> p k = q k) -> nall p n = nall q n.
Proof. intros p q n H. destruct (nall q n) eqn:E; [apply nall_iff; intros k L; rewrite (H k L); revert k L; apply nall_iff, E | apply nall_false in E; destruct E as (k & L & Hk); apply nall_false; exists k; rewrite (H k L); auto]. Qed.
Lemma bidx_small : forall n h, h < n -> bidx n h = h.
Proof. intros n h L. unfold bidx. destruct (Nat.eqb_spec n 1); [lia | reflexivity]. Qed.
Lemma bdim_same : forall n, bdim n n = Ok n.
Proof. intros n. unfold bdim. rewrite Nat.eqb_refl. reflexivity. Qed.
Lemma bdim_fits : forall n m, size_fits n m -> bdim m n = Ok m.
Proof.
  intros n m [->| ->]; [|apply bdim_same]. unfold bdim. destruct (Nat.eqb_spec m 1) as [->|]; reflexivity.
Qed.

Section Row.
  Variable exp : Q -> Q.
  Hypothesis exp_pos : forall x, (0 < exp x)%Q.
  Hypothesis exp_eq : forall x y, (x == y)%Q -> (exp x == exp y)%Q.
  Lemma attend_ext : forall S f g v w, (forall j, j < S -> match f j, g j with Some x, Some y => (x == y)%Q /\ (v j == w j)%Q | None, None => True | _, _ => False end) -> (attend exp S f v == attend exp S g w)%Q.
  Proof.
    intros S f g v w H. unfold attend.
    change (forallb ?p (seq 0 S)) with (nall p S).
    rewrite (nall_ext (fun j => match f j with Some _ => false | None => true end) (fun j => match g j with Some _ => false | None => true end) S) by (intros j L; specialize (H j L); destruct (f j), (g j); tauto).
    change (forallb ?p (seq 0 S)) with (nall p S). destruct (nall _ S); [reflexivity|].
    assert (W : forall j, j < S -> (match f j with Some x => exp x | None => 0 end == match g j with Some x => exp x | None => 0 end)%Q) by (intros j L; specialize (H j L); destruct (f j), (g j); try contradiction; [apply exp_eq, H | reflexivity]).
    rewrite (qsum_ext _ _ S W). rewrite (qsum_ext (fun j => match f j with Some x => exp x | None => 0 end * v j)%Q (fun j => match g j with Some x => exp x | None => 0 end * w j)%Q S); [reflexivity|].
    intros j L. specialize (W j L). specialize (H j L). rewrite W. destruct (f j), (g j); try contradiction; [destruct H as [_ H]; rewrite H; reflexivity | ring].
  Qed.
  Lemma attend_bounds : forall S f v lo hi, (exists j, j < S /\ f j <> None) -> (forall j, j < S -> f j <> None -> (lo <= v j <= hi)%Q) -> (lo <= attend exp S f v <= hi)%Q.
  Proof.
    intros S f v lo hi (j0 & L0 & N0) B. unfold attend. change (forallb ?p (seq 0 S)) with (nall p S).
    set (w := fun j => match f j with Some x => exp x | None => 0%Q end).
    rewrite (proj2 (nall_false _ S)) by (exists j0; split; [exact L0 | destruct (f j0); [reflexivity | contradiction]]).
    assert (Wn : forall k, (0 <= w k)%Q) by (intros k; unfold w; destruct (f k); [apply Qlt_le_weak, exp_pos | apply Qle_refl]).
    assert (Z : (0 < qsum w S)%Q) by (apply (qsum_pos w S j0); [intros k _; apply Wn | exact L0|]; unfold w; destruct (f j0); [apply exp_pos | contradiction]).
    assert (X : (lo * qsum w S <= qsum (fun j => w j * v j) S <= hi * qsum w S)%Q).
    { clear Z L0 N0 j0. assert (Y : forall n, n <= S -> (lo * qsum w n <= qsum (fun j => w j * v j) n <= hi * qsum w n)%Q).
      { induction n as [|n IH]; intros Ln; cbn [qsum]; [lra|]. specialize (IH (Nat.lt_le_incl _ _ Ln)). specialize (Wn n). specialize (B n Ln).
        assert (T : (lo * w n <= w n * v n <= hi * w n)%Q). { unfold w in *. destruct (f n) as [x|]; [|lra]. specialize (B ltac:(discriminate)). destruct B as [B1 B2]. rewrite (Qmult_comm lo), (Qmult_comm hi). split; apply Qmult_le_l; try (apply exp_pos); assumption. }
        lra. }
      apply (Y S (le_n S)). }
    split; [apply Qle_shift_div_l; [exact Z | apply X] | apply Qle_shift_div_r; [exact Z | apply X]].
  Qed.
End Row.

Lemma Qeq_refl' : forall x y, x = y -> (x == y)%Q.
Proof. intros x y ->. reflexivity. Qed.

Section Sdpa.
  Variable exp : Q -> Q.
  Variable root : Q -> Q.
  Variable drop : Q -> tensor -> tensor.
  Hypothesis exp_pos : forall x, (0 < exp x)%Q.
  Hypothesis exp_eq : forall x y, (x == y)%Q -> (exp x == exp y)%Q.

  Lemma open_guard : forall ins c, guarded false ins None c = c.
  Proof. intros ins [t|e]; reflexivity. Qed.
  Lemma factor_ok : forall scale E s, scale_is root scale E s -> scale_factor root scale E = Ok (root s).
  Proof.
    intros [x|] E s [P H]; unfold scale_factor.
    - subst x. cbn [rbind]. rewrite (proj2 (Qle_bool_iff 0 s) P). reflexivity.
    - destruct H as [N ->]. destruct (Qeq_bool (root (inject_Z (Z.of_nat E))) 0) eqn:B; [apply Qeq_bool_iff in B; contradiction|]. cbn [rbind]. rewrite (proj2 (Qle_bool_iff _ _) P). reflexivity.
  Qed.
  (** What the bias holds. *)
  Definition entry (neg_inf : num) (m : option mask) (is_causal : bool) (h i j : nat) : num :=
    match m with
    | Some (MFloat t) => bat t h i j
    | _ => match says m is_causal h i j with Some b => Fin b | None => neg_inf end
    end.
  Lemma bias_ok : forall m is_causal H L S neg_inf, mask_fits m is_causal H L S -> exists b, attn_bias m is_causal L S neg_inf None = Ok b /\ size_fits (t_heads b) H /\ size_fits (t_rows b) L /\ size_fits (t_cols b) S /\
    forall h i j, h < H -> i < L -> j < S -> bat b h i j = entry neg_inf m is_causal h i j.
  Proof.
    intros [[hs rs cs p|t]|] is_causal H L S neg_inf F; cbn in F.
    - destruct F as (-> & F1 & F2 & F3). eexists. split; [reflexivity|]. cbn. repeat (split; [assumption|]). intros h i j _ _ _. unfold bat, entry, says. cbn. destruct (p _ _ _); reflexivity.
    - destruct F as (-> & F1 & F2 & F3 & F4). exists t. split; [reflexivity|]. repeat (split; [assumption|]). intros h i j _ _ _. reflexivity.
    - destruct is_causal; eexists; (split; [reflexivity|]); cbn [t_heads t_rows t_cols]; (split; [left; reflexivity|]); (split; [right; reflexivity|]); (split; [right; reflexivity|]); intros h i j Lh Li Lj; unfold bat, entry, says; cbn [t_at t_rows t_cols t_heads andb]; [|reflexivity]. rewrite (bidx_small L i Li), (bidx_small S j Lj). rewrite Nat.ltb_antisym. destruct (j <=? i); reflexivity.
  Qed.
  (** Entries that count as masked at the end. *)
  Definition gone (neg_inf : num) (a : num) : bool := match neg_inf with NInf => is_neginf a | _ => nle a neg_inf end.
  Lemma row_value : forall (x : nat -> num) S neg_inf (e val : nat -> num) (sc v : nat -> Q), neg_inf <> NaN ->
    (forall j, j < S -> x j = nadd (Fin (sc j)) (e j)) -> (forall j, j < S -> e j <> NaN) -> (forall j, j < S -> val j = Fin (v j)) ->
    exists y, nsum (fun j => nmul (if nall (fun k => match neg_inf with NInf => is_neginf (x k) | _ => nle (x k) neg_inf end) S then Fin 0
        else if nall (fun k => is_neginf (x k)) S then NaN else ndiv (nexp exp (x j)) (nsum (fun k => nexp exp (x k)) S)) (val j)) S = Fin y /\
      (y == if nall (fun j => gone neg_inf (nadd (Fin (sc j)) (e j))) S then 0 else attend exp S (fun j => match e j with Fin b => Some (sc j + b)%Q | _ => None end) v)%Q.
  Proof.
    intros x S neg_inf e val sc v Hn LG Nn Va.
    rewrite (nall_ext (fun k => match neg_inf with NInf => is_neginf (x k) | _ => nle (x k) neg_inf end) (fun j => gone neg_inf (nadd (Fin (sc j)) (e j))) S) by (intros j Lj; rewrite (LG j Lj); reflexivity).
    rewrite (nall_ext (fun k => is_neginf (x k)) (fun j => is_neginf (nadd (Fin (sc j)) (e j))) S) by (intros j Lj; rewrite (LG j Lj); reflexivity).
    destruct (nall (fun j => gone neg_inf (nadd (Fin (sc j)) (e j))) S) eqn:G.
    - exists (qsum (fun j => 0 * v j)%Q S). split; [apply nsum_fin; intros j Lj; rewrite (Va j Lj); reflexivity|]. apply qsum_zero. intros j _. ring.
    - set (w := fun j => match e j with Fin b0 => exp (sc j + b0) | _ => 0%Q end).
      assert (We : forall j, j < S -> nexp exp (x j) = Fin (w j)) by (intros j Lj; rewrite (LG j Lj); unfold w; specialize (Nn j Lj); destruct (e j); [reflexivity | reflexivity | contradiction]).
      assert (Ex : exists j, j < S /\ exists b0, e j = Fin b0).
      { apply nall_false in G. destruct G as (j & Lj & Gj). exists j. split; [exact Lj|]. specialize (Nn j Lj). unfold gone in Gj. destruct (e j) as [b0| |]; [eauto | | contradiction]. cbn in Gj. destruct neg_inf; [discriminate | discriminate | contradiction]. }
      rewrite (proj2 (nall_false (fun j => is_neginf (nadd (Fin (sc j)) (e j))) S)) by (destruct Ex as (j & Lj & b0 & Ej); exists j; split; [exact Lj | rewrite Ej; reflexivity]).
      assert (Wn : forall j, (0 <= w j)%Q) by (intros j; unfold w; destruct (e j); [apply Qlt_le_weak, exp_pos | apply Qle_refl | apply Qle_refl]).
      assert (Zp : (0 < qsum w S)%Q). { destruct Ex as (j & Lj & b0 & Ej). apply (qsum_pos w S j); [intros z _; apply Wn | exact Lj|]. unfold w. rewrite Ej. apply exp_pos. }
      exists (qsum (fun j => w j / qsum w S * v j)%Q S). split.
      + apply nsum_fin. intros j Lj. rewrite (We j Lj), (Va j Lj), (nsum_fin _ w S We). cbn [ndiv].
        destruct (Qeq_bool (qsum w S) 0) eqn:B; [apply Qeq_bool_iff in B; rewrite B in Zp; discriminate Zp | reflexivity].
      + unfold attend. change (forallb ?p (seq 0 S)) with (nall p S). rewrite (proj2 (nall_false _ S)) by (destruct Ex as (j & Lj & b0 & Ej); exists j; rewrite Ej; auto).
        assert (Wq : forall j, w j = match (match e j with Fin b0 => Some (sc j + b0)%Q | _ => None end) with Some z => exp z | None => 0%Q end) by (intros j; unfold w; destruct (e j); reflexivity).
        rewrite <- (qsum_ext w _ S (fun j _ => Qeq_refl' _ _ (Wq j))).
        rewrite (qsum_ext _ (fun j => / qsum w S * (w j * v j))%Q S) by (intros j _; unfold Qdiv; ring). rewrite qsum_scale. unfold Qdiv. rewrite Qmult_comm. apply Qmult_comp; [|reflexivity]. apply qsum_ext. intros j _. rewrite <- (Wq j). reflexivity.
  Qed.
  Lemma math_open : forall query key value m is_causal scale gqa neg_inf s q k v,
    scale_is root scale (t_cols query) s -> sizes query key value gqa -> mask_fits m is_causal (t_heads query) (t_rows query) (t_rows key) -> neg_inf <> NaN ->
    holds query q -> holds key k -> holds value v ->
    exists out, sdpa_math exp root drop query key value m 0 is_causal scale gqa neg_inf no_quantizers false = Ok out /\
    equals out (t_heads query) (t_rows query) (t_cols value) (fun h i c =>
      let g := kv_head query key gqa h in
      let score j := (root s * root s * dot (q h i) (k g j) (t_cols query))%Q in
      let logit j := nadd (Fin (qsum (fun x => q h i x * root s * (k g j x * root s))%Q (t_cols query))) (entry neg_inf m is_causal h i j) in
      if nall (fun j => gone neg_inf (logit j)) (t_rows key) then 0%Q
      else attend exp (t_rows key) (fun j => match entry neg_inf m is_causal h i j with Fin b => Some (score j + b)%Q | _ => None end) (fun j => v g j c)).
  Proof.
    intros query key value m is_causal scale gqa neg_inf s q k v Hs Hz Hm Hn Hq Hk Hv.
    destruct Hz as (Z1 & Z2 & Z3 & Z4).
    set (H := t_heads query) in *. set (L := t_rows query) in *. set (E := t_cols query) in *. set (S := t_rows key) in *. set (V := t_cols value).
    set (g := kv_head query key gqa).
    (* keys and values by head of the query *)
    assert (KV : exists key' value', (if gqa then if false then Err QuantizationError else let? nk := floordiv H (t_heads key) in let? nv := floordiv H (t_heads value) in Ok (repeat_heads key nk, repeat_heads value nv) else Ok (key, value)) = Ok (key', value') /\
      t_heads key' = H /\ t_heads value' = H /\ t_rows key' = S /\ t_cols key' = E /\ t_rows value' = S /\ t_cols value' = V /\
      (forall h j x, h < H -> j < S -> x < E -> t_at key' h j x = Fin (k (g h) j x)) /\ (forall h j c, h < H -> j < S -> c < V -> t_at value' h j c = Fin (v (g h) j c))).
    { destruct gqa.
      - destruct Z4 as (P & n & Pn & En). assert (D : H / t_heads key = n) by (rewrite En, Nat.mul_comm; apply Nat.div_mul; lia).
        exists (repeat_heads key n), (repeat_heads value n). unfold floordiv. rewrite <- Z3. replace (t_heads key =? 0) with false by (symmetry; apply Nat.eqb_neq; lia). cbn [rbind]. rewrite D. split; [reflexivity|]. cbn. rewrite <- Z3.
        repeat (split; [first [reflexivity | symmetry; assumption]|]).
        assert (Gh : forall h, h < H -> h / n < t_heads key) by (intros h Lh; apply Nat.div_lt_upper_bound; [lia | rewrite En in Lh; lia]).
        split; intros h j x Lh Lj Lx; unfold g, kv_head; fold H; rewrite D; [apply Hk | apply Hv]; try assumption; try (apply Gh, Lh); try (rewrite <- Z3; apply Gh, Lh); lia.
      - exists key, value. split; [reflexivity|]. rewrite <- Z3, Z4, <- Z2, Z1. repeat (split; [reflexivity|]). unfold g, kv_head. split; intros h j x Lh Lj Lx; [apply Hk | apply Hv]; try assumption; lia. }
    destruct KV as (key' & value' & EK & Kh & Vh & Kr & Kc & Vr & Vc & Ka & Va).
    unfold sdpa_math. fold H L E S. rewrite EK. cbn [rbind fst snd]. rewrite (factor_ok _ _ _ Hs). cbn [rbind q_query q_key q_scores q_mask q_masked q_weights q_dropout q_output no_quantizers].
    set (r := root s). rewrite open_guard. cbn [rbind]. rewrite open_guard. cbn [rbind]. rewrite open_guard.
    unfold matmul at 1. cbn [scaled transpose t_cols t_rows t_heads t_at]. fold E. rewrite Kc, Nat.eqb_refl, Kh. fold H. rewrite bdim_same. cbn [rbind].
    destruct (bias_ok m is_causal H L S neg_inf Hm) as (b & Eb & B1 & B2 & B3 & Bat). rewrite Eb. cbn [rbind]. rewrite open_guard. unfold tadd. cbn [t_heads t_rows t_cols]. fold L. rewrite Kr, (bdim_fits _ _ B1), (bdim_fits _ _ B2), (bdim_fits _ _ B3). cbn [rbind].
    unfold safe_softmax. cbn [rbind]. rewrite open_guard. cbn [rbind]. replace (Qeq_bool 0 0) with true by reflexivity. rewrite open_guard.
    unfold matmul. cbn [softmax t_heads t_rows t_cols t_at]. rewrite Vr, Nat.eqb_refl, Vh, bdim_same. cbn [rbind]. rewrite Vc.
    eexists. split; [reflexivity|]. unfold equals. cbn [t_heads t_rows t_cols t_at]. repeat (split; [reflexivity|]).
    intros h i c Lh Li Lc. fold g r.
    set (sc := fun j => qsum (fun x => q h i x * r * (k (g h) j x * r))%Q E).
    set (lg := fun j => nadd (Fin (sc j)) (entry neg_inf m is_causal h i j)).
    assert (LG : forall j, j < S -> nadd (bat (mkT false H L S (fun h i j => nsum (fun k0 => nmul (nmul (t_at query (bidx H h) i k0) (Fin r)) (nmul (t_at key' (bidx H h) j k0) (Fin r))) E)) h i j) (bat b h i j) = lg j).
    { intros j Lj. rewrite (Bat h i j Lh Li Lj). unfold lg. f_equal. unfold bat. cbn [t_heads t_rows t_cols t_at]. rewrite !(bidx_small H h Lh), (bidx_small L i Li), (bidx_small S j Lj). unfold sc. apply nsum_fin. intros x Lx. rewrite (Hq h i x Lh Li Lx), (Ka h j x Lh Lj Lx). reflexivity. }
    assert (Nn : forall j, j < S -> entry neg_inf m is_causal h i j <> NaN).
    { intros j Lj. unfold entry. destruct m as [[hs rs cs p|t]|]; [destruct (says _ _ _ _ _); [discriminate | exact Hn] | | destruct (says _ _ _ _ _); [discriminate | exact Hn]].
      cbn in Hm. destruct Hm as (_ & _ & _ & _ & N). unfold bat. specialize (N (bidx (t_heads t) h) (bidx (t_rows t) i) (bidx (t_cols t) j)). intros X. rewrite X in N. discriminate N. }
    rewrite (bidx_small H h Lh).
    destruct (row_value _ S neg_inf (fun j => entry neg_inf m is_causal h i j) (fun j => t_at value' h j c) sc (fun j => v (g h) j c) Hn LG Nn (fun j Lj => Va h j c Lh Lj Lc)) as (y & Ey & Qy).
    exists y. split; [exact Ey|]. rewrite Qy. cbn zeta. match goal with |- ((if ?a then _ else _) == (if ?b then _ else _))%Q => change b with a; destruct a end; [reflexivity|].
    apply (attend_ext exp exp_eq). intros j _. destruct (entry neg_inf m is_causal h i j); [|exact I|exact I]. split; [|reflexivity]. apply Qplus_comp; [|reflexivity]. unfold sc, dot. rewrite <- qsum_scale. apply qsum_ext. intros z _. ring.
  Qed.
  Lemma math_attends : forall query key value m is_causal scale gqa s q k v,
    scale_is root scale (t_cols query) s -> sizes query key value gqa -> mask_fits m is_causal (t_heads query) (t_rows query) (t_rows key) ->
    holds query q -> holds key k -> holds value v ->
    exists out, sdpa_math exp root drop query key value m 0 is_causal scale gqa NInf no_quantizers false = Ok out /\
    equals out (t_heads query) (t_rows query) (t_cols value) (fun h i c =>
      attend exp (t_rows key) (logits root s q k (t_cols query) m is_causal (kv_head query key gqa h) h i) (fun j => v (kv_head query key gqa h) j c)).
  Proof.
    intros query key value m is_causal scale gqa s q k v Hs Hz Hm Hq Hk Hv.
    destruct (math_open query key value m is_causal scale gqa NInf s q k v Hs Hz Hm ltac:(discriminate) Hq Hk Hv) as (out & E & D1 & D2 & D3 & D4).
    exists out. split; [exact E|]. split; [exact D1|]. split; [exact D2|]. split; [exact D3|]. intros h i c Lh Li Lc. destruct (D4 h i c Lh Li Lc) as (y & Ey & Qy). exists y. split; [exact Ey|]. rewrite Qy. cbn zeta.
    assert (X : forall j, entry NInf m is_causal h i j = match says m is_causal h i j with Some b => Fin b | None => NInf end).
    { intros j. unfold entry. destruct m as [[hs rs cs p|t]|]; [reflexivity | | reflexivity]. cbn [says]. cbn in Hm. destruct Hm as (_ & _ & _ & _ & N). unfold bat in *. specialize (N (bidx (t_heads t) h) (bidx (t_rows t) i) (bidx (t_cols t) j)). destruct (t_at t _ _ _); [reflexivity | reflexivity | discriminate N]. }
    set (g := kv_head query key gqa h).
    assert (Y : (attend exp (t_rows key) (fun j => match entry NInf m is_causal h i j with Fin b => Some (root s * root s * dot (q h i) (k g j) (t_cols query) + b)%Q | _ => None end) (fun j => v g j c) == attend exp (t_rows key) (logits root s q k (t_cols query) m is_causal g h i) (fun j => v g j c))%Q).
    { apply attend_ext; [exact exp_eq|]. intros j _. rewrite (X j). unfold logits. destruct (says m is_causal h i j); cbn; [split; reflexivity | exact I]. }
    match goal with |- ((if ?a then _ else _) == _)%Q => destruct a eqn:G end; [|exact Y].
    unfold attend. replace (forallb _ _) with true; [reflexivity|]. symmetry. apply nall_iff. intros j Lj. rewrite nall_iff in G. specialize (G j Lj). cbn beta in G. rewrite (X j) in G. unfold logits. destruct (says m is_causal h i j); [discriminate G | reflexivity].
  Qed.

  (** *** Strict mode *)
  Lemma guarded_strict : forall ins q c t, guarded true ins q c = Ok t -> q <> None /\ (forall x, In x ins -> t_quant x = true).
  Proof.
    intros ins q c t E. unfold guarded in E. cbn [andb] in E. destruct q as [f|]; [|discriminate]. split; [discriminate|]. destruct (existsb (fun t => negb (t_quant t)) ins) eqn:X; [discriminate|]. intros x I. destruct (t_quant x) eqn:T; [reflexivity|].
    assert (Y : existsb (fun t => negb (t_quant t)) ins = true) by (apply existsb_exists; exists x; split; [exact I | rewrite T; reflexivity]). congruence.
  Qed.
  Lemma rbind_ok : forall {A B} (r : result A) (f : A -> result B) b, rbind r f = Ok b -> exists a, r = Ok a /\ f a = Ok b.
  Proof. intros A B [a|e] f b E; [exists a; auto | discriminate]. Qed.
  Lemma bias_given : forall m is_causal L S neg_inf b, attn_bias m is_causal L S neg_inf None = Ok b -> t_quant b = true -> exists t, m = Some (MFloat t) /\ t_quant t = true.
  Proof. intros [[hs rs cs p|t]|] [|] L S neg_inf b E Tb; cbn in E; try discriminate; injection E as <-; try discriminate Tb. exists t. auto. Qed.
  Lemma softmax_given : forall t neg_inf w, safe_softmax exp t None neg_inf = Ok w -> t_quant w = false.
  Proof. intros t neg_inf w E. unfold safe_softmax in E. injection E as <-. reflexivity. Qed.
  Lemma math_strict : forall query key value m p is_causal scale gqa neg_inf qs out,
    sdpa_math exp root drop query key value m p is_causal scale gqa neg_inf qs true = Ok out ->
    gqa = false /\ t_quant query = true /\ t_quant key = true /\ t_quant value = true /\ Forall (fun q => q <> None) [q_scores qs; q_masked qs; q_weights qs; q_query qs; q_key qs; q_dropout qs; q_output qs] /\
    (q_mask qs <> None \/ exists t, m = Some (MFloat t) /\ t_quant t = true).
  Proof.
    intros query key value m p is_causal scale gqa neg_inf qs out E. unfold sdpa_math in E. destruct gqa; [discriminate|]. cbn [rbind fst snd] in E.
    apply rbind_ok in E. destruct E as (r & _ & E). apply rbind_ok in E. destruct E as (query' & E1 & E). apply rbind_ok in E. destruct E as (key' & E2 & E). apply rbind_ok in E. destruct E as (scores & E3 & E). apply rbind_ok in E. destruct E as (bias & E4 & E). apply rbind_ok in E. destruct E as (masked & E5 & E). apply rbind_ok in E. destruct E as (weights & E6 & E). apply rbind_ok in E. destruct E as (dropped & E7 & E).
    apply guarded_strict in E1. apply guarded_strict in E2. apply guarded_strict in E3. apply guarded_strict in E5. apply guarded_strict in E7. apply guarded_strict in E.
    split; [reflexivity|]. split; [apply E1; left; reflexivity|]. split; [apply E2; left; reflexivity|]. split; [apply E; right; left; reflexivity|]. split.
    - repeat (apply Forall_cons); try tauto; [|apply Forall_nil]. intros N. rewrite N in E6. apply softmax_given in E6. destruct E7 as [_ E7]. rewrite (E7 weights (or_introl eq_refl)) in E6. discriminate.
    - destruct (q_mask qs) as [f|] eqn:F; [left; discriminate | right]. destruct E5 as [_ E5]. apply (bias_given _ _ _ _ _ _ E4 (E5 bias (or_intror (or_introl eq_refl)))).
  Qed.
End Sdpa.

(** *** The context manager *)
Lemma urun_restores : forall p s vars, inline p -> u_state (urun s vars p) = s /\ u_vars (urun s vars p) = vars.
Proof.
  induction p as [| |rest IH|a body IHb rest IHr|x a rest IH|x body IHb rest IHr]; intros s vars H; cbn in *; auto; try contradiction.
  destruct H as [Hb Hr]. destruct (IHb (dtype_of a) vars Hb) as [_ Vb]. destruct (u_failed (urun (dtype_of a) vars body)); cbn; [auto|]. rewrite Vb. apply IHr, Hr.
Qed.
Lemma urun_reads : forall p s vars, inline p -> u_log (urun s vars p) = fst (reads s p) /\ u_failed (urun s vars p) = snd (reads s p).
Proof.
  induction p as [| |rest IH|a body IHb rest IHr|x a rest IH|x body IHb rest IHr]; intros s vars H; cbn [urun reads inline] in *; auto; try contradiction.
  - cbn. destruct (IH s vars H) as [-> ->]. auto.
  - destruct H as [Hb Hr]. cbn [u_new u_old]. destruct (IHb (dtype_of a) vars Hb) as [Lb Fb]. destruct (urun_restores body (dtype_of a) vars Hb) as [_ Vb].
    change (match a with DType d => Some d | DTrue => Some 0 | DFalse => None end) with (dtype_of a). rewrite Fb. destruct (snd (reads (dtype_of a) body)) eqn:X; cbn [u_log u_failed]; [split; [exact Lb | symmetry; exact X]|].
    destruct (IHr s (u_vars (urun (dtype_of a) vars body)) Hr) as [Lr Fr]. rewrite Lb, Lr, Fr. auto.
Qed.
Lemma qle_bool_eq : forall x y z, (x == y)%Q -> Qle_bool x z = Qle_bool y z.
Proof. intros x y z E. destruct (Qle_bool y z) eqn:B; [apply Qle_bool_iff; rewrite E; apply Qle_bool_iff, B|]. destruct (Qle_bool x z) eqn:A; [|reflexivity]. apply Qle_bool_iff in A. rewrite E in A. apply Qle_bool_iff in A. congruence. Qed.
Lemma math_penalises : forall exp root drop, (forall x, (0 < exp x)%Q) -> (forall x y, (x == y)%Q -> (exp x == exp y)%Q) -> forall query key value m is_causal scale gqa c s q k v,
    scale_is root scale (t_cols query) s -> sizes query key value gqa -> mask_fits m is_causal (t_heads query) (t_rows query) (t_rows key) -> (forall t, m <> Some (MFloat t)) ->
    holds query q -> holds key k -> holds value v ->
    exists out, sdpa_math exp root drop query key value m 0 is_causal scale gqa (Fin c) no_quantizers false = Ok out /\
    equals out (t_heads query) (t_rows query) (t_cols value) (fun h i col =>
      let logit := penalised root s q k (t_cols query) m is_causal c (kv_head query key gqa h) h i in
      if forallb (fun j => Qle_bool (logit j) c) (seq 0 (t_rows key)) then 0%Q
      else attend exp (t_rows key) (fun j => Some (logit j)) (fun j => v (kv_head query key gqa h) j col)).
Proof.
  intros exp root drop Pe Ee query key value m is_causal scale gqa c s q k v Hs Hz Hm Nm Hq Hk Hv.
  destruct (math_open exp root drop Pe Ee query key value m is_causal scale gqa (Fin c) s q k v Hs Hz Hm ltac:(discriminate) Hq Hk Hv) as (out & E & D1 & D2 & D3 & D4).
  exists out. split; [exact E|]. split; [exact D1|]. split; [exact D2|]. split; [exact D3|]. intros h i col Lh Li Lc. destruct (D4 h i col Lh Li Lc) as (y & Ey & Qy). exists y. split; [exact Ey|]. rewrite Qy. cbn zeta.
  assert (X : forall j, entry (Fin c) m is_causal h i j = Fin (match says m is_causal h i j with Some b => b | None => c end)).
  { intros j. unfold entry. destruct m as [[hs rs cs p|t]|]; [|exfalso; apply (Nm t); reflexivity|]; destruct (says _ _ _ _ _); reflexivity. }
  set (g := kv_head query key gqa h).
  change (forallb ?p (seq 0 (t_rows key))) with (nall p (t_rows key)).
  match goal with |- ((if ?a then _ else _) == (if ?b then _ else _))%Q => assert (Y : a = b) end.
  { apply nall_ext. intros j Lj. rewrite (X j). cbn [nadd gone nle]. apply qle_bool_eq. unfold penalised. apply Qplus_comp; [|reflexivity]. unfold dot. rewrite <- qsum_scale. apply qsum_ext. intros z _. ring. }
  match goal with |- ((if ?a then _ else _) == (if ?b then _ else _))%Q => destruct a, b end; try discriminate Y; [reflexivity|].
  apply attend_ext; [exact Ee|]. intros j _. rewrite (X j). split; reflexivity.
Qed.

(** ** Steps *)
Lemma guarded_ok : forall strict ins q c post, guarded strict ins q c = Ok post -> exists pre, c = Ok pre /\ match q with Some f => f pre = Ok post | None => post = pre end.
Proof.
  intros strict ins q c post E. unfold guarded in E. destruct (strict && match q with None => true | Some _ => false end); [discriminate|]. destruct (strict && existsb _ _); [discriminate|]. destruct c as [pre|]; [|discriminate]. exists pre. split; [reflexivity|]. cbn in E. destruct q; [exact E | injection E as <-; reflexivity].
Qed.
Lemma bdim_common : forall a b n, bdim a b = Ok n -> n = common a b.
Proof. intros a b n E. unfold bdim, common in *. destruct (Nat.eqb_spec a b) as [->|]; [injection E as <-; destruct (b =? 1); reflexivity|]. destruct (Nat.eqb_spec a 1); [injection E as <-; reflexivity|]. destruct (b =? 1); [injection E as <-; reflexivity | discriminate]. Qed.
Lemma math_steps : forall exp root drop query key value m p is_causal scale neg_inf qs strict out,
  sdpa_math exp root drop query key value m p is_causal scale false neg_inf qs strict = Ok out ->
  exists r query' key' scores b masked weights dropped,
  (exists s, scale_is root scale (t_cols query) s /\ r = root s) /\
  stage (q_query qs) (fun t => entries t (t_heads query) (t_rows query) (t_cols query) (fun h i j => nmul (t_at query h i j) (Fin r))) query' /\
  stage (q_key qs) (fun t => entries t (t_heads key) (t_cols key) (t_rows key) (fun h i j => nmul (t_at key h j i) (Fin r))) key' /\
  stage (q_scores qs) (product query' key') scores /\
  stage (q_mask qs) (bias m is_causal (t_rows query) (t_rows key) neg_inf) b /\
  stage (q_masked qs) (sum scores b) masked /\
  stage (q_weights qs) (weighted exp neg_inf masked) weights /\
  stage (q_dropout qs) (fun t => if Qeq_bool p 0 then entries t (t_heads weights) (t_rows weights) (t_cols weights) (t_at weights) else t = drop p weights) dropped /\
  stage (q_output qs) (product dropped value) out.
Proof.
  intros exp root drop query key value m p is_causal scale neg_inf qs strict out E. unfold sdpa_math in E. cbn [rbind fst snd] in E.
  apply rbind_ok in E. destruct E as (r & Er & E). apply rbind_ok in E. destruct E as (query' & E1 & E). apply rbind_ok in E. destruct E as (key' & E2 & E). apply rbind_ok in E. destruct E as (scores & E3 & E). apply rbind_ok in E. destruct E as (b & E4 & E). apply rbind_ok in E. destruct E as (masked & E5 & E). apply rbind_ok in E. destruct E as (weights & E6 & E). apply rbind_ok in E. destruct E as (dropped & E7 & E8).
  exists r, query', key', scores, b, masked, weights, dropped.
  assert (Pr : forall a b t, matmul a b = Ok t -> product a b t).
  { intros a c t Et. unfold matmul in Et. unfold product. destruct (Nat.eqb_spec (t_cols a) (t_rows c)) as [X|]; [|discriminate]. destruct (bdim _ _) as [n|] eqn:B; [|discriminate]. cbn in Et. injection Et as <-. split; [exact X|]. unfold entries. cbn. split; [apply bdim_common, B|]. repeat (split; [reflexivity|]). intros; reflexivity. }
  split.
  { unfold scale_factor in Er. apply rbind_ok in Er. destruct Er as (s & Es & Er). exists s. destruct (Qle_bool 0 s) eqn:P; [|discriminate]. injection Er as <-. split; [|reflexivity]. split; [apply Qle_bool_iff, P|]. destruct scale as [x|]; [injection Es as <-; reflexivity|]. cbn zeta in Es. destruct (Qeq_bool (root (inject_Z (Z.of_nat (t_cols query)))) 0) eqn:B; [discriminate|]. injection Es as <-. split; [intros X; apply Qeq_bool_iff in X; congruence | reflexivity]. }
  split; [apply guarded_ok in E1; destruct E1 as (pre & Ep & H); injection Ep as <-; eexists; split; [|exact H]; unfold entries; cbn; auto|].
  split; [apply guarded_ok in E2; destruct E2 as (pre & Ep & H); injection Ep as <-; eexists; split; [|exact H]; unfold entries; cbn; auto|].
  split; [apply guarded_ok in E3; destruct E3 as (pre & Ep & H); exists pre; split; [apply Pr, Ep | exact H]|].
  split.
  { unfold attn_bias in E4. apply rbind_ok in E4. destruct E4 as (pre & Ep & H). exists pre. split; [|destruct (q_mask qs); [exact H | injection H as <-; reflexivity]].
    destruct m as [[h0 r0 c0 p0|t]|], is_causal; try discriminate Ep; injection Ep as <-; unfold bias, entries; cbn [t_heads t_rows t_cols t_at andb]; auto. repeat (split; [reflexivity|]). intros _ i j. rewrite Nat.leb_antisym. destruct (i <? j); reflexivity. }
  split.
  { apply guarded_ok in E5. destruct E5 as (pre & Ep & H). exists pre. split; [|exact H]. unfold tadd in Ep. apply rbind_ok in Ep. destruct Ep as (n1 & B1 & Ep). apply rbind_ok in Ep. destruct Ep as (n2 & B2 & Ep). apply rbind_ok in Ep. destruct Ep as (n3 & B3 & Ep). injection Ep as <-.
    unfold sum, entries. cbn. rewrite (bdim_common _ _ _ B1), (bdim_common _ _ _ B2), (bdim_common _ _ _ B3). auto. }
  split.
  { unfold safe_softmax in E6. eexists. split; [|destruct (q_weights qs); [exact E6 | injection E6 as <-; reflexivity]]. unfold weighted. cbn. repeat (split; [reflexivity|]). intros h i j. split.
    - intros A. match goal with |- (if ?a then _ else _) = _ => assert (X : a = true) by (apply nall_iff; exact A) end. rewrite X. reflexivity.
    - intros k0 L0 N0. match goal with |- (_ -> (if ?a then _ else _) = _) /\ _ => assert (X : a = false) by (apply nall_false; exists k0; auto) end. rewrite X. split.
      + intros A. match goal with |- (if ?a then _ else _) = _ => assert (Y : a = true) by (apply nall_iff; exact A) end. rewrite Y. reflexivity.
      + intros k1 z y L1 N1 Ez Ey Ny. match goal with |- (if ?a then _ else _) = _ => assert (Y : a = false) by (apply nall_false; exists k1; auto) end. rewrite Y. unfold nexp. rewrite Ez. change (fun k => match t_at masked h i k with Fin x => Fin (exp x) | NInf => Fin 0 | NaN => NaN end) with (fun k => match t_at masked h i k with Fin x => Fin (exp x) | NInf => Fin 0 | NaN => NaN end) in Ey. rewrite Ey. unfold ndiv. destruct (Qeq_bool y 0) eqn:B; [apply Qeq_bool_iff in B; contradiction | reflexivity]. }
  split; [apply guarded_ok in E7; destruct E7 as (pre & Ep & H); injection Ep as <-; eexists; split; [|exact H]; destruct (Qeq_bool p 0); [unfold entries; cbn; auto | reflexivity]|].
  apply guarded_ok in E8. destruct E8 as (pre & Ep & H). exists pre. split; [apply Pr, Ep | exact H].
Qed.
