(** Proofs for C104 and C105. *)
From Coq Require Import String.
From Verif Require Import Prelude OpsModel OpsSpec.
Local Open Scope nat_scope.
Local Open Scope list_scope.

(** *** Types *)
Lemma eqb_atom_r : forall t x, ty_eqb t (Atom x) = true <-> t = Atom x.
Proof. intros [y|t|ts|ts] x; cbn; try (split; discriminate). rewrite String.eqb_eq. split; congruence. Qed.
Lemma eqb_atom_l : forall t x, ty_eqb (Atom x) t = true <-> t = Atom x.
Proof. intros [y|t|ts|ts] x; cbn; try (split; discriminate). rewrite String.eqb_eq. split; congruence. Qed.
Lemma contains_atom : forall t x, contains t (Atom x) = true <-> has t (Atom x).
Proof.
  intros [y|t|ts|ts] x; unfold has, contains, variants.
  - rewrite eqb_atom_l. cbn. split; [intros E; injection E as ->; auto | intros [E|[]]; congruence].
  - rewrite eqb_atom_l. cbn. split; [discriminate | intros [H|[]]; discriminate].
  - rewrite eqb_atom_l. cbn. split; [discriminate | intros [H|[]]; discriminate].
  - cbn [forallb]. rewrite Bool.andb_true_r, existsb_exists. split.
    + intros (u & I & E). apply eqb_atom_r in E. subst. exact I.
    + intros I. exists (Atom x). split; [exact I | apply eqb_atom_r; reflexivity].
Qed.
Definition flat (t : ty) : Prop := forall u, In u (variants t) -> forall us, u <> Union us.
Lemma unwrap_flat : forall t, flat t -> has t TNone -> (forall u, has (unwrap_optional t) u <-> has t u /\ u <> TNone) \/ t = TNone.
Proof.
  intros [y|t|ts|ts] F H; cbn [unwrap_optional]; try (destruct H as [H|[]]; discriminate H).
  - right. destruct H as [H|[]]. exact H.
  - left. pose proof H as H'. apply contains_atom in H'. unfold TNone in *. rewrite H'.
    assert (X : forall u, In u (filter (fun u => negb (ty_eqb u (Atom "NoneType"))) ts) <-> In u ts /\ u <> Atom "NoneType").
    { intros u. rewrite filter_In. split; intros [I J]; split; auto; [intros ->; cbn in J; discriminate|]. apply Bool.negb_true_iff, Bool.not_true_is_false. intros E. apply eqb_atom_r in E. contradiction. }
    intros u. unfold has at 2. cbn [variants]. rewrite <- X. unfold has. destruct (filter (fun u => negb (ty_eqb u (Atom "NoneType"))) ts) as [|w [|w' l]] eqn:E; cbn [variants]; try tauto.
    assert (W : In w ts) by (apply X; left; reflexivity). destruct w as [z|z|z|z]; try reflexivity. exfalso. apply (F (Union z) W z). reflexivity.
Qed.
Lemma unwrap_none : forall t, ~ has t TNone -> unwrap_optional t = t.
Proof.
  intros [y|t|ts|ts] H; cbn [unwrap_optional]; try reflexivity. destruct (contains (Union ts) TNone) eqn:E; [|reflexivity]. exfalso. apply H, contains_atom, E.
Qed.
Lemma dec_has : forall t x, has t (Atom x) \/ ~ has t (Atom x).
Proof. intros t x. destruct (contains t (Atom x)) eqn:E; [left; apply contains_atom, E | right; intros H; apply contains_atom in H; congruence]. Qed.
Lemma contains_false : forall t x, ~ has t (Atom x) -> contains t (Atom x) = false.
Proof. intros t x H. apply Bool.not_true_is_false. intros E. apply H, contains_atom, E. Qed.
Lemma unwrap_has : forall t x, flat t -> x <> "NoneType"%string -> (has (unwrap_optional t) (Atom x) <-> has t (Atom x)).
Proof.
  intros t x F N. destruct (dec_has t "NoneType") as [H|H].
  - destruct (unwrap_flat t F H) as [X| ->]; [|reflexivity]. rewrite X. split; [tauto|]. intros I. split; [exact I|]. unfold TNone. congruence.
  - rewrite (unwrap_none t H). tauto.
Qed.

(** *** Guards *)
Definition proper (t : ty) : Prop := flat t /\ NoDup (variants t) /\ forall u, t <> Union [u].
Lemma only_one : forall {A} (x : A) l, NoDup l -> In x l -> (forall y, In y l -> y = x) -> l = [x].
Proof.
  intros A x [|y [|z l]] N I H; [contradiction | rewrite (H y (or_introl eq_refl)); reflexivity|]. exfalso. inversion N as [|? ? H1 _]; subst. apply H1. left. rewrite (H y), (H z); [reflexivity | right; left; reflexivity | left; reflexivity].
Qed.
Lemma always_spec : forall t, proper t -> (ty_eqb (unwrap_optional t) Quantized = true <-> has t Quantized /\ forall u, has t u -> u = Quantized \/ u = TNone).
Proof.
  intros t (F & N & S). unfold Quantized at 1. rewrite eqb_atom_r. destruct (dec_has t "NoneType") as [H|H].
  - destruct (unwrap_flat t F H) as [X| ->].
    + split.
      * intros E. rewrite E in X. split; [apply X; left; reflexivity|]. intros u I.
        assert (Y : u = TNone \/ u <> TNone) by (destruct u as [y|y|y|y]; try (right; discriminate); destruct (String.eqb_spec y "NoneType") as [->|]; [left; reflexivity | right; unfold TNone; congruence]).
        destruct Y as [Y|Y]; [auto|]. left. assert (Z : has (Atom "QuantizedTensor") u) by (apply X; auto). destruct Z as [Z|[]]. symmetry. exact Z.
      * intros [Hq Hu]. destruct t as [y|y|y|ts]; try (destruct H as [H|[]]; discriminate H).
        -- exfalso. destruct H as [H|[]], Hq as [Hq|[]]. unfold TNone, Quantized in *. congruence.
        -- cbn [unwrap_optional]. pose proof H as H'. apply contains_atom in H'. unfold TNone in *. rewrite H'.
           assert (E : filter (fun u => negb (ty_eqb u (Atom "NoneType"))) ts = [Quantized]); [|rewrite E; reflexivity].
           apply only_one; [apply NoDup_filter, N | apply filter_In; split; [exact Hq | reflexivity]|]. intros u I. apply filter_In in I. destruct I as [I J]. destruct (Hu u I) as [->| ->]; [reflexivity|]. cbn in J. discriminate.
    + cbn. split; [discriminate|]. intros [[E|[]] _]. discriminate E.
  - rewrite (unwrap_none t H). split.
    + intros ->. split; [left; reflexivity|]. intros u [<-|[]]. auto.
    + intros [Hq Hu]. destruct t as [y|y|y|ts]; try (destruct Hq as [Hq|[]]; first [discriminate Hq | exact Hq]). exfalso. apply (S Quantized). f_equal. apply only_one; [exact N | exact Hq|]. intros u I. destruct (Hu u I) as [E|E]; [exact E|]. exfalso. apply H. rewrite E in I. exact I.
Qed.
Lemma variants_two : forall t, proper t -> has t TNone -> has t Quantized -> 1 < length (variants t).
Proof.
  intros t (F & N & S) H I. destruct (variants t) as [|a [|b l]] eqn:E; [|exfalso | cbn; lia]; unfold has in *; rewrite E in *; [contradiction|].
  destruct H as [H|[]], I as [I|[]]. unfold TNone, Quantized in *. congruence.
Qed.
Section Guards.
  Context {T Q O : Type} (dequantize : Q -> T) (iterate : val T Q O -> result (list (val T Q O))).
  Notation val := (val T Q O).
  Hypothesis iterate_list : forall vs, iterate (VList vs) = Ok vs.
  Lemma guard_refuses : forall t (v : val), proper t -> refuses_one t v -> single_guard dequantize t true v = Err QuantizationError.
  Proof.
    intros t v P (Hq & Ht & Hv). pose proof P as (F & N & S). unfold single_guard.
    assert (M : contains (unwrap_optional t) Quantized = true) by (apply contains_atom, unwrap_has; [exact F | discriminate | exact Hq]).
    assert (C : contains (unwrap_optional t) Tensor = false) by (apply contains_false; intros I; apply (unwrap_has t "Tensor" F) in I; [exact (Ht I) | discriminate]).
    rewrite M, C. cbn [negb andb].
    assert (A := always_spec t P).
    destruct v as [|x|x|x|x]; cbn [is_tensor is_quantized negb andb] in *; try contradiction.
    - assert (N0 : ~ has t TNone) by (intros I; apply Hv in I; discriminate I). assert (N1 : contains t TNone = false) by (apply contains_false, N0); rewrite N1. cbn [andb].
      assert (X : ty_eqb (unwrap_optional t) Quantized = true) by (apply A; split; [exact Hq | intros u I; left; apply Hv, I]). rewrite X. reflexivity.
    - rewrite Bool.andb_false_r. destruct (ty_eqb (unwrap_optional t) Quantized); reflexivity.
    - rewrite Bool.andb_false_r. assert (X : ty_eqb (unwrap_optional t) Quantized = true) by (apply A; split; assumption). rewrite X. reflexivity.
    - rewrite Bool.andb_false_r. assert (X : ty_eqb (unwrap_optional t) Quantized = true) by (apply A; split; assumption). rewrite X. reflexivity.
  Qed.
  Lemma guard_accepts : forall t strict (v : val), proper t -> ~ (strict = true /\ refuses_one t v) -> (has t Quantized \/ is_quantized v = false) -> single_guard dequantize t strict v = Ok (dequantized dequantize v).
  Proof.
    intros t strict v P R V. pose proof P as (F & N & S). unfold single_guard.
    destruct (contains (unwrap_optional t) Quantized) eqn:M; cbn [negb].
    - assert (Hq : has t Quantized) by (apply (unwrap_has t "QuantizedTensor"); [exact F | discriminate | apply contains_atom, M]).
      destruct (contains t TNone && (1 <? length (variants t)) && match v with VNone => true | _ => false end) eqn:E.
      { apply Bool.andb_true_iff in E. destruct E as [_ E]. destruct v; try discriminate. reflexivity. }
      destruct (contains (unwrap_optional t) Tensor) eqn:C; [reflexivity|]. destruct strict; [|reflexivity]. cbn [negb andb].
      assert (Ht : ~ has t Tensor) by (intros I; apply (unwrap_has t "Tensor" F) in I; [apply contains_atom in I; unfold Tensor in C; congruence | discriminate]).
      assert (A := always_spec t P).
      destruct v as [|x|x|x|x]; cbn [is_tensor is_quantized negb andb] in *; try reflexivity.
      + destruct (ty_eqb (unwrap_optional t) Quantized) eqn:X; [|reflexivity]. exfalso. destruct A as [A _]. destruct (A eq_refl) as [_ A']. apply R. split; [reflexivity|]. split; [exact Hq|]. split; [exact Ht|]. intros u I. destruct (A' u I) as [->|I']; [reflexivity|]. exfalso. subst u.
        rewrite Bool.andb_true_r in E. assert (I' := I). apply contains_atom in I'. unfold TNone in E. rewrite I' in E. cbn [andb] in E. apply Nat.ltb_ge in E. pose proof (variants_two t P I Hq). lia.
      + exfalso. apply R. split; [reflexivity|]. split; [exact Hq|]. split; [exact Ht | exact Logic.I].
      + destruct (ty_eqb (unwrap_optional t) Quantized); reflexivity.
      + destruct (ty_eqb (unwrap_optional t) Quantized) eqn:X; [|reflexivity]. exfalso. destruct A as [A _]. destruct (A eq_refl) as [_ A']. apply R. split; [reflexivity|]. split; [exact Hq|]. split; [exact Ht | exact A'].
      + destruct (ty_eqb (unwrap_optional t) Quantized) eqn:X; [|reflexivity]. exfalso. destruct A as [A _]. destruct (A eq_refl) as [_ A']. apply R. split; [reflexivity|]. split; [exact Hq|]. split; [exact Ht | exact A'].
    - destruct V as [V|V]; [|destruct v; try discriminate; reflexivity]. apply (unwrap_has t "QuantizedTensor" F) in V; [|discriminate]. apply contains_atom in V. unfold Quantized in M. congruence.
  Qed.
  Lemma no_quantized_strip : forall v : val, no_quantized v -> strip dequantize v = v.
  Proof.
    fix IH 1. intros [|x|x|x|vs] H; cbn in *; try reflexivity; [contradiction|]. f_equal. induction vs as [|w vs IHl]; [reflexivity|]. destruct H as [H1 H2]. cbn. rewrite (IH w H1). f_equal. apply IHl, H2.
  Qed.
  Lemma element_proper : forall u, element u -> proper u.
  Proof.
    intros u [->|(us & -> & N & I & Iq & It)].
    - split; [intros w [<-|[]] us; discriminate|]. split; [repeat constructor; auto | discriminate].
    - split; [|split; [exact N|]]. 
      + intros w J ws E. apply I in J. destruct J as [<-|[<-|[]]]; discriminate.
      + intros w E. injection E as ->. destruct It as [->|[]], Iq as [E|[]]. discriminate E.
  Qed.
  Lemma element_has : forall u, element u -> has u Quantized.
  Proof. intros u [->|(us & -> & N & I & Iq & It)]; [left; reflexivity | exact Iq]. Qed.
  Lemma quiet_not_listed : forall u, quiet u -> existsb (fun t => ty_eqb t u) (variants quant_list) = false.
  Proof.
    intros u [(x & ->)|[(ts & ->)|(x & -> & N)]]; try reflexivity.
    change (String.eqb "QuantizedTensor" x || false = false). destruct (String.eqb_spec "QuantizedTensor" x) as [E|]; [symmetry in E; contradiction | reflexivity].
  Qed.
  Lemma quiet_not_contained : forall t, variants t <> [] -> Forall quiet (variants t) -> contains quant_list t = false.
  Proof.
    intros t Ne F. assert (X : contains quant_list t = forallb (fun u => existsb (fun t => ty_eqb t u) (variants quant_list)) (variants t)) by reflexivity. rewrite X.
    destruct (variants t) as [|u l]; [contradiction|]. inversion F; subst. cbn [forallb]. rewrite quiet_not_listed by assumption. reflexivity.
  Qed.
  Lemma element_contained : forall u, element u -> contains quant_list (ListOf u) = true.
  Proof.
    intros u [->|(us & -> & N & I & Iq & It)]; [reflexivity|]. assert (X : contains quant_list (ListOf (Union us)) = existsb (fun t => ty_eqb t (ListOf (Union us))) (variants quant_list) && true) by reflexivity. rewrite X.
    assert (Y : existsb (fun t => ty_eqb t (ListOf (Union us))) (variants quant_list) = ty_eqb (ListOf MaybeQuantized) (ListOf (Union us)) || (ty_eqb (ListOf Quantized) (ListOf (Union us)) || false)) by reflexivity. rewrite Y.
    assert (Z : ty_eqb (ListOf MaybeQuantized) (ListOf (Union us)) = forallb (fun u => existsb (fun t => ty_eqb t u) [Tensor; Quantized]) us) by reflexivity. rewrite Z.
    assert (W : forallb (fun u => existsb (fun t => ty_eqb t u) [Tensor; Quantized]) us = true). { apply forallb_forall. intros w J. apply I in J. destruct J as [<-|[<-|[]]]; reflexivity. }
    rewrite W. reflexivity.
  Qed.
  Lemma quiet_proper : forall t, NoDup (variants t) -> (forall u, t <> Union [u]) -> Forall quiet (variants t) -> proper t.
  Proof.
    intros t N S F. split; [|split; assumption]. intros u I us ->. rewrite Forall_forall in F. destruct (F _ I) as [(x & E)|[(ts & E)|(x & E & _)]]; discriminate E.
  Qed.
  Lemma guard_all_refuses : forall u vs (w : val), proper u -> (forall x, has u Quantized \/ is_quantized (x : val) = false) -> In w vs -> refuses_one u w -> guard_all dequantize u true vs = Err QuantizationError.
  Proof.
    intros u vs w P Hq. induction vs as [|v vs IH]; intros I R; [contradiction|]. cbn [guard_all].
    destruct (single_guard dequantize u true v) as [x|e] eqn:E.
    - cbn. destruct I as [->|I]; [rewrite (guard_refuses u w P R) in E; discriminate|]. rewrite (IH I R). reflexivity.
    - cbn. unfold single_guard in E. destruct (negb (contains _ Quantized)); [discriminate|]. destruct (_ && match v with VNone => true | _ => false end); [discriminate|]. destruct (_ && _ && _) in E; [congruence | discriminate].
  Qed.
  Lemma guard_all_accepts : forall u strict (vs : list val), proper u -> has u Quantized -> (forall w, In w vs -> ~ (strict = true /\ refuses_one u w)) -> guard_all dequantize u strict vs = Ok (map (dequantized dequantize) vs).
  Proof.
    intros u strict. induction vs as [|v vs IH]; intros P H R; cbn [guard_all map]; [reflexivity|]. rewrite (guard_accepts u strict v P (R v (or_introl eq_refl)) (or_introl H)). cbn. rewrite IH; [reflexivity | exact P | exact H | intros w I; apply R; right; exact I].
  Qed.
  Lemma param_refuses : forall t (v : val), supported t -> conforms t v -> refuses t v -> param_guard dequantize iterate t true v = Err QuantizationError.
  Proof.
    intros t v [(u & -> & Eu)|(Ne & N & S & F)] C R; unfold param_guard.
    - rewrite (element_contained u Eu). cbn in R. destruct R as (_ & vs & w & -> & I & R). rewrite iterate_list. cbn. rewrite (guard_all_refuses u vs w (element_proper u Eu)); [reflexivity | intros x; left; apply element_has, Eu | exact I | exact R].
    - rewrite (quiet_not_contained t Ne F). apply guard_refuses; [apply quiet_proper; assumption|]. destruct t as [y|u|y|y]; try exact R. exfalso. destruct R as [Eu _]. inversion F as [|? ? H _]; subst. destruct H as [(x & E)|[(ts & E)|(x & E & Nx)]]; try discriminate. injection E as ->. destruct Eu as [E|(us & E & _)]; [|discriminate]. unfold Quantized in E. congruence.
  Qed.
  Lemma param_accepts : forall t strict (v : val), supported t -> conforms t v -> ~ (strict = true /\ refuses t v) -> param_guard dequantize iterate t strict v = Ok (strip dequantize v).
  Proof.
    intros t strict v [(u & -> & Eu)|(Ne & N & S & F)] C R; unfold param_guard.
    - rewrite (element_contained u Eu). destruct C as [(u' & vs & E & _ & -> & Fv)|[X _]]; [|exfalso; apply (X u eq_refl Eu)]. injection E as <-. rewrite iterate_list. cbn beta iota zeta delta [rbind].
      rewrite (guard_all_accepts u strict vs (element_proper u Eu) (element_has u Eu)).
      + cbn. f_equal. f_equal. apply map_ext_in. intros w I. rewrite Forall_forall in Fv. specialize (Fv w I). destruct w as [|x|x|x|l]; try reflexivity. exfalso. apply (Fv l). reflexivity.
      + intros w I [E Rw]. apply R. split; [exact E|]. cbn. split; [exact Eu|]. exists vs, w. auto.
    - rewrite (quiet_not_contained t Ne F). assert (P := quiet_proper t N S F).
      assert (X : forall u, t = ListOf u -> ~ element u). { intros u -> Eu. inversion F as [|? ? H _]; subst. destruct H as [(x & E)|[(ts & E)|(x & E & Nx)]]; try discriminate. injection E as ->. destruct Eu as [E|(us & E & _)]; [|discriminate]. unfold Quantized in E. congruence. }
      assert (R' : ~ (strict = true /\ refuses_one t v)).
      { intros [E Rv]. apply R. split; [exact E|]. destruct t as [y|u|y|y]; try exact Rv. destruct Rv as (Hq & _). destruct Hq as [Hq|[]]. discriminate Hq. }
      destruct C as [(u & vs & -> & Eu & _)|(_ & C)]; [exfalso; apply (X u eq_refl Eu)|].
      destruct C as [C|(Hq & q & ->)].
      + rewrite (guard_accepts t strict v P R'); [|right; destruct v; try reflexivity; contradiction C]. rewrite (no_quantized_strip v C). destruct v; try reflexivity. contradiction C.
      + rewrite (guard_accepts t strict (VQuant q) P R' (or_introl Hq)). reflexivity.
  Qed.

  Variable torch : operator -> list val -> result val.
  Lemma guards_refuse : forall ps args, Forall2 (fun p v => supported (p_type p) /\ conforms (p_type p) v) ps args ->
    (exists i p v, nth_error ps i = Some p /\ nth_error args i = Some v /\ refuses (p_type p) v) -> guards dequantize iterate ps true args = Err QuantizationError.
  Proof.
    induction 1 as [|p v ps args [S C] F IH]; intros (i & p' & v' & Hp & Hv & R); [destruct i; discriminate|]. cbn [guards].
    destruct i as [|i]; cbn in Hp, Hv.
    - injection Hp as <-. injection Hv as <-. rewrite (param_refuses _ _ S C R). reflexivity.
    - assert (G : guards dequantize iterate ps true args = Err QuantizationError) by (apply IH; exists i, p', v'; auto).
      destruct (param_guard dequantize iterate (p_type p) true v) as [x|e] eqn:E; cbn; [rewrite G; reflexivity|].
      unfold param_guard in E. destruct (contains quant_list (p_type p)) eqn:Cq.
      + destruct S as [(u & Et & Eu)|(Ne & N & S & Fq)]; [|rewrite (quiet_not_contained _ Ne Fq) in Cq; discriminate]. rewrite Et in *. destruct C as [(u' & vs & E' & _ & -> & Fv)|[X _]]; [|exfalso; apply (X u eq_refl Eu)]. injection E' as <-.
        rewrite iterate_list in E. cbn in E. destruct (guard_all dequantize u true vs) as [xs|e'] eqn:Ga; [discriminate|]. injection E as <-. f_equal. clear -Ga. revert e' Ga. induction vs as [|w vs IH]; cbn; intros e' Ga; [discriminate|].
        destruct (single_guard dequantize u true w) as [x|e] eqn:E; cbn in Ga.
        * destruct (guard_all dequantize u true vs) as [xs|e'']; [discriminate|]. injection Ga as <-. apply IH. reflexivity.
        * injection Ga as <-. unfold single_guard in E. destruct (negb (contains _ Quantized)); [discriminate|]. destruct (_ && match w with VNone => true | _ => false end); [discriminate|]. destruct (_ && _ && _) in E; [congruence | discriminate].
      + unfold single_guard in E. destruct (negb (contains _ Quantized)); [discriminate|]. destruct (_ && match v with VNone => true | _ => false end); [discriminate|]. destruct (_ && _ && _) in E; [congruence | discriminate].
  Qed.
  Lemma guards_accept : forall strict ps args, Forall2 (fun p v => supported (p_type p) /\ conforms (p_type p) v) ps args ->
    (forall i p v, nth_error ps i = Some p -> nth_error args i = Some v -> ~ (strict = true /\ refuses (p_type p) v)) -> guards dequantize iterate ps strict args = Ok (map (strip dequantize) args).
  Proof.
    intros strict. induction 1 as [|p v ps args [S C] F IH]; intros R; [reflexivity|]. cbn [guards map]. rewrite (param_accepts _ strict _ S C (R 0 p v eq_refl eq_refl)). cbn. rewrite IH; [reflexivity|]. intros i. apply (R (Datatypes.S i)).
  Qed.
  Lemma fallback_refuses : forall o quantizer args, returns_quantized o = true -> Forall2 (fun p v => supported (p_type p) /\ conforms (p_type p) v) (o_params o) args ->
    quantizer = None \/ (exists i p v, nth_error (o_params o) i = Some p /\ nth_error args i = Some v /\ refuses (p_type p) v) -> fallback dequantize iterate torch o quantizer true args = Err QuantizationError.
  Proof.
    intros o quantizer args R F H. unfold fallback. rewrite R. cbn [andb]. destruct quantizer as [q|]; [|reflexivity]. destruct H as [H|H]; [discriminate|]. rewrite (guards_refuse _ _ F H). reflexivity.
  Qed.
  Lemma fallback_computes : forall o quantizer strict args, returns_quantized o = true -> Forall2 (fun p v => supported (p_type p) /\ conforms (p_type p) v) (o_params o) args ->
    strict = false \/ (quantizer <> None /\ forall i p v, nth_error (o_params o) i = Some p -> nth_error args i = Some v -> ~ refuses (p_type p) v) ->
    fallback dequantize iterate torch o quantizer strict args = result_then (torch o (map (strip dequantize) args)) (match quantizer with Some q => q | None => Ok end).
  Proof.
    intros o quantizer strict args R F H. unfold fallback. rewrite R.
    assert (X : true && strict && match quantizer with None => true | Some _ => false end = false). { destruct H as [->|[H _]]; [destruct quantizer; reflexivity | destruct quantizer; [destruct strict; reflexivity | contradiction]]. }
    rewrite X. rewrite (guards_accept strict (o_params o) args F).
    - cbn. destruct (torch o (map (strip dequantize) args)); [cbn; destruct quantizer; reflexivity | reflexivity].
    - intros i p v Hp Hv [E Rv]. destruct H as [H|[_ H]]; [congruence | apply (H i p v Hp Hv Rv)].
  Qed.
End Guards.

(** *** Calls *)
Section Calls.
  Context {A : Type}.
  Lemma set_new : forall {B} k (a : B) l, ~ In k (map fst l) -> set_item k a l = l ++ [(k, a)].
  Proof.
    induction l as [|[x b] l IH]; cbn; intros N; [reflexivity|]. destruct (String.eqb_spec x k) as [->|_]; [exfalso; apply N; auto|]. rewrite IH; [reflexivity | tauto].
  Qed.
  Lemma fold_set : forall (ps : list parameter) d, NoDup (map fst d ++ map p_name ps) -> fold_left (fun d p => set_item (p_name p) p d) ps d = d ++ map (fun p => (p_name p, p)) ps.
  Proof.
    induction ps as [|p ps IH]; intros d N; cbn [fold_left map]; [rewrite app_nil_r; reflexivity|]. cbn [map] in N.
    assert (X : ~ In (p_name p) (map fst d)). { intros I. apply NoDup_remove_2 in N. apply N, in_or_app. auto. }
    rewrite (set_new _ _ _ X), IH; [rewrite <- app_assoc; reflexivity|]. rewrite map_app. cbn. rewrite <- app_assoc. exact N.
  Qed.
  Lemma popitem_app : forall {B} (l : list (string * B)) x, popitem (l ++ [x]) = Some (l, x).
  Proof.
    induction l as [|y l IH]; intros x; [reflexivity|]. cbn [app popitem]. rewrite IH. destruct (l ++ [x]) eqn:E; [destruct l; discriminate | reflexivity].
  Qed.
  Definition kv (p : parameter) : string * parameter := (p_name p, p).
  Lemma bind_pos : forall (args : list A) ps bound, length args <= length ps -> NoDup (map fst bound ++ map p_name ps) ->
    bind_positional args (rev (map kv ps)) bound = Ok (rev (map kv (skipn (length args) ps)), bound ++ combine (firstn (length args) (map p_name ps)) args).
  Proof.
    induction args as [|a args IH]; intros ps bound L N; cbn [bind_positional length skipn firstn combine]; [rewrite app_nil_r; reflexivity|].
    destruct ps as [|p ps]; cbn in L; [lia|]. cbn [map rev]. rewrite popitem_app. change (kv p) with (p_name p, p). cbv beta iota. cbn [map] in N.
    assert (X : ~ In (p_name p) (map fst bound)). { intros I. apply NoDup_remove_2 in N. apply N, in_or_app. auto. }
    rewrite (set_new _ _ _ X), IH; [cbn; rewrite <- app_assoc; reflexivity | lia|]. rewrite map_app. cbn. rewrite <- app_assoc. exact N.
  Qed.
  Lemma has_key_in : forall {B} k (l : list (string * B)), has_key k l = true <-> In k (map fst l).
  Proof.
    intros B k l. unfold has_key. rewrite existsb_exists, in_map_iff. split; intros ((x & b) & H); exists (x, b); cbn in *; destruct H as [H1 H2]; [apply String.eqb_eq in H2; auto | subst; split; [exact H2 | apply String.eqb_refl]].
  Qed.
  Lemma del_keys : forall {B} k (l : list (string * B)), NoDup (map fst l) -> forall j, In j (map fst (del_item k l)) <-> In j (map fst l) /\ j <> k.
  Proof.
    induction l as [|[x b] l IH]; cbn; intros N j; [tauto|]. inversion N as [|? ? H1 H2]; subst. destruct (String.eqb_spec x k) as [->|Nx].
    - split; [intros I; split; [auto | intros ->; contradiction] | intros [[->|I] Nj]; [contradiction | exact I]].
    - cbn. rewrite (IH H2 j). split; [intros [->|[I Nj]]; auto | intros [[->|I] Nj]; auto].
  Qed.
  Lemma del_nodup : forall {B} k (l : list (string * B)), NoDup (map fst l) -> NoDup (map fst (del_item k l)).
  Proof.
    induction l as [|[x b] l IH]; cbn; intros N; [constructor|]. inversion N as [|? ? H1 H2]; subst. destruct (String.eqb_spec x k) as [->|Nx]; [exact H2|]. cbn. constructor; [|apply IH, H2]. intros I. apply del_keys in I; [tauto | exact H2].
  Qed.
  Lemma bind_kw_ok : forall names (kwargs : list (string * A)) params bound, NoDup (map fst kwargs) -> NoDup (map fst params) -> incl (map fst params) names ->
    (forall k, In k (map fst kwargs) -> In k (map fst params)) -> (forall k, In k (map fst kwargs) -> ~ In k (map fst bound)) ->
    bind_keywords names kwargs params bound = Ok (bound ++ kwargs).
  Proof.
    intros names kwargs. induction kwargs as [|[k a] kwargs IH]; intros params bound Nk Np In_ Hk Hb; cbn [bind_keywords]; [rewrite app_nil_r; reflexivity|].
    inversion Nk as [|? ? H1 H2]; subst. pose proof (Hk k (or_introl eq_refl)) as Ik.
    assert (E : existsb (String.eqb k) names = true) by (apply existsb_exists; exists k; split; [apply In_, Ik | apply String.eqb_refl]). rewrite E.
    assert (E' : has_key k params = true) by (apply has_key_in, Ik). rewrite E'. cbn [negb].
    rewrite (set_new k a bound (Hb k (or_introl eq_refl))), IH; [rewrite <- app_assoc; reflexivity | exact H2 | apply del_nodup, Np | | |].
    - intros j I. apply del_keys in I; [|exact Np]. apply In_, I.
    - intros j I. apply del_keys; [exact Np|]. split; [apply Hk; right; exact I|]. intros ->. contradiction.
    - intros j I J. rewrite map_app, in_app_iff in J. destruct J as [J|[<-|[]]]; [apply (Hb j (or_intror I) J) | contradiction].
  Qed.
  Lemma bind_kw_in : forall names (kwargs : list (string * A)) params bound bound', NoDup (map fst params) -> bind_keywords names kwargs params bound = Ok bound' -> forall k, In k (map fst kwargs) -> In k (map fst params).
  Proof.
    intros names kwargs. induction kwargs as [|[k a] kwargs IH]; intros params bound bound' Np E j I; [contradiction|]. cbn [bind_keywords] in E.
    destruct (negb (existsb (String.eqb k) names)); [discriminate|]. destruct (has_key k params) eqn:H; [|discriminate]. cbn [negb] in E. destruct I as [<-|I]; [apply has_key_in, H|].
    pose proof (IH _ _ _ (del_nodup k params Np) E j I) as J. apply del_keys in J; [apply J | exact Np].
  Qed.
  Lemma skipn_incl : forall {B} n (l : list B) x, In x (skipn n l) -> In x l.
  Proof. intros B n l x I. rewrite <- (firstn_skipn n l). apply in_or_app. auto. Qed.
  Lemma firstn_in : forall {B} n (l : list B) x, In x (firstn n l) -> In x l.
  Proof. intros B n l x I. rewrite <- (firstn_skipn n l). apply in_or_app. auto. Qed.
  Lemma skipn_map' : forall {B C} (f : B -> C) n l, map f (skipn n l) = skipn n (map f l).
  Proof. induction n as [|n IH]; intros [|x l]; cbn; auto. Qed.
  Lemma nodup_skipn : forall {B} n (l : list B), NoDup l -> NoDup (skipn n l).
  Proof. induction n as [|n IH]; intros [|x l] N; cbn; auto. inversion N; subst. auto. Qed.
  Lemma nodup_split : forall {B} n (l : list B) x, NoDup l -> In x (firstn n l) -> In x (skipn n l) -> False.
  Proof.
    induction n as [|n IH]; intros [|y l] x N I J; cbn in *; try contradiction. inversion N; subst. destruct I as [<-|I]; [apply skipn_incl in J; contradiction | apply (IH l x); assumption].
  Qed.
  Lemma combine_keys : forall (names : list string) (args : list A), length names = length args -> map fst (combine names args) = names.
  Proof. induction names as [|x names IH]; destruct args as [|a args]; cbn; intros E; try reflexivity; try discriminate. f_equal. apply IH. lia. Qed.

  Variable o : operator.
  Hypothesis names_differ : NoDup (map p_name (o_params o)).
  Lemma dict_is : fold_left (fun d p => set_item (p_name p) p d) (rev (o_params o)) [] = rev (map kv (o_params o)).
  Proof. rewrite fold_set; [cbn; rewrite map_rev; reflexivity|]. cbn. rewrite map_rev. apply NoDup_rev, names_differ. Qed.
  Lemma sig_names : map fst (signature o) = map p_name (o_params o).
  Proof. unfold signature. rewrite map_map. reflexivity. Qed.
  Lemma bind_when : forall (args : list A) kwargs, NoDup (map fst kwargs) -> length args <= length (o_params o) -> (forall k, In k (map fst kwargs) -> In k (skipn (length args) (map p_name (o_params o)))) ->
    bind_partial o args kwargs = Ok (combine (firstn (length args) (map p_name (o_params o))) args ++ kwargs).
  Proof.
    intros args kwargs Nk L H. unfold bind_partial. rewrite dict_is.
    assert (Lk : length kwargs <= length (o_params o) - length args).
    { rewrite <- (map_length fst kwargs), <- (map_length p_name (o_params o)), <- skipn_length. apply NoDup_incl_length; [exact Nk | exact H]. }
    replace (length (rev (map kv (o_params o))) <? length args + length kwargs) with false by (symmetry; apply Nat.ltb_ge; rewrite rev_length, map_length; lia).
    rewrite bind_pos; [|exact L | exact names_differ]. cbn [rbind fst snd app].
    set (n := length args) in *.
    assert (Ln : length (firstn n (map p_name (o_params o))) = length args) by (rewrite firstn_length, map_length; unfold n; lia).
    assert (K : map fst (rev (map kv (skipn n (o_params o)))) = rev (skipn n (map p_name (o_params o)))) by (rewrite map_rev, map_map, <- skipn_map'; reflexivity).
    apply bind_kw_ok.
    - exact Nk.
    - rewrite K. apply NoDup_rev, nodup_skipn, names_differ.
    - intros x I. rewrite K in I. apply in_rev in I. rewrite map_rev, map_map. apply -> in_rev. apply skipn_incl in I. exact I.
    - intros k I. rewrite K. apply -> in_rev. apply H, I.
    - intros k I J. rewrite (combine_keys _ _ Ln) in J. apply (nodup_split n (map p_name (o_params o)) k names_differ J (H k I)).
  Qed.
  Lemma bind_only : forall (args : list A) kwargs bound, bind_partial o args kwargs = Ok bound -> length args <= length (o_params o) /\ forall k, In k (map fst kwargs) -> In k (skipn (length args) (map p_name (o_params o))).
  Proof.
    intros args kwargs bound E. unfold bind_partial in E. rewrite dict_is in E.
    destruct (length (rev (map kv (o_params o))) <? length args + length kwargs) eqn:L; [discriminate|]. apply Nat.ltb_ge in L. rewrite rev_length, map_length in L. assert (L' : length args <= length (o_params o)) by lia. split; [exact L'|].
    rewrite bind_pos in E; [|exact L' | exact names_differ]. cbn [rbind fst snd app] in E.
    assert (K : map fst (rev (map kv (skipn (length args) (o_params o)))) = rev (skipn (length args) (map p_name (o_params o)))) by (rewrite map_rev, map_map, <- skipn_map'; reflexivity).
    intros k I. pose proof (bind_kw_in _ _ _ _ _ ltac:(rewrite K; apply NoDup_rev, nodup_skipn, names_differ) E k I) as J. rewrite K in J. apply in_rev in J. exact J.
  Qed.
  Lemma bind_gives : forall (args : list A) kwargs bound, NoDup (map fst kwargs) -> bind_partial o args kwargs = Ok bound -> forall x a, In (x, a) bound <-> given (signature o) args kwargs x a.
  Proof.
    intros args kwargs bound Nk E x a. destruct (bind_only _ _ _ E) as [L H]. rewrite (bind_when args kwargs Nk L H) in E. injection E as <-. unfold given. rewrite in_app_iff, sig_names.
    assert (X : forall (names : list string) (l : list A), length l <= length names -> In (x, a) (combine (firstn (length l) names) l) <-> exists i, nth_error names i = Some x /\ nth_error l i = Some a).
    { induction names as [|y names IH]; intros [|b l] Ll; cbn in Ll; try lia; cbn.
      - split; [contradiction | intros ([|i] & P & _); discriminate].
      - split; [contradiction | intros (i & _ & P); destruct i; discriminate].
      - rewrite (IH l) by lia. split.
        + intros [P|(i & P)]; [injection P as -> ->; exists 0; auto | exists (S i); exact P].
        + intros ([|i] & P & P'); [cbn in P, P'; left; congruence | right; exists i; auto]. }
    rewrite (X (map p_name (o_params o)) args) by (rewrite map_length; exact L). tauto.
  Qed.
  Lemma valid_iff : forall (args : list A) kwargs, NoDup (map fst kwargs) -> (validate_arguments o args kwargs = true <-> accepts (signature o) (length args) (map fst kwargs)).
  Proof.
    intros args kwargs Nk. unfold validate_arguments, accepts. rewrite sig_names.
    assert (Ls : length (signature o) = length (o_params o)) by (unfold signature; apply map_length). rewrite Ls.
    assert (Sg : forall i x, nth_error (signature o) i = Some (x, false) <-> exists p, nth_error (o_params o) i = Some p /\ p_name p = x /\ p_default p = None).
    { intros i x. unfold signature. split.
      - intros E. destruct (nth_error (o_params o) i) as [p|] eqn:P; [|rewrite (proj2 (nth_error_None _ _)) in E; [discriminate|]; rewrite map_length; apply nth_error_None, P]. rewrite (map_nth_error _ _ _ P) in E. exists p. split; [reflexivity|]. destruct (p_default p); injection E as E1; split; try discriminate; auto.
      - intros (p & P & <- & D). rewrite (map_nth_error _ _ _ P), D. reflexivity. }
    split.
    - intros V. destruct (bind_partial o args kwargs) as [bound|] eqn:E; [|discriminate]. destruct (bind_only _ _ _ E) as [L H]. rewrite (bind_when args kwargs Nk L H) in E. injection E as <-.
      split; [exact L|]. split; [exact H|]. apply Bool.andb_true_iff in V. destruct V as [_ V]. intros i x E. apply Sg in E. destruct E as (p & P & <- & D).
      rewrite forallb_forall in V. specialize (V p (nth_error_In _ _ P)). rewrite D, Bool.orb_false_r in V. apply has_key_in in V. rewrite map_app, in_app_iff in V.
      assert (Ln : length (firstn (length args) (map p_name (o_params o))) = length args) by (rewrite firstn_length, map_length; lia).
      rewrite (combine_keys _ _ Ln) in V. destruct V as [V|V]; [left | right; exact V].
      destruct (Nat.lt_ge_cases i (length args)) as [|Ge]; [assumption|]. exfalso. apply (nodup_split (length args) (map p_name (o_params o)) (p_name p) names_differ V).
      apply (map_nth_error p_name) in P. rewrite <- (firstn_skipn (length args) (map p_name (o_params o))), nth_error_app2 in P by (rewrite Ln; exact Ge). apply nth_error_In in P. exact P.
    - intros (L & H & R). rewrite (bind_when args kwargs Nk L H).
      assert (Ln : length (firstn (length args) (map p_name (o_params o))) = length args) by (rewrite firstn_length, map_length; lia).
      apply Bool.andb_true_iff. split; [apply Nat.eqb_eq; rewrite app_length, combine_length, Ln; lia|].
      apply forallb_forall. intros p I. destruct (p_default p) as [d|] eqn:D; [rewrite Bool.orb_true_r; reflexivity|]. rewrite Bool.orb_false_r. apply has_key_in. rewrite map_app, in_app_iff, (combine_keys _ _ Ln).
      apply In_nth_error in I. destruct I as [i P]. destruct (R i (p_name p)) as [Li|Ik]; [apply Sg; eauto | left | right; exact Ik].
      apply (map_nth_error p_name) in P. rewrite <- (firstn_skipn (length args) (map p_name (o_params o))), nth_error_app1 in P by (rewrite Ln; exact Li). apply nth_error_In in P. exact P.
  Qed.
End Calls.
Lemma find_first : forall {B} (f : B -> bool) l x, find f l = Some x <-> exists a b, l = a ++ x :: b /\ f x = true /\ Forall (fun y => f y = false) a.
Proof.
  intros B f. induction l as [|y l IH]; intros x; cbn.
  - split; [discriminate|]. intros ([|z a] & b & E & _); discriminate.
  - destruct (f y) eqn:F.
    + split; [intros E; injection E as ->; exists [], l; auto|]. intros ([|z a] & b & E & Fx & Fa); cbn in E; injection E as -> E; [reflexivity|]. inversion Fa; congruence.
    + rewrite IH. split.
      * intros (a & b & -> & Fx & Fa). exists (y :: a), b. auto.
      * intros ([|z a] & b & E & Fx & Fa); cbn in E; injection E as -> E; [congruence|]. inversion Fa; subst. exists a, b. auto.
Qed.
Lemma pos_plain : forall l, (forall a, In a l -> (exists x, a = Pos x) \/ exists k x, a = Kw k x) -> length (pos_args l) = length (filter (fun a => match a with Pos _ => true | _ => false end) l).
Proof.
  unfold pos_args. induction l as [|a l IH]; intros H; [reflexivity|]. cbn [flat_map filter]. rewrite app_length, IH by (intros b I; apply H; right; exact I). destruct (H a (or_introl eq_refl)) as [(x & ->)|(k & x & ->)]; reflexivity.
Qed.

(** *** The operators of the project *)
Definition wb (a b : ty) : bool :=
  match a, b with
  | Atom x, Atom y => String.eqb x y
  | ListOf (Atom x), ListOf (Atom y) => String.eqb x y
  | ListOf _, ListOf _ => true
  | TupleOf _, TupleOf _ => true
  | Union _, Union _ => true
  | _, _ => false
  end.
Lemma wb_refl : forall a, wb a a = true.
Proof. intros [x|[x|t|ts|ts]|ts|ts]; cbn; try reflexivity; apply String.eqb_refl. Qed.
Fixpoint apart (l : list ty) : bool := match l with [] => true | t :: l' => negb (existsb (wb t) l') && apart l' end.
Lemma apart_nodup : forall l, apart l = true -> NoDup l.
Proof.
  induction l as [|t l IH]; cbn; intros H; [constructor|]. apply Bool.andb_true_iff in H. destruct H as [H1 H2]. constructor; [|apply IH, H2]. intros I.
  assert (X : existsb (wb t) l = true) by (apply existsb_exists; exists t; split; [exact I | apply wb_refl]). rewrite X in H1. discriminate.
Qed.
Definition quietb (u : ty) : bool := match u with Atom _ | TupleOf _ => true | ListOf (Atom x) => negb (String.eqb x "QuantizedTensor") | _ => false end.
Lemma quietb_ok : forall u, quietb u = true -> quiet u.
Proof.
  intros [x|[x|t|ts|ts]|ts|ts] H; try discriminate H; [left; eauto | right; right; exists x; split; [reflexivity|] | right; left; eauto]. cbn in H. destruct (String.eqb_spec x "QuantizedTensor"); [discriminate | assumption].
Qed.
Definition supportedb (t : ty) : bool :=
  match t with
  | ListOf (Atom "QuantizedTensor") => true
  | Union ([] | [_]) => false
  | _ => apart (variants t) && forallb quietb (variants t)
  end.
Lemma supportedb_ok : forall t, supportedb t = true -> supported t.
Proof.
  intros t H.
  assert (X : t = ListOf Quantized \/ (variants t <> [] /\ (forall u, t <> Union [u]) /\ apart (variants t) && forallb quietb (variants t) = true)).
  { destruct t as [x|[x|t|ts|ts]|ts|[|a [|b ts]]]; try discriminate H; try (right; split; [discriminate|]; split; [intros u; discriminate | exact H]).
    destruct (String.eqb_spec x "QuantizedTensor") as [->|N]; [left; reflexivity|].
    right. split; [discriminate|]. split; [intros; discriminate|]. cbn [variants apart existsb negb andb forallb quietb]. destruct (String.eqb_spec x "QuantizedTensor"); [contradiction | reflexivity]. }
  destruct X as [->|(V & U & X)]; [left; exists Quantized; split; [reflexivity | left; reflexivity]|]. apply Bool.andb_true_iff in X. destruct X as [X1 X2]. right. repeat split; [exact V | apply apart_nodup, X1 | exact U|].
  apply Forall_forall. intros u I. apply quietb_ok. rewrite forallb_forall in X2. apply X2, I.
Qed.
Fixpoint distinctb (l : list string) : bool := match l with [] => true | x :: l' => negb (existsb (String.eqb x) l') && distinctb l' end.
Lemma distinctb_ok : forall l, distinctb l = true -> NoDup l.
Proof.
  induction l as [|t l IH]; cbn; intros H; [constructor|]. apply Bool.andb_true_iff in H. destruct H as [H1 H2]. constructor; [|apply IH, H2]. intros I.
  assert (X : existsb (String.eqb t) l = true) by (apply existsb_exists; exists t; split; [exact I | apply String.eqb_refl]). rewrite X in H1. discriminate.
Qed.
Fixpoint same_names (a b : list string) : bool := match a, b with [], [] => true | x :: a', y :: b' => String.eqb x y && same_names a' b' | _, _ => false end.
Lemma same_names_ok : forall a b, same_names a b = true -> a = b.
Proof.
  induction a as [|x a IH]; destruct b as [|y b]; cbn; intros H; try reflexivity; try discriminate. apply Bool.andb_true_iff in H. destruct H as [H1 H2]. apply String.eqb_eq in H1. subst. f_equal. auto.
Qed.
Definition well_formedb (s : spec) : bool :=
  match from_spec s with
  | Ok o => returns_quantized o && distinctb (map p_name (o_params o)) && forallb (fun p => supportedb (p_type p)) (o_params o) && same_names (map p_name (o_params o)) (spec_signature s)
  | Err _ => false
  end.
Lemma well_formedb_ok : forall s, well_formedb s = true -> exists o, from_spec s = Ok o /\ returns_quantized o = true /\ NoDup (map p_name (o_params o)) /\ Forall (fun p => supported (p_type p)) (o_params o) /\ map p_name (o_params o) = spec_signature s.
Proof.
  intros s H. unfold well_formedb in H. destruct (from_spec s) as [o|]; [|discriminate]. repeat (apply Bool.andb_true_iff in H; destruct H as [H ?]).
  exists o. split; [reflexivity|]. split; [assumption|]. split; [apply distinctb_ok; assumption|]. split; [|apply same_names_ok; assumption].
  apply Forall_forall. intros p I. apply supportedb_ok. match goal with F : forallb _ _ = true |- _ => rewrite forallb_forall in F; apply F, I end.
Qed.
Lemma from_params_in : forall l ps, from_params l = Ok ps -> Forall2 (fun q p => type_of (snd (fst q)) = Ok (p_type p) /\ p_name p = fst (fst q) /\ p_default p = option_map default_value (snd q)) l ps.
Proof.
  induction l as [|[[x e] d] l IH]; cbn; intros ps E; [injection E as <-; constructor|]. destruct (type_of e) as [t|] eqn:T; [|discriminate]. cbn in E. destruct (from_params l) as [ps'|]; [|discriminate]. injection E as <-. constructor; [cbn; auto | apply IH; reflexivity].
Qed.
Lemma string_ty : forall t, ty_eqb t TString = true <-> t = TString.
Proof. intros t. apply (eqb_atom_r t "String"). Qed.

(** ** Annotations *)
Lemma ty_eqb_atom : forall t a, ty_eqb t (Atom a) = true -> t = Atom a.
Proof. intros [x|t|ts|ts] a E; cbn in E; try discriminate. apply String.eqb_eq in E. subst. reflexivity. Qed.
Lemma dedup_atom : forall l a, In (Atom a) (dedup l) <-> In (Atom a) l.
Proof.
  induction l as [|t l IH]; intros a; cbn [dedup]; [reflexivity|]. split.
  - intros [->|I]; [left; reflexivity|]. apply filter_In in I. right. apply IH, I.
  - intros [->|I]; [left; reflexivity|]. destruct (ty_eqb t (Atom a)) eqn:E; [left; apply ty_eqb_atom, E|]. right. apply filter_In. split; [apply IH, I | rewrite E; reflexivity].
Qed.
Lemma union_has : forall ts a, has (union ts) (Atom a) <-> exists t, In t ts /\ has t (Atom a).
Proof. intros ts a. unfold has, union. cbn [variants]. rewrite dedup_atom, in_flat_map. reflexivity. Qed.
Lemma name_means : forall x t a, str_to_type x = Ok t -> (has t (Atom a) <-> means (TName x) a).
Proof.
  intros x t a E. unfold str_to_type in E. cbn [existsb] in E. cbn [means].
  assert (X : (exists row, In row names /\ In x (fst row) /\ In a (snd row)) <-> existsb (fun row => existsb (String.eqb x) (fst row) && existsb (String.eqb a) (snd row)) names = true).
  { rewrite existsb_exists. split; intros (row & I & H); exists row; (split; [exact I|]).
    - apply Bool.andb_true_iff. split; apply existsb_exists; [exists x | exists a]; (split; [apply H | apply String.eqb_refl]).
    - apply Bool.andb_true_iff in H. destruct H as [A B]. apply existsb_exists in A, B. destruct A as (x' & Ix & Ex), B as (a' & Ia & Ea). apply String.eqb_eq in Ex, Ea. subst. auto. }
  rewrite X. clear X. revert E.
  repeat match goal with |- context [String.eqb x ?s] => destruct (String.eqb_spec x s) as [->|]; [intros E; cbn in E; injection E as <-; cbn; unfold TNone, Tensor, Quantized, TString; rewrite ?Bool.orb_true_iff, ?String.eqb_eq; split; intros H; repeat destruct H as [H|H]; try discriminate H; try contradiction; try (injection H as ->); subst; auto|] end.
  cbn. discriminate.
Qed.
Lemma texpr_rec' : forall P : texpr -> Prop, (forall x, P (TName x)) -> (forall a b, P a -> P b -> P (TOr a b)) -> (forall g args, Forall P args -> P (TSub g args)) -> forall e, P e.
Proof.
  intros P H1 H2 H3. fix IH 1. intros [x|a b|g args]; [apply H1 | apply H2; apply IH|]. apply H3. induction args as [|e args IHa]; constructor; [apply IH | exact IHa].
Qed.
Lemma type_means : forall e t a, type_of e = Ok t -> (has t (Atom a) <-> means e a).
Proof.
  induction e as [x|b c IHb IHc|g args IH] using texpr_rec'; intros t a E.
  - apply name_means, E.
  - cbn [type_of] in E. destruct (type_of b) as [t1|] eqn:B; [|discriminate]. cbn [rbind] in E. destruct (type_of c) as [t2|] eqn:C; [|discriminate]. cbn [rbind] in E. injection E as <-. rewrite union_has. cbn [means]. rewrite <- (IHb t1 a eq_refl), <- (IHc t2 a eq_refl). split.
    + intros (t & [<-|[<-|[]]] & H); auto.
    + intros [H|H]; [exists t1 | exists t2]; cbn; auto.
  - cbn [type_of] in E. cbn [means].
    assert (X : forall l ts, Forall (fun e => forall t a, type_of e = Ok t -> (has t (Atom a) <-> means e a)) l -> (fix go l := match l with [] => Ok [] | a :: l' => let? t := type_of a in let? ts := go l' in Ok (t :: ts) end) l = Ok ts ->
      ((exists t, In t ts /\ has t (Atom a)) <-> (fix any l := match l with [] => False | b :: l' => means b a \/ any l' end) l)).
    { clear E. induction l as [|b l IHl]; intros ts F E; [injection E as <-; split; [intros (t0 & [] & _) | intros []]|]. destruct (type_of b) as [tb|] eqn:B; [|discriminate]. cbn [rbind] in E.
      match type of E with rbind ?r _ = _ => destruct r as [ts'|] eqn:L; [|discriminate] end. cbn [rbind] in E. injection E as <-. rewrite <- (Forall_inv F tb a B), <- (IHl ts' (Forall_inv_tail F) eq_refl). split.
      - intros (u & [<-|I] & H); [left; exact H | right; exists u; auto].
      - intros [H|(u & I & H)]; [exists tb | exists u]; cbn; auto. }
    match type of E with rbind ?r _ = _ => destruct r as [ts|] eqn:L; [|discriminate] end. cbn [rbind] in E. rewrite <- (X args ts IH L). cbn [existsb] in E.
    destruct (String.eqb_spec g "Optional") as [->|N1]; [|destruct (String.eqb_spec g "optional") as [->|N2]].
    1,2: cbn [orb] in E; destruct ts as [|u [|w ts]]; try discriminate E; injection E as <-; unfold optional; rewrite union_has; split;
      [intros (t & [<-|[<-|[]]] & H); left; (split; [cbn; auto|]); [left; exists u; cbn; auto | right; destruct H as [H|[]]; injection H as <-; reflexivity]
      |intros [[_ [(t & [<-|[]] & H)| ->]]|[[H|[H|[]]] _]]; [exists u; cbn; auto | exists TNone; cbn; auto | discriminate H | discriminate H]].
    cbn [orb] in E. destruct (String.eqb_spec g "Union") as [->|N3]; [|destruct (String.eqb_spec g "union") as [->|N4]].
    1,2: cbn [orb] in E; injection E as <-; rewrite union_has; split; [intros H; right; split; [cbn; auto | exact H] | intros [[[H|[H|[]]] _]|[_ H]]; [discriminate H | discriminate H | exact H]].
    cbn [orb] in E.
    assert (Y : ~ ((In g ["Optional"; "optional"]%string /\ ((exists t0, In t0 ts /\ has t0 (Atom a)) \/ a = "NoneType"%string)) \/ (In g ["Union"; "union"]%string /\ exists t0, In t0 ts /\ has t0 (Atom a)))) by (intros [[[H|[H|[]]] _]|[[H|[H|[]]] _]]; congruence).
    destruct (String.eqb g "Tuple" || (String.eqb g "tuple" || false)); [injection E as <-; split; [intros [H|[]]; discriminate H | contradiction]|].
    destruct (String.eqb g "List" || _); [|discriminate]. destruct ts as [|u [|w ts]]; try discriminate E. injection E as <-. split; [intros [H|[]]; discriminate H | contradiction].
Qed.
