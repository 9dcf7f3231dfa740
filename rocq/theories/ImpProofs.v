(** Proofs for C65 and C94. *)
From Coq Require Import String Ascii.
From Verif Require Import Prelude ImpModel ImpSpec.
Local Open Scope nat_scope.
Local Open Scope list_scope.

Lemma removelast_length : forall {A} (l : list A), length (removelast l) = length l - 1.
Proof.
  induction l as [|a [|b l] IH]; [reflexivity | reflexivity|].
  change (removelast (a :: b :: l)) with (a :: removelast (b :: l)). cbn [length] in *. rewrite IH. lia.
Qed.
Lemma resolve_absolute : forall root target pkg, python_resolves root pkg 0 target = Some (resolve_relative root 0 target).
Proof. reflexivity. Qed.
Lemma resolve_module : forall root levels target m, python_resolves root false levels target = Some m -> resolve_relative root levels target = m.
Proof.
  intros root [|up] target m H; cbn [python_resolves package_of] in H; cbv zeta in H; [injection H as <-; reflexivity|].
  rewrite removelast_length in H. destruct (length root - 1 <? S up) eqn:L; [discriminate|]. injection H as <-. apply Nat.ltb_ge in L.
  unfold resolve_relative. assert (L1 : 1 <? length root = true) by (apply Nat.ltb_lt; lia). rewrite L1, removelast_length. f_equal.
  destruct up as [|up].
  - rewrite Nat.sub_0_r, firstn_all2 by (rewrite removelast_length; lia). destruct (removelast root) eqn:E; [|reflexivity]. apply (f_equal (@length _)) in E. rewrite removelast_length in E. cbn in E. lia.
  - destruct (firstn (length root - 1 - S up) (removelast root)) eqn:E; [|reflexivity]. apply (f_equal (@length _)) in E. rewrite firstn_length, removelast_length in E. cbn in E. lia.
Qed.
Lemma resolvable_python : forall this n m x a, resolvable this (FromImport n m x a) -> exists r, python_resolves this false n m = Some r.
Proof.
  intros this [|up] m x a H; [eexists; reflexivity|]. cbn [resolvable] in H. destruct H as [H|H]; [discriminate|]. cbn [python_resolves package_of]. cbv zeta. rewrite removelast_length.
  destruct (length this - 1 <? S up) eqn:L; [apply Nat.ltb_lt in L; lia | eexists; reflexivity].
Qed.

Lemma path_eqb_eq : forall a b, path_eqb a b = true <-> a = b.
Proof.
  induction a as [|x a IH]; intros [|y b]; cbn; split; intros H; try discriminate; try reflexivity.
  - apply andb_true_iff in H. destruct H as [H1 H2]. apply String.eqb_eq in H1. apply IH in H2. congruence.
  - injection H as -> ->. rewrite String.eqb_refl. apply IH. reflexivity.
Qed.
Lemma records_iff : forall s b, records s b = true <-> In s (recorded b).
Proof.
  intros s b. unfold records. rewrite existsb_exists. split.
  - intros (t & I & E). apply path_eqb_eq in E. subst. exact I.
  - intros I. exists s. split; [exact I | apply path_eqb_eq; reflexivity].
Qed.
Lemma prefixes_iff : forall t s, In s (prefixes t) <-> s <> [] /\ exists r, t = s ++ r.
Proof.
  intros t s. unfold prefixes. rewrite in_map_iff. split.
  - intros (n & <- & I). apply in_seq in I. split.
    + intros E. apply (f_equal (@length _)) in E. rewrite firstn_length in E. cbn in E. lia.
    + exists (skipn n t). symmetry. apply firstn_skipn.
  - intros (N & r & ->). exists (length s). rewrite firstn_app, firstn_all, Nat.sub_diag. cbn. rewrite app_nil_r. split; [reflexivity|].
    apply in_seq. rewrite app_length. destruct s; [congruence | cbn; lia].
Qed.
Lemma recorded_head : forall b s, In s (recorded b) -> exists x r, s = x :: r /\ bound_name b = Some x.
Proof.
  intros [t [y|]|n m y [z|]|y] s I; cbn in I; try (destruct I as [<-|[]]; eexists; eexists; split; reflexivity).
  apply prefixes_iff in I. destruct I as (N & r & ->). destruct s as [|x s]; [congruence|]. exists x, s. split; reflexivity.
Qed.
Lemma bound_recorded : forall b x, bound_name b = Some x -> In [x] (recorded b).
Proof.
  intros [t [y|]|n m y [z|]|y] x E; cbn in E; try (injection E as <-; left; reflexivity).
  cbn. apply prefixes_iff. destruct t as [|y t]; [discriminate|]. injection E as ->. split; [discriminate|]. exists t. reflexivity.
Qed.

Lemma chain_parts : forall e p, chain e = Some p -> parts e = p /\ exists x q, p = x :: q.
Proof.
  induction e as [x|e IH a|l]; cbn; intros p E; [injection E as <-; split; [reflexivity | eexists; eexists; reflexivity]| |discriminate].
  destruct (chain e) as [p'|]; [|discriminate]. cbn in E. injection E as <-. destruct (IH p' eq_refl) as (-> & x & q & ->). split; [reflexivity|]. eexists; eexists; reflexivity.
Qed.
Lemma nochain_parts : forall v a, chain v = None -> exists b r, parts (Attr v a) = b :: r /\ first_attribute (Attr v a) = Some b.
Proof.
  induction v as [x|v IH a'|l]; cbn; intros a E; [discriminate| |exists a, []; split; reflexivity].
  destruct (chain v) as [p|] eqn:C; [discriminate|]. destruct (IH a' eq_refl) as (b & r & P & F). exists b, (r ++ [a]). cbn [parts] in P. rewrite P. split; [reflexivity|]. exact F.
Qed.

Section Expr.
  Variable P : expr -> Prop.
  Hypotheses (HN : forall x, P (Name x)) (HA : forall e a, P e -> P (Attr e a)) (HP : forall l, Forall P l -> P (Parts l)).
  Fixpoint expr_ind' (e : expr) : P e :=
    match e with
    | Name x => HN x | Attr e a => HA e a (expr_ind' e)
    | Parts l => HP l ((fix all (l : list expr) : Forall P l := match l with [] => Forall_nil _ | e :: l' => Forall_cons e (expr_ind' e) (all l') end) l)
    end.
End Expr.

Section Proofs.
  Variables (this : list string) (outer : list binding) (locals builtins : string -> bool).
  Notation visit := (visit this outer locals builtins). Notation record_import := (record_import this outer locals builtins).

  Lemma record_false : forall s, (forall b, In b outer -> ~ In s (recorded b)) -> record_import s = (false, []).
  Proof.
    intros [|x s] H; [reflexivity|]. unfold ImpModel.record_import. destruct (locals x || builtins x); [reflexivity|].
    destruct (existsb (records (x :: s)) outer) eqn:E; [|reflexivity]. apply existsb_exists in E. destruct E as (b & I & R). apply records_iff in R. exfalso. apply (H b I R).
  Qed.
  Lemma record_true : forall x s b, locals x = false -> builtins x = false -> In b outer -> In (x :: s) (recorded b) ->
    exists l, record_import (x :: s) = (true, l) /\ incl (symbols_of this (x :: s) b) l.
  Proof.
    intros x s b L B I R. unfold ImpModel.record_import. rewrite L, B. cbn [orb]. apply records_iff in R.
    assert (E : existsb (records (x :: s)) outer = true) by (apply existsb_exists; exists b; auto). rewrite E. eexists. split; [reflexivity|].
    intros y Iy. apply in_flat_map. exists b. split; [apply filter_In; auto | exact Iy].
  Qed.

  (** *** names bound directly *)
  Definition direct (x : string) : Prop := forall t, In (Import t None) outer -> hd_error t = Some x -> t = [x].
  Lemma direct_none : forall x s, direct x -> s <> [] -> forall b, In b outer -> ~ In (x :: s) (recorded b).
  Proof.
    intros x s D N [t [y|]|n m y [z|]|y] I R; cbn in R; try (destruct R as [R|[]]; congruence).
    apply prefixes_iff in R. destruct R as (_ & r & ->). specialize (D _ I eq_refl). cbn in D. destruct s; [congruence | discriminate].
  Qed.
  Lemma visit_direct : forall x e q, direct x -> chain e = Some (x :: q) -> visit e = snd (record_import [x]).
  Proof.
    intros x e q D. revert q. induction e as [y|e a IH|l] using expr_ind'; intros q C; [|  |discriminate].
    - cbn in C. injection C as -> <-. reflexivity.
    - cbn in C. destruct (chain e) as [p|] eqn:Ce; [|discriminate]. cbn in C. injection C as C. destruct (chain_parts _ _ Ce) as (E & y & r & ->).
      cbn [app] in C. injection C as <- <-. cbn [ImpModel.visit]. rewrite E. rewrite record_false; [apply (IH r); reflexivity|].
      intros b I. apply (direct_none y (r ++ [a]) D); [destruct r; discriminate | exact I].
  Qed.
  Lemma visit_apart : forall v a, chain v = None -> (forall b, first_attribute (Attr v a) = Some b -> ~ bound outer b) -> visit (Attr v a) = visit v.
  Proof.
    intros v a C H. destruct (nochain_parts v a C) as (b & r & E & F). cbn [ImpModel.visit]. cbn [parts] in E. rewrite E. rewrite record_false; [reflexivity|].
    intros c I R. destruct (recorded_head _ _ R) as (x & r' & X & B). injection X as <- _. apply (H b F). exists c. auto.
  Qed.
  Lemma visit_reads : forall x, direct x -> forall e, attributes_apart (bound outer) e -> reads x e -> incl (snd (record_import [x])) (visit e).
  Proof.
    intros x D. induction e as [y|e a IH|l IH] using expr_ind'; cbn [attributes_apart reads]; intros A R.
    - subst y. intros z I. exact I.
    - destruct A as [A1 A2]. destruct (chain e) as [p|] eqn:C.
      + destruct (chain_parts _ _ C) as (_ & y & q & ->). assert (y = x).
        { clear - C R. revert q C. induction e as [z|e IH b|l]; cbn in *; intros q C; [congruence | | discriminate].
          destruct (chain e) as [p|] eqn:Ce; [|discriminate]. destruct (chain_parts _ _ Ce) as (_ & z & r & ->). cbn in C. injection C as -> <-. apply (IH R r). reflexivity. }
        subst y. intros z I. rewrite (visit_direct x (Attr e a) (q ++ [a]) D); [exact I|]. cbn. rewrite C. reflexivity.
      + rewrite visit_apart by assumption. apply IH; assumption.
    - cbn. induction IH as [|e l He _ IHl]; cbn in *; [contradiction|]. destruct A as [A1 A2], R as [R|R]; intros z I; apply in_or_app; [left; apply He; assumption | right; apply IHl; assumption].
  Qed.
  Lemma symbols_bring : forall b x t, (forall b', In b' outer -> resolvable this b') -> In b outer -> direct x -> binds this false b x t ->
    exists y, In y (symbols_of this [x] b) /\ brings y x t.
  Proof.
    intros b x t Rs I D B. destruct b as [p [y|]|n m y a|y]; cbn in B.
    - destruct B as [-> ->]. eexists. split; [cbn; rewrite String.eqb_refl; left; reflexivity|]. cbn. auto.
    - destruct B as (p' & -> & ->). specialize (D _ I eq_refl). injection D as ->. eexists. split; [cbn; rewrite String.eqb_refl; left; reflexivity|]. cbn. exists []. auto.
    - destruct B as (-> & m' & E & ->). apply resolve_module in E. eexists. split; [cbn [symbols_of]; rewrite (proj2 (path_eqb_eq _ _) eq_refl); left; reflexivity|].
      cbn. exists y. rewrite E. auto.
    - destruct B as [-> ->]. eexists. split; [cbn; left; reflexivity|]. cbn. exists y. auto.
  Qed.
  Lemma binds_name : forall b x t, binds this false b x t -> bound_name b = Some x.
  Proof.
    intros [p [y|]|n m y [z|]|y] x t B; cbn in *; try (destruct B as (p' & -> & _); reflexivity); try (destruct B as [-> _]; reflexivity).
  Qed.
  Lemma visit_complete : forall e x b t, (forall b', In b' outer -> resolvable this b') -> attributes_apart (bound outer) e -> direct x ->
    reads x e -> locals x = false -> builtins x = false -> In b outer -> binds this false b x t -> exists y, In y (visit e) /\ brings y x t.
  Proof.
    intros e x b t Rs A D R L B I Bi. destruct (symbols_bring b x t Rs I D Bi) as (y & Iy & By). exists y. split; [|exact By].
    apply (visit_reads x D e A R). destruct (record_true x [] b L B I (bound_recorded _ _ (binds_name _ _ _ Bi))) as (l & E & Inc). rewrite E. apply Inc. exact Iy.
  Qed.

  (** *** dotted imports used in full *)
  Lemma visit_dotted_chain : forall x t' e q, In (Import (x :: t') None) outer -> (forall b, In b outer -> bound_name b = Some x -> b = Import (x :: t') None) ->
    locals x = false -> builtins x = false -> chain e = Some ((x :: t') ++ q) -> In (mkSymbol (x :: t') None None) (visit e).
  Proof.
    intros x t' e q I Only L B. revert q. induction e as [y|e a IH|l] using expr_ind'; intros q C; [| |discriminate].
    - cbn in C. injection C as -> C. destruct t'; [|discriminate]. cbn [ImpModel.visit].
      destruct (record_true x [] (Import [x] None) L B I) as (l & E & Inc); [cbn; left; reflexivity|]. rewrite E. apply Inc. cbn. rewrite String.eqb_refl. left. reflexivity.
    - cbn in C. destruct (chain e) as [p|] eqn:Ce; [|discriminate]. cbn in C. injection C as C. destruct (chain_parts _ _ Ce) as (E & _). cbn [ImpModel.visit]. rewrite E, C.
      destruct (exists_last (l := a :: q) ltac:(discriminate)) as (q0 & a0 & Eq).
      destruct q as [|q1 q2] using rev_ind.
      + rewrite app_nil_r in *. destruct (record_true x t' (Import (x :: t') None) L B I) as (l & R & Inc).
        { cbn [recorded]. apply prefixes_iff. split; [discriminate|]. exists []. rewrite app_nil_r. reflexivity. }
        cbn [app]. rewrite R. apply Inc. cbn [symbols_of]. rewrite (proj2 (path_eqb_eq _ _) eq_refl). left. reflexivity.
      + assert (P : p = (x :: t') ++ q2) by (change (x :: t' ++ q2 ++ [q1]) with ((x :: t') ++ q2 ++ [q1]) in C; rewrite app_assoc in C; apply app_inj_tail in C; apply C).
        rewrite record_false.
        * apply (IH q2). congruence.
        * intros b Ib R. destruct (recorded_head _ _ R) as (y & r & Y & Bn). injection Y as <- _. specialize (Only b Ib Bn). subst b. cbn [recorded] in R. apply prefixes_iff in R.
          destruct R as (_ & r' & R). apply (f_equal (@length _)) in R. cbn [length app] in R. rewrite !app_length in R. cbn [length] in R. lia.
  Qed.
  Lemma visit_dotted : forall x t' e q, In (Import (x :: t') None) outer -> (forall b, In b outer -> bound_name b = Some x -> b = Import (x :: t') None) ->
    locals x = false -> builtins x = false -> attributes_apart (bound outer) e -> In ((x :: t') ++ q) (chains e) -> In (mkSymbol (x :: t') None None) (visit e).
  Proof.
    intros x t' e q I Only L B. induction e as [y|e a IH|l IH] using expr_ind'; cbn [attributes_apart chains]; intros A C.
    - destruct C as [C|[]]. apply visit_dotted_chain with (q := q); auto. cbn. rewrite C. reflexivity.
    - destruct A as [A1 A2]. destruct (chain e) as [p|] eqn:Ce.
      + destruct C as [C|[]]. apply visit_dotted_chain with (q := q); auto. cbn. rewrite Ce. cbn. rewrite C. reflexivity.
      + rewrite visit_apart by assumption. apply IH; assumption.
    - cbn. induction IH as [|e l He _ IHl]; cbn in *; [contradiction|]. destruct A as [A1 A2]. apply in_app_or in C. apply in_or_app. destruct C as [C|C]; [left; apply He; assumption | right; apply IHl; assumption].
  Qed.

  (** *** nothing else is bound *)
  Lemma record_sound : (forall b, In b outer -> resolvable this b) -> forall s y x t, In y (snd (record_import s)) -> brings y x t ->
    locals x = false /\ builtins x = false /\ exists b, In b outer /\ binds this false b x t.
  Proof.
    intros Rs [|z s] y x t I Br; [contradiction|]. unfold ImpModel.record_import in I. destruct (locals z || builtins z) eqn:L; [contradiction|]. apply orb_false_iff in L.
    destruct (existsb (records (z :: s)) outer); [|contradiction]. cbn [snd] in I. apply in_flat_map in I. destruct I as (b & Ib & Iy). apply filter_In in Ib. destruct Ib as [Ib R]. apply records_iff in R.
    assert (G : x = z /\ binds this false b x t).
    { destruct b as [p [w|]|n m w a|w]; cbn [symbols_of] in Iy.
      - destruct (path_eqb [w] (z :: s)) eqn:E; [|contradiction]. apply path_eqb_eq in E. injection E as -> <-. destruct Iy as [<-|[]]. cbn in Br. destruct Br as [-> ->]. cbn. auto.
      - destruct (path_eqb p (z :: s)) eqn:E; [|contradiction]. apply path_eqb_eq in E. subst p. destruct Iy as [<-|[]]. cbn in Br. destruct Br as (p & X & ->). injection X as -> <-. split; [reflexivity|]. cbn. exists s. auto.
      - destruct (path_eqb _ (z :: s)) eqn:E; [|contradiction]. apply path_eqb_eq in E. injection E as E <-. destruct Iy as [<-|[]]. cbn [brings y_module y_asname y_name] in Br. destruct Br as (w' & X & -> & ->). injection X as <-.
        split; [exact E|]. cbn. split; [reflexivity|]. destruct (resolvable_python _ _ _ _ _ (Rs _ Ib)) as [r Hr]. exists r. split; [exact Hr|]. apply resolve_module in Hr. rewrite Hr. reflexivity.
      - cbn in R. destruct R as [R|[]]. injection R as -> <-. destruct Iy as [<-|[]]. cbn in Br. destruct Br as (w' & X & -> & ->). injection X as <-. split; [reflexivity|]. cbn. auto. }
    destruct G as [-> G]. split; [apply L|]. split; [apply L|]. exists b. auto.
  Qed.
  Lemma visit_sound : (forall b, In b outer -> resolvable this b) -> forall e y x t, In y (visit e) -> brings y x t ->
    locals x = false /\ builtins x = false /\ exists b, In b outer /\ binds this false b x t.
  Proof.
    intros Rs. induction e as [z|e a IH|l IH] using expr_ind'; intros y x t I Br.
    - apply (record_sound Rs [z] y); assumption.
    - cbn [ImpModel.visit] in I. destruct (record_import (parts e ++ [a])) as [[] l] eqn:E; [|apply (IH y); assumption].
      apply (record_sound Rs (parts e ++ [a]) y); [rewrite E; exact I | exact Br].
    - cbn in I. apply in_flat_map in I. destruct I as (e & Ie & I). rewrite Forall_forall in IH. apply (IH e Ie y); assumption.
  Qed.
End Proofs.

(** *** One namespace *)
Lemma insert_in : forall y l z, In z (insert y l) <-> z = y \/ In z l.
Proof.
  induction l as [|w l IH]; cbn [insert In]; intros z; [intuition|]. destruct (key_leb (key y) (key w)); cbn [In]; [intuition|]. rewrite IH. intuition.
Qed.
Lemma statements_in : forall req y, In y (import_statements req) <-> exists r, In r req /\ In y r.
Proof.
  intros req y. unfold import_statements. transitivity (In y (nodup symbol_dec (concat req))).
  - induction (nodup symbol_dec (concat req)) as [|z l IH]; cbn [fold_right In]; [reflexivity|]. rewrite insert_in, IH. intuition.
  - rewrite nodup_In, in_concat. reflexivity.
Qed.
Lemma brings_dec : forall y x, (exists t, brings y x t) \/ (forall t, ~ brings y x t).
Proof.
  intros [n a m] x. unfold brings. cbn. destruct m as [m|].
  - destruct n as [|k [|k' n]]; [right; intros t (? & E & _); discriminate | | right; intros t (? & E & _); discriminate].
    destruct (string_dec x (match a with Some z => z | None => k end)) as [E|N]; [left; eexists; exists k; auto | right; intros t (k' & E & X & _); injection E as <-; contradiction].
  - destruct a as [z|].
    + destruct (string_dec x z) as [->|N]; [left; eauto | right; intros t [E _]; contradiction].
    + destruct n as [|k n]; [right; intros t (p & E & _); discriminate|]. destruct (string_dec k x) as [->|N]; [left; eexists; exists n; auto | right; intros t (p & E & _); congruence].
Qed.
Lemma last_stands : forall l x, (exists y t, In y l /\ brings y x t) -> exists y t, In y l /\ brings y x t /\ stands_for l x t.
Proof.
  induction l as [|y l IH]; intros x (z & t & I & B); [contradiction|].
  assert (D : (exists w u, In w l /\ brings w x u) \/ (forall w u, In w l -> ~ brings w x u)).
  { clear. induction l as [|w l IH]; [right; contradiction|]. destruct IH as [(v & u & I & B)|N]; [left; exists v, u; split; [right; exact I | exact B]|].
    destruct (brings_dec w x) as [[u B]|M]; [left; exists w, u; split; [left; reflexivity | exact B] | right; intros v u [<-|I]; [apply M | apply N; exact I]]. }
  destruct D as [D|N].
  - destruct (IH x D) as (w & u & Iw & Bw & (b & v & a & E & Bv & A)). exists w, u. split; [right; exact Iw|]. split; [exact Bw|]. exists (y :: b), v, a. split; [rewrite E; reflexivity | auto].
  - destruct I as [<-|I]; [|exfalso; apply (N z t I B)]. exists y, t. split; [left; reflexivity|]. split; [exact B|]. exists [], y, l. auto.
Qed.
Lemma merged : forall req r y x t, In r req -> In y r -> brings y x t ->
  (forall r' y' t', In r' req -> In y' r' -> brings y' x t' -> t' = t) -> stands_for (import_statements req) x t.
Proof.
  intros req r y x t Ir Iy B A. destruct (last_stands (import_statements req) x) as (z & u & Iz & Bz & S).
  - exists y, t. split; [apply statements_in; exists r; auto | exact B].
  - apply statements_in in Iz. destruct Iz as (r' & Ir' & Iz). rewrite (A r' z u Ir' Iz Bz) in S. exact S.
Qed.
Lemma brings_unique : forall y x t t', brings y x t -> brings y x t' -> t = t'.
Proof.
  intros [n a m] x t t'. unfold brings. cbn. destruct m as [m|]; [|destruct a].
  - intros (k & E & _ & ->) (k' & E' & _ & ->). congruence.
  - intros [_ ->] [_ ->]. reflexivity.
  - intros (p & _ & ->) (p' & _ & ->). reflexivity.
Qed.
Lemma stands_unique : forall l x t t', stands_for l x t -> stands_for l x t' -> t = t'.
Proof.
  intros l x t t' (b & y & a & E & B & A) (b' & y' & a' & E' & B' & A'). subst l. revert b' E'. induction b as [|z b IH]; intros [|z' b'] E'; cbn in E'.
  - injection E' as <- <-. apply (brings_unique y x); assumption.
  - injection E' as <- E'. exfalso. apply (A y' t'); [rewrite E'; apply in_or_app; right; left; reflexivity | exact B'].
  - injection E' as -> E'. exfalso. apply (A' y t); [rewrite <- E'; apply in_or_app; right; left; reflexivity | exact B].
  - injection E' as <- E'. apply (IH b' E').
Qed.
