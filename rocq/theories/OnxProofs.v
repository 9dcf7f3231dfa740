(** Proofs for C102 and C103. *)
From Coq Require Import String.
From Verif Require Import Prelude OnxModel OnxSpec.
From Verif Require EncModel EncSpec.
Local Open Scope nat_scope.
Local Open Scope list_scope.

(** *** Strings *)
Lemma append_inj_l : forall p a b : string, (p ++ a)%string = (p ++ b)%string -> a = b.
Proof. induction p as [|c p IH]; cbn; intros a b E; [exact E|]. injection E as E. apply IH, E. Qed.
Lemma append_length : forall a b : string, String.length (a ++ b) = String.length a + String.length b.
Proof. induction a as [|c a IH]; cbn; intros b; [reflexivity|]. rewrite IH. reflexivity. Qed.
Lemma append_inj_r : forall s a b : string, (a ++ s)%string = (b ++ s)%string -> a = b.
Proof.
  intros s. induction a as [|c a IH]; destruct b as [|d b]; cbn; intros E; try reflexivity.
  - apply (f_equal String.length) in E. cbn in E. rewrite append_length in E. lia.
  - apply (f_equal String.length) in E. cbn in E. rewrite append_length in E. lia.
  - injection E as -> E. f_equal. apply IH, E.
Qed.
Lemma altered_inj : forall p a b, altered p a = altered p b -> a = b.
Proof. unfold altered. intros p a b E. apply append_inj_l in E. cbn in E. injection E as E. apply append_inj_r in E. exact E. Qed.
Lemma altered_some : forall p a, altered p a <> ""%string.
Proof. unfold altered. intros p a E. apply (f_equal String.length) in E. rewrite append_length in E. cbn in E. lia. Qed.
Lemma upd_same : forall {A} v (x : A) f, upd v x f v = x.
Proof. intros. unfold upd. rewrite Nat.eqb_refl. reflexivity. Qed.
Lemma upd_other : forall {A} v w (x : A) f, w <> v -> upd v x f w = f w.
Proof. intros A v w x f N. unfold upd. destruct (Nat.eqb_spec w v); [contradiction | reflexivity]. Qed.

(** *** Meaning *)
Section Meaning.
  Context {V : Type} (sem : nat -> list (option V) -> list V) (tensor : nat -> V).
  Variable name : nat -> string.
  Variable P : nat -> Prop.
  Hypothesis inj : forall v w, P v -> P w -> name v = name w -> v = w.
  Hypothesis some : forall v, P v -> name v <> ""%string.
  Definition agree (e : nat -> option V) (f : string -> option V) : Prop := forall v, P v -> f (name v) = e v.
  Lemma bind_agree : forall ks xs e f, (forall v, In v ks -> P v) -> agree e f -> agree (bind Nat.eqb ks xs e) (bind String.eqb (map name ks) xs f).
  Proof.
    induction ks as [|k ks IH]; intros xs e f I A; cbn [bind map]; [exact A|]. destruct xs as [|x xs]; [exact A|]. apply IH; [intros v J; apply I; right; exact J|].
    intros v J. specialize (I k (or_introl eq_refl)). destruct (Nat.eqb_spec v k) as [->|N]; [rewrite String.eqb_refl; reflexivity|].
    destruct (String.eqb_spec (name v) (name k)) as [E|_]; [exfalso; apply N, inj; assumption | apply A, J].
  Qed.
  Definition file_input (o : option nat) : option string := named_input (match o with Some v => name v | None => ""%string end).
  Lemma input_agree : forall e f o, agree e f -> (forall v, o = Some v -> P v) -> input f (file_input o) = input e o.
  Proof.
    intros e f [v|] A I; [|reflexivity]. unfold file_input, named_input. destruct (String.eqb_spec (name v) "") as [E|_]; [exfalso; apply (some v (I v eq_refl) E)|]. cbn. apply A, I. reflexivity.
  Qed.
  Lemma nodes_agree : forall nodes e f, (forall n, In n nodes -> (forall v, In (Some v) (n_in n) -> P v) /\ (forall v, In v (n_out n) -> P v)) -> agree e f ->
    agree (fold_left (step Nat.eqb sem) (map (fun n => (n_op n, n_in n, n_out n)) nodes) e)
          (fold_left (step String.eqb sem) (map (fun n => (n_op n, map file_input (n_in n), map name (n_out n))) nodes) f).
  Proof.
    induction nodes as [|n nodes IH]; intros e f I A; cbn [map fold_left]; [exact A|]. apply IH; [intros m J; apply I; right; exact J|].
    destruct (I n (or_introl eq_refl)) as [Ii Io]. unfold step. replace (map (input f) (map file_input (n_in n))) with (map (input e) (n_in n)).
    - apply bind_agree; assumption.
    - rewrite map_map. apply map_ext_in. intros o J. symmetry. apply input_agree; [exact A|]. intros v ->. apply Ii, J.
  Qed.
End Meaning.
Lemma file_means : forall {V} (sem : nat -> list (option V) -> list V) tensor g args, closed g -> distinct g -> file_meaning sem tensor (to_proto g) args = ir_meaning sem tensor g args.
Proof.
  intros V sem tensor g args (N & Ci & Co) (S & D). unfold file_meaning, ir_meaning, meaning, to_proto. cbn [p_inputs p_inits p_nodes p_outputs].
  rewrite !map_map. cbn [fst snd p_op p_in p_out].
  set (P := fun v => In v (values g)). set (name := g_names g).
  assert (Hm : forall v, In v (g_inits g) -> P v). { intros v I. unfold P, values, made. rewrite !in_app_iff. auto. }
  assert (Hi : forall v, In v (g_inputs g) -> P v). { intros v I. unfold P, values. rewrite in_app_iff. auto. }
  assert (A0 : @agree V name P (fun _ => None) (fun _ => None)) by (intros v _; reflexivity).
  assert (A1 := bind_agree name P D (g_inits g) (map tensor (g_inits g)) _ _ Hm A0).
  assert (A2 := bind_agree name P D (g_inputs g) args _ _ Hi A1).
  assert (H : forall n, In n (g_nodes g) -> (forall v, In (Some v) (n_in n) -> P v) /\ (forall v, In v (n_out n) -> P v)).
  { intros n I. split; [intros v J; apply (Ci n v I J)|]. intros v J. unfold P, values, made. rewrite !in_app_iff. right. right. apply in_flat_map. exists n. auto. }
  assert (A3 := nodes_agree sem name P D S (g_nodes g) _ _ H A2).
  apply map_ext_in. intros v I.
  replace (map (fun x => (n_op x, map named_input (map (fun o => match o with Some v0 => name v0 | None => ""%string end) (n_in x)), map name (n_out x))) (g_nodes g))
    with (map (fun n => (n_op n, map (file_input name) (n_in n), map name (n_out n))) (g_nodes g)) by (apply map_ext; intros n; rewrite map_map; reflexivity).
  replace (map (fun x : nat => x) (g_inits g)) with (g_inits g) by (symmetry; apply map_id).
  apply A3, Co, I.
Qed.

(** *** Altered names *)
Lemma alter_fold : forall prefix l names mapping, NoDup l -> let '(names', mapping') := fold_left (alter_one prefix) l (names, mapping) in
  (forall v, In v l -> names' v = if String.eqb (names v) "" then ""%string else altered prefix (names v)) /\ (forall v, ~ In v l -> names' v = names v) /\
  (forall x y, lookup x mapping' = Some y -> lookup x mapping = Some y \/ exists v, In v l /\ names v = x /\ y = altered prefix x).
Proof.
  intros prefix l. induction l as [|v l IH]; intros names mapping N; cbn [fold_left]; [repeat split; auto; contradiction|]. inversion N as [|? ? Nv Nl]; subst.
  unfold alter_one at 2. destruct (String.eqb_spec (names v) "") as [E|E].
  - specialize (IH names mapping Nl). destruct (fold_left (alter_one prefix) l (names, mapping)) as [names' mapping']. destruct IH as (A & B & C). split; [|split].
    + intros w [<-|I]; [rewrite (B v Nv), E; reflexivity | apply A, I].
    + intros w I. apply B. intros J. apply I. right. exact J.
    + intros x y H. destruct (C x y H) as [H'|(w & I & H')]; [auto|]. right. exists w. split; [right; exact I | exact H'].
  - specialize (IH (upd v (altered prefix (names v)) names) ((names v, altered prefix (names v)) :: mapping) Nl).
    destruct (fold_left (alter_one prefix) l _) as [names' mapping']. destruct IH as (A & B & C). split; [|split].
    + intros w [<-|I].
      * rewrite (B v Nv), upd_same. destruct (String.eqb_spec (names v) ""); [contradiction | reflexivity].
      * assert (w <> v) by (intros ->; contradiction). rewrite (A w I), upd_other by assumption. reflexivity.
    + intros w I. rewrite B by (intros J; apply I; right; exact J). apply upd_other. intros ->. apply I. left. reflexivity.
    + intros x y H. destruct (C x y H) as [H'|(w & I & H')].
      * cbn [lookup] in H'. destruct (String.eqb_spec x (names v)) as [->|Nx]; [injection H' as <-; right; exists v; split; [left; reflexivity | auto] | auto].
      * right. assert (w <> v) by (intros ->; contradiction). rewrite upd_other in H' by assumption. exists w. split; [right; exact I | exact H'].
Qed.
Lemma follow_fold : forall mapping l names, (forall v, In v l -> lookup (names v) mapping = None) -> fold_left (follow_one mapping) l names = names.
Proof.
  induction l as [|v l IH]; intros names H; cbn [fold_left]; [reflexivity|]. assert (E : follow_one mapping names v = names).
  { unfold follow_one. rewrite (H v (or_introl eq_refl)). destruct (String.eqb (names v) ""); reflexivity. }
  rewrite E. apply IH. intros w I. apply H. right. exact I.
Qed.
Lemma values_fix : forall prefix g, values (fix_onnx_names prefix g) = values g.
Proof.
  intros prefix g. unfold fix_onnx_names. destruct (fold_left (alter_one prefix) _ _) as [names mapping]. unfold values, made. cbn [g_inputs g_inits g_nodes].
  f_equal. f_equal. rewrite flat_map_concat_map, map_map, <- flat_map_concat_map. reflexivity.
Qed.
Lemma nodup_r : forall {A} (a b : list A), NoDup (a ++ b) -> NoDup b.
Proof. induction a as [|x a IH]; cbn; intros b N; [exact N|]. inversion N; subst. auto. Qed.
Lemma nodup_l : forall {A} (a b : list A), NoDup (a ++ b) -> NoDup a.
Proof. induction a as [|x a IH]; cbn; intros b N; [constructor|]. inversion N; subst. constructor; [intros I; match goal with H : ~ _ |- _ => apply H end; apply in_or_app; auto | eauto]. Qed.
Lemma nodup_apart : forall {A} (a b : list A) x, NoDup (a ++ b) -> In x a -> In x b -> False.
Proof.
  induction a as [|y a IH]; cbn; intros b x N I J; [contradiction|]. inversion N; subst. destruct I as [<-|I]; [match goal with H : ~ _ |- _ => apply H end; apply in_or_app; auto | eauto].
Qed.
Lemma fix_names : forall prefix g, closed g -> distinct g -> apart prefix g -> altered_names prefix g (fix_onnx_names prefix g).
Proof.
  intros prefix g (N & Ci & Co) (S & D) A. unfold altered_names, fix_onnx_names. fold (made g).
  pose proof (alter_fold prefix (made g) (g_names g) [] (nodup_r _ _ N)) as F. destruct (fold_left (alter_one prefix) (made g) (g_names g, [])) as [names mapping]. destruct F as (Fi & Fo & Fm).
  cbn [g_names].
  assert (M : forall v, In v (made g) -> In v (values g)) by (intros v I; apply in_or_app; right; exact I).
  assert (Fi' : forall v, In v (made g) -> names v = altered prefix (g_names g v)). { intros v I. rewrite (Fi v I). destruct (String.eqb_spec (g_names g v) "") as [E|_]; [exfalso; apply (S v (M v I) E) | reflexivity]. }
  assert (I' : forall v, In v (g_inputs g) -> ~ In v (made g)) by (intros v I J; apply (nodup_apart _ _ v N I J)).
  assert (X : fold_left (follow_one mapping) (flat_map node_inputs (g_nodes g) ++ g_inputs g ++ g_outputs g) names = names).
  { apply follow_fold. intros v I. destruct (lookup (names v) mapping) as [y|] eqn:L; [|reflexivity]. exfalso. destruct (Fm _ _ L) as [H|(w & Iw & Ew & _)]; [discriminate|].
    assert (Vv : In v (values g)).
    { rewrite !in_app_iff in I. destruct I as [I|[I|I]]; [|unfold values; apply in_or_app; left; exact I | apply Co, I].
      apply in_flat_map in I. destruct I as (n & In_ & I). unfold node_inputs in I. apply in_flat_map in I. destruct I as ([u|] & Iu & I); [|contradiction]. destruct I as [<-|[]]. apply (Ci n u In_ Iu). }
    pose proof Vv as Vv0. unfold values in Vv. apply in_app_or in Vv. destruct Vv as [Iv|Mv].
    - rewrite (Fo v (I' v Iv)) in Ew. assert (w = v) by (apply D; auto). subst w. apply (I' v Iv Iw).
    - rewrite (Fi' v Mv) in Ew. apply (A w v (M w Iw) Mv). exact Ew. }
  rewrite X. split; [exact Fi' | intros v I; apply Fo, I', I].
Qed.
Lemma fix_closed : forall prefix g, closed g -> closed (fix_onnx_names prefix g).
Proof.
  intros prefix g (N & Ci & Co). unfold closed. rewrite values_fix. split; [exact N|]. unfold fix_onnx_names. destruct (fold_left (alter_one prefix) _ _) as [names mapping]. cbn [g_nodes g_outputs]. split; [|exact Co].
  intros n v I J. apply in_map_iff in I. destruct I as (m & <- & I). apply (Ci m v I J).
Qed.
Lemma fix_distinct : forall prefix g, closed g -> distinct g -> apart prefix g -> distinct (fix_onnx_names prefix g).
Proof.
  intros prefix g C Dg A. pose proof (fix_names prefix g C Dg A) as [Fm Fi]. destruct Dg as [S D]. unfold distinct. rewrite values_fix.
  assert (M : forall v, In v (made g) -> In v (values g)) by (intros v I; apply in_or_app; right; exact I). split.
  - intros v I. unfold values in I. apply in_app_or in I. destruct I as [I|I]; [rewrite (Fi v I); apply S, in_or_app; left; exact I | rewrite (Fm v I); apply (altered_some prefix)].
  - intros v w Iv Iw E. pose proof Iv as Vv. pose proof Iw as Vw. unfold values in Iv, Iw. apply in_app_or in Iv, Iw. destruct Iv as [Iv|Iv], Iw as [Iw|Iw].
    + rewrite (Fi v Iv), (Fi w Iw) in E. apply D; assumption.
    + rewrite (Fi v Iv), (Fm w Iw) in E. exfalso. apply (A v w Vv Iw E).
    + rewrite (Fm v Iv), (Fi w Iw) in E. exfalso. symmetry in E. apply (A w v Vw Iv E).
    + rewrite (Fm v Iv), (Fm w Iw) in E. apply (altered_inj prefix) in E. apply D; assumption.
Qed.
Lemma fix_meaning : forall {V} (sem : nat -> list (option V) -> list V) tensor prefix g args, ir_meaning sem tensor (fix_onnx_names prefix g) args = ir_meaning sem tensor g args.
Proof.
  intros. unfold fix_onnx_names. destruct (fold_left (alter_one prefix) _ _) as [names mapping]. unfold ir_meaning. cbn [g_inputs g_inits g_nodes g_outputs]. rewrite map_map. reflexivity.
Qed.
Lemma alter_keeps : forall {V} (sem : nat -> list (option V) -> list V) tensor prefix g args, closed g -> distinct g -> apart prefix g ->
  file_meaning sem tensor (to_proto (fix_onnx_names prefix g)) args = file_meaning sem tensor (to_proto g) args.
Proof.
  intros V sem tensor prefix g args C D A. rewrite (file_means sem tensor g args C D), file_means, fix_meaning; [reflexivity | apply fix_closed, C | apply fix_distinct; assumption].
Qed.

(** *** Names of inputs and outputs *)
Lemma assign_other : forall l names v, ~ In v (map fst l) -> assign_names names l v = names v.
Proof.
  unfold assign_names. induction l as [|[w x] l IH]; intros names v N; cbn [fold_left fst snd]; [reflexivity|]. cbn in N. rewrite IH by (intros I; apply N; right; exact I). apply upd_other. intros ->. apply N. left. reflexivity.
Qed.
Lemma assign_map : forall l names, NoDup (map fst l) -> map (assign_names names l) (map fst l) = map snd l.
Proof.
  induction l as [|[w x] l IH]; intros names N; [reflexivity|]. cbn [map fst snd]. inversion N; subst.
  assert (A : forall v, assign_names names ((w, x) :: l) v = assign_names (upd w x names) l v) by reflexivity.
  f_equal; [rewrite A, assign_other by assumption; apply upd_same|]. rewrite <- (IH (upd w x names)) by assumption. apply map_ext. intros v. apply A.
Qed.
Lemma combine_fst : forall {A B} (a : list A) (b : list B), length a = length b -> map fst (combine a b) = a.
Proof. induction a as [|x a IH]; destruct b as [|y b]; cbn; intros E; try reflexivity; try discriminate. f_equal. apply IH. lia. Qed.
Lemma combine_snd : forall {A B} (a : list A) (b : list B), length a = length b -> map snd (combine a b) = b.
Proof. induction a as [|x a IH]; destruct b as [|y b]; cbn; intros E; try reflexivity; try discriminate. f_equal. apply IH. lia. Qed.
Lemma rename_ok : forall ins outs g g', rename_io (Some ins) (Some outs) g = Ok g' -> NoDup (g_inputs g ++ g_outputs g) -> renamed_io ins outs g g'.
Proof.
  intros ins outs g g' E N. unfold rename_io in E. destruct (Nat.eqb_spec (length (g_inputs g)) (length ins)) as [Li|]; [|discriminate]. destruct (Nat.eqb_spec (length (g_outputs g)) (length outs)) as [Lo|]; [|discriminate].
  cbn in E. injection E as <-. unfold renamed_io. cbn [g_names with_names].
  set (f := assign_names (g_names g) (combine (g_inputs g) ins)). split; [|split].
  - transitivity (map snd (combine (g_inputs g) ins)); [|apply combine_snd, Li]. rewrite <- (assign_map (combine (g_inputs g) ins) (g_names g)) by (rewrite combine_fst by exact Li; apply (nodup_l _ _ N)).
    rewrite combine_fst by exact Li. apply map_ext_in. intros v I. apply assign_other. rewrite combine_fst by exact Lo. intros J. apply (nodup_apart _ _ v N I J).
  - transitivity (map snd (combine (g_outputs g) outs)); [|apply combine_snd, Lo]. rewrite <- (assign_map (combine (g_outputs g) outs) f) by (rewrite combine_fst by exact Lo; apply (nodup_r _ _ N)). rewrite combine_fst by exact Lo. reflexivity.
  - intros v I. rewrite in_app_iff in I. rewrite assign_other by (rewrite combine_fst by exact Lo; tauto). apply assign_other. rewrite combine_fst by exact Li. tauto.
Qed.
Lemma rename_shape : forall ins outs g g', rename_io ins outs g = Ok g' -> g' = with_names g (g_names g').
Proof. intros ins outs g g' E. unfold rename_io in E. destruct (_ || _) in E; [discriminate|]. injection E as <-. reflexivity. Qed.
Lemma rename_distinct : forall ins outs g g', closed g -> distinct g -> rename_io (Some ins) (Some outs) g = Ok g' -> NoDup (g_inputs g ++ g_outputs g) -> usable ins outs g -> distinct g'.
Proof.
  intros ins outs g g' C [S D] E N (U & Ne & Uo). pose proof (rename_ok ins outs g g' E N) as (Ri & Ro & Rn). rewrite (rename_shape _ _ _ _ E).
  assert (R : map (g_names g') (g_inputs g ++ g_outputs g) = ins ++ outs) by (rewrite map_app, Ri, Ro; reflexivity).
  unfold distinct. change (values (with_names g (g_names g'))) with (values g). cbn [g_names with_names].
  assert (In_dec : forall v, In v (g_inputs g ++ g_outputs g) \/ ~ In v (g_inputs g ++ g_outputs g)) by (intros v; destruct (in_dec Nat.eq_dec v (g_inputs g ++ g_outputs g)); auto).
  assert (Io : forall v, In v (g_inputs g ++ g_outputs g) -> In (g_names g' v) (ins ++ outs)) by (intros v I; rewrite <- R; apply in_map, I).
  split.
  - intros v I Ev. destruct (In_dec v) as [J|J]; [apply Ne; rewrite <- Ev; apply Io, J | rewrite (Rn v J) in Ev; apply (S v I Ev)].
  - intros v w Iv Iw Ev. destruct (In_dec v) as [Jv|Jv], (In_dec w) as [Jw|Jw].
    + clear -R U Jv Jw Ev. rewrite <- R in U. revert U Jv Jw. generalize (g_inputs g ++ g_outputs g). induction l as [|x l IH]; cbn; intros U Jv Jw; [contradiction|]. inversion U as [|? ? H1 H2]; subst.
      destruct Jv as [->|Jv], Jw as [->|Jw]; auto; exfalso; apply H1; [rewrite Ev | rewrite <- Ev]; apply in_map; assumption.
    + exfalso. rewrite (Rn w Jw) in Ev. apply (Uo w Iw Jw). rewrite <- Ev. apply Io, Jv.
    + exfalso. rewrite (Rn v Jv) in Ev. apply (Uo v Iv Jv). rewrite Ev. apply Io, Jw.
    + rewrite (Rn v Jv), (Rn w Jw) in Ev. apply D; assumption.
Qed.
Lemma rename_keeps : forall {V} (sem : nat -> list (option V) -> list V) tensor ins outs g g' args, closed g -> distinct g -> NoDup (g_inputs g ++ g_outputs g) -> usable ins outs g ->
  rename_io (Some ins) (Some outs) g = Ok g' -> file_meaning sem tensor (to_proto g') args = file_meaning sem tensor (to_proto g) args.
Proof.
  intros V sem tensor ins outs g g' args C D N U E. pose proof (rename_distinct ins outs g g' C D E N U) as D'. rewrite (rename_shape _ _ _ _ E) in *.
  rewrite (file_means sem tensor g args C D), file_means; [reflexivity | exact C | exact D'].
Qed.
Lemma rename_refused : forall ins outs g, (exists g', rename_io (Some ins) (Some outs) g = Ok g') <-> length ins = length (g_inputs g) /\ length outs = length (g_outputs g).
Proof.
  intros ins outs g. unfold rename_io. destruct (Nat.eqb_spec (length (g_inputs g)) (length ins)) as [Li|Li], (Nat.eqb_spec (length (g_outputs g)) (length outs)) as [Lo|Lo]; cbn; split; intros H; try (destruct H; discriminate); try (exfalso; lia); eauto; lia.
Qed.
Lemma assign_same : forall l names, (forall p, In p l -> snd p = names (fst p)) -> forall v, assign_names names l v = names v.
Proof.
  unfold assign_names. induction l as [|[w x] l IH]; intros names H v; cbn [fold_left fst snd]; [reflexivity|].
  assert (X : forall u, upd w x names u = names u). { intros u. unfold upd. destruct (Nat.eqb_spec u w) as [->|]; [apply (H (w, x)); left; reflexivity | reflexivity]. }
  rewrite IH; [apply X|]. intros p I. rewrite X. apply H. right. exact I.
Qed.
Lemma combine_map_in : forall {A B} (f : A -> B) l p, In p (combine l (map f l)) -> snd p = f (fst p).
Proof. induction l as [|x l IH]; cbn; intros p I; [contradiction|]. destruct I as [<-|I]; [reflexivity | auto]. Qed.
Lemma rename_none : forall g, exists g', rename_io None None g = Ok g' /\ forall v, g_names g' v = g_names g v.
Proof.
  intros g. unfold rename_io. rewrite !map_length, !Nat.eqb_refl. cbn. eexists. split; [reflexivity|]. intros v. cbn [g_names with_names].
  rewrite assign_same; [apply assign_same, combine_map_in|]. intros p I. rewrite assign_same by apply combine_map_in. apply (combine_map_in _ _ _ I).
Qed.

(** *** Annotations *)
Lemma last_named_none : forall {A} x (l : list (string * A)), ~ In x (map fst l) -> last_named x l = None.
Proof.
  induction l as [|[y a] l IH]; cbn; intros N; [reflexivity|]. rewrite IH by tauto. destruct (String.eqb_spec x y) as [->|]; [exfalso; apply N; auto | reflexivity].
Qed.
Lemma last_named_in : forall {A} x (a : A) l, NoDup (map fst l) -> In (x, a) l -> last_named x l = Some a.
Proof.
  induction l as [|[y b] l IH]; cbn; intros N I; [contradiction|]. inversion N; subst. destruct I as [E|I].
  - injection E as -> ->. rewrite last_named_none by assumption. rewrite String.eqb_refl. reflexivity.
  - rewrite (IH ltac:(assumption) I). reflexivity.
Qed.
(** Values may be listed twice: it is enough that a name stands for one value. *)
Lemma last_named_value : forall name (meta : nat -> option metadata) l v, (forall w, In w l -> name w = name v -> w = v) -> In v l ->
  by_name (name v) (map (fun v => (name v, meta v)) l) = meta v.
Proof.
  intros name meta l v. unfold by_name. intros U I. assert (E : last_named (name v) (map (fun v => (name v, meta v)) l) = Some (meta v)).
  { induction l as [|w l IH]; [contradiction|]. cbn [map last_named]. destruct (in_dec Nat.eq_dec v l) as [J|J].
    - rewrite IH; [reflexivity | intros u K; apply U; right; exact K | exact J].
    - destruct I as [->|I]; [|contradiction]. rewrite last_named_none; [rewrite String.eqb_refl; reflexivity|].
      intros K. apply in_map_iff in K. destruct K as ([x a] & E & K). cbn in E. subst x. apply in_map_iff in K. destruct K as (u & E & K). injection E as E _. apply U in E; [subst; contradiction | right; exact K]. }
  rewrite E. reflexivity.
Qed.
Lemma copied_same : forall (b : bool) (m : option metadata), copied (if b then m else None) m = m.
Proof. intros [] [m|]; reflexivity. Qed.
Lemma copy_own : forall kv kn g, closed g -> distinct g -> nodes_named g -> copy_metadata kv kn g = own_metadata g.
Proof.
  intros kv kn g (N & Ci & Co) (S & D) (Nn & Nd). unfold copy_metadata, own_metadata.
  assert (Vi : forall v, In v (g_inputs g) -> In v (values g)) by (intros v I; apply in_or_app; auto).
  assert (Vm : forall v, In v (g_inits g) -> In v (values g)) by (intros v I; unfold values, made; rewrite !in_app_iff; auto).
  assert (A : forall l, (forall v, In v l -> In v (values g)) ->
    map (fun v => (g_names g v, copied (if kv then g_meta g v else None) (by_name (g_names g v) (map (fun v => (g_names g v, g_meta g v)) l)))) l = map (fun v => (g_names g v, g_meta g v)) l).
  { intros l I. apply map_ext_in. intros v J. rewrite last_named_value; [rewrite copied_same; reflexivity | | exact J]. intros w K E. apply D; auto. }
  f_equal; try (apply A; assumption). apply map_ext_in. intros n I. f_equal.
  destruct (n_name n) as [x|] eqn:E; [|exfalso; apply (Nn n I E)]. unfold by_name.
  rewrite (last_named_in x (n_meta n)); [apply copied_same | |].
  - clear -Nd Nn. revert Nd Nn. generalize (g_nodes g). induction l as [|m l IH]; cbn; intros Nd Nn; [constructor|]. inversion Nd as [|? ? H1 H2]; subst.
    destruct (n_name m) as [y|] eqn:Ey; [|exfalso; apply (Nn m (or_introl eq_refl) Ey)]. cbn. constructor; [|apply IH; [exact H2 | intros k K; apply Nn; right; exact K]].
    intros K. apply H1. apply in_map_iff in K. destruct K as ([z a] & Ez & K). cbn in Ez. subst z. apply in_flat_map in K. destruct K as (k & Ik & K). destruct (n_name k) as [z|] eqn:Ek; [|contradiction]. destruct K as [K|[]]. injection K as -> _.
    rewrite <- Ek. apply in_map, Ik.
  - apply in_flat_map. exists n. split; [exact I|]. rewrite E. left. reflexivity.
Qed.
Lemma fix_nodes_named : forall prefix g, nodes_named g -> nodes_named (fix_onnx_names prefix g).
Proof.
  intros prefix g [A B]. unfold nodes_named, fix_onnx_names. destruct (fold_left (alter_one prefix) _ _) as [names mapping]. cbn [g_nodes]. split.
  - intros n I. apply in_map_iff in I. destruct I as (m & <- & I). cbn. specialize (A m I). destruct (n_name m); [discriminate | contradiction].
  - rewrite map_map. cbn [n_name alter_node]. clear A. induction (g_nodes g) as [|n l IH]; cbn in *; [constructor|]. inversion B as [|? ? H1 H2]; subst. constructor; [|apply IH, H2].
    intros I. apply in_map_iff in I. destruct I as (m & E & I). apply H1. destruct (n_name m) as [x|] eqn:Em, (n_name n) as [y|] eqn:En; try discriminate; [|rewrite <- Em; apply in_map, I].
    injection E as E. assert (x = y). { destruct (String.eqb_spec x "") as [Hx|Hx], (String.eqb_spec y "") as [Hy|Hy]; try congruence; [exfalso; symmetry in E; rewrite Hx in E; apply altered_some in E; exact E | exfalso; rewrite Hy in E; apply altered_some in E; exact E | apply altered_inj in E; exact E]. }
    subst y. rewrite <- Em. apply in_map, I.
Qed.
Lemma rename_nodes_named : forall ins outs g g', rename_io ins outs g = Ok g' -> nodes_named g -> nodes_named g'.
Proof. intros ins outs g g' E N. rewrite (rename_shape _ _ _ _ E). exact N. Qed.

(** *** The annotator *)
Section Annotator.
  Context {S : Type}.
  Variable specs : list (string * S).
  Variable targets : list (string * string).
  Lemma first_spec_some : forall l s, first_spec specs l = Some s -> exists x, In x l /\ spec_of specs x = Some s.
  Proof. induction l as [|x l IH]; cbn; intros s E; [discriminate|]. destruct (spec_of specs x) eqn:F; [injection E as <-; eauto|]. destruct (IH s E) as (y & I & G). eauto. Qed.
  Lemma first_spec_none : forall l, first_spec specs l = None -> forall x, In x l -> spec_of specs x = None.
  Proof. induction l as [|y l IH]; cbn; intros E x I; [contradiction|]. destruct (spec_of specs y) eqn:F; [discriminate|]. destruct I as [<-|I]; auto. Qed.
  Lemma lookup_in : forall x (l : list (string * string)) y, lookup x l = Some y -> In (x, y) l.
  Proof. induction l as [|[k v] l IH]; cbn; intros y E; [discriminate|]. destruct (String.eqb_spec x k) as [->|]; [injection E as <-; auto | auto]. Qed.
  Lemma quant_spec_found : forall i s, quant_spec specs targets i = Some s -> exists x, related targets i x /\ spec_of specs x = Some s.
  Proof.
    intros i s. unfold quant_spec. intros E.
    destruct (match it_node i with Some x => _ | None => None end) as [s'|] eqn:Nd.
    - injection E as ->. destruct (it_node i) as [x|] eqn:Ei; [|discriminate]. destruct (spec_of specs x) as [s1|] eqn:Ex; [injection Nd as ->; exists x; split; [constructor; exact Ei | exact Ex]|].
      destruct (it_name i) as [y|] eqn:Ey; [|discriminate]. destruct (lookup y targets) as [t|] eqn:Et; [|discriminate]. exists t. split; [apply (related_target targets i x y t Ei Ey (lookup_in _ _ _ Et)) | exact Nd].
    - destruct (first_spec specs (rev (it_from i))) as [s'|] eqn:Ef.
      + injection E as ->. destruct (first_spec_some _ _ Ef) as (x & I & H). exists x. split; [apply related_from, in_rev, I | exact H].
      + destruct (it_name i) as [y|] eqn:Ey.
        * destruct (spec_of specs y) as [s'|] eqn:Es; [injection E as ->; exists y; split; [apply related_name, Ey | exact Es]|]. destruct (first_spec_some _ _ E) as (x & I & H). exists x. split; [apply related_output, I | exact H].
        * destruct (first_spec_some _ _ E) as (x & I & H). exists x. split; [apply related_output, I | exact H].
  Qed.
  Lemma quant_spec_node : forall i x s, it_node i = Some x -> spec_of specs x = Some s -> quant_spec specs targets i = Some s.
  Proof. intros i x s E F. unfold quant_spec. rewrite E, F. reflexivity. Qed.
  Lemma quant_spec_missing : forall i, quant_spec specs targets i = None -> (forall x, it_node i = Some x \/ In x (it_from i) \/ it_name i = Some x \/ In x (it_outputs i) -> spec_of specs x = None).
  Proof.
    intros i. unfold quant_spec. destruct (match it_node i with Some x => _ | None => None end) as [s'|] eqn:Nd; [discriminate|].
    destruct (first_spec specs (rev (it_from i))) as [s'|] eqn:Ef; [discriminate|]. intros E x [H|[H|[H|H]]].
    - rewrite H in Nd. destruct (spec_of specs x); [discriminate | reflexivity].
    - apply (first_spec_none _ Ef). apply -> in_rev. exact H.
    - rewrite H in E. destruct (spec_of specs x); [discriminate | reflexivity].
    - apply (first_spec_none (it_outputs i)); [|exact H]. destruct (it_name i) as [y|]; [destruct (spec_of specs y); [discriminate|]|]; exact E.
  Qed.
End Annotator.

(** *** The stages together *)
Section Stages.
  Variable specs : list (string * metadata).
  Variable targets : list (string * string).
  Variable node_from : node -> option string * list string.
  Variable value_from : nat -> option string * list string.
  Notation annotate := (annotate specs targets node_from value_from).
  Notation stages := (stages specs targets node_from value_from).
  Lemma annotate_made : forall g, made (annotate g) = made g.
  Proof. intros g. unfold made. cbn [g_inits g_nodes OnxModel.annotate]. f_equal. rewrite flat_map_concat_map, map_map, <- flat_map_concat_map. reflexivity. Qed.
  Lemma annotate_values : forall g, values (annotate g) = values g.
  Proof. intros g. unfold values. rewrite annotate_made. reflexivity. Qed.
  Lemma annotate_closed : forall g, closed g -> closed (annotate g).
  Proof.
    intros g (N & Ci & Co). unfold closed. rewrite annotate_values. repeat split; auto. cbn [g_nodes OnxModel.annotate]. intros n v I J. apply in_map_iff in I. destruct I as (m & <- & I). apply (Ci m v I J).
  Qed.
  Lemma annotate_distinct : forall g, distinct g -> distinct (annotate g).
  Proof. intros g [A B]. unfold distinct. rewrite annotate_values. split; assumption. Qed.
  Lemma annotate_apart : forall p g, apart p g -> apart p (annotate g).
  Proof. intros p g A. unfold apart. rewrite annotate_values, annotate_made. exact A. Qed.
  Lemma annotate_named : forall g, nodes_named g -> nodes_named (annotate g).
  Proof.
    intros g [A B]. unfold nodes_named. cbn [g_nodes OnxModel.annotate]. rewrite map_map. cbn [n_name]. split; [|exact B]. intros n I. apply in_map_iff in I. destruct I as (m & <- & I). apply (A m I).
  Qed.
  Lemma annotate_meaning : forall {V} (sem : nat -> list (option V) -> list V) tensor g args, ir_meaning sem tensor (annotate g) args = ir_meaning sem tensor g args.
  Proof. intros. unfold ir_meaning. cbn [g_inputs g_inits g_nodes g_outputs OnxModel.annotate]. rewrite map_map. reflexivity. Qed.
  Definition named_graph (prefix : option string) (g : graph) : graph := match prefix with Some p => fix_onnx_names p g | None => g end.
  Definition renamed_node (prefix : option string) (n : node) : node := match prefix with Some p => alter_node p n | None => n end.
  Lemma named_graph_facts : forall prefix g, closed g -> distinct g -> nodes_named g -> match prefix with Some p => apart p g | None => True end ->
    let g' := named_graph prefix g in
    closed g' /\ distinct g' /\ nodes_named g' /\ values g' = values g /\ made g' = made g /\ g_inputs g' = g_inputs g /\ g_inits g' = g_inits g /\ g_outputs g' = g_outputs g /\
    g_nodes g' = map (renamed_node prefix) (g_nodes g) /\ g_meta g' = g_meta g /\
    (forall v, In v (made g) -> g_names g' v = inner prefix (g_names g v)) /\
    (forall V (sem : nat -> list (option V) -> list V) tensor args, ir_meaning sem tensor g' args = ir_meaning sem tensor g args).
  Proof.
    intros prefix g C D N A. destruct prefix as [p|]; cbn [named_graph renamed_node inner].
    - pose proof (fix_names p g C D A) as [Fm _]. pose proof (values_fix p g) as Vf.
      assert (X : g_inputs (fix_onnx_names p g) = g_inputs g /\ g_inits (fix_onnx_names p g) = g_inits g /\ g_outputs (fix_onnx_names p g) = g_outputs g /\ g_nodes (fix_onnx_names p g) = map (alter_node p) (g_nodes g) /\ g_meta (fix_onnx_names p g) = g_meta g).
      { unfold fix_onnx_names. destruct (fold_left (alter_one p) _ _) as [names mapping]. repeat split. }
      destruct X as (X1 & X2 & X3 & X4 & X5). split; [apply fix_closed, C|]. split; [apply fix_distinct; assumption|]. split; [apply fix_nodes_named, N|]. split; [exact Vf|]. split.
      + unfold made. rewrite X2, X4. f_equal. rewrite flat_map_concat_map, map_map, <- flat_map_concat_map. reflexivity.
      + do 5 (split; [assumption|]). split; [exact Fm|]. intros. apply fix_meaning.
    - do 3 (split; [assumption|]). do 5 (split; [reflexivity|]). split; [symmetry; apply map_id|]. split; [reflexivity|]. split; [intros; reflexivity|]. reflexivity.
  Qed.
  Lemma stages_facts : forall prefix ins outs kv kn g f p, closed g -> distinct g -> nodes_named g -> settled prefix ins outs g -> stages prefix (Some ins) (Some outs) kv kn g = Ok (f, p) ->
    exists g', f = to_proto g' /\ p = own_metadata g' /\ closed g' /\ distinct g' /\ values g' = values g /\ g_inputs g' = g_inputs g /\ g_inits g' = g_inits g /\ g_outputs g' = g_outputs g /\
      g_nodes g' = map (renamed_node prefix) (g_nodes (annotate g)) /\ g_meta g' = g_meta (annotate g) /\
      map (g_names g') (g_inputs g) = ins /\ map (g_names g') (g_outputs g) = outs /\ (forall v, In v (made g) -> ~ In v (g_outputs g) -> g_names g' v = inner prefix (g_names g v)) /\
      (forall V (sem : nat -> list (option V) -> list V) tensor args, ir_meaning sem tensor g' args = ir_meaning sem tensor g args).
  Proof.
    intros prefix ins outs kv kn g f p C D N (Sa & Sio & Sn & Se & Sm) E. unfold OnxModel.stages in E. fold (named_graph prefix (annotate g)) in E.
    assert (A' : match prefix with Some p => apart p (annotate g) | None => True end) by (destruct prefix; [apply annotate_apart, Sa | exact I]).
    destruct (named_graph_facts prefix (annotate g) (annotate_closed g C) (annotate_distinct g D) (annotate_named g N) A') as (Gc & Gd & Gn & Gv & Gm & Gi & Gt & Go & Gno & Gme & Gna & Gme').
    set (h := named_graph prefix (annotate g)) in *. change (g_inputs (annotate g)) with (g_inputs g) in Gi. change (g_outputs (annotate g)) with (g_outputs g) in Go. change (g_inits (annotate g)) with (g_inits g) in Gt.
    rewrite annotate_values in Gv. rewrite annotate_made in Gm, Gna.
    destruct (rename_io (Some ins) (Some outs) h) as [g'|] eqn:R; [|discriminate]. cbn in E. injection E as <- <-.
    assert (Nio : NoDup (g_inputs h ++ g_outputs h)) by (rewrite Gi, Go; exact Sio).
    assert (U : usable ins outs h).
    { split; [exact Sn|]. split; [exact Se|]. intros v I J. rewrite Gi, Go in J. rewrite in_app_iff in J. rewrite Gv in I. unfold values in I. apply in_app_or in I. destruct I as [I|I]; [tauto|]. rewrite (Gna v I). apply Sm; [exact I | tauto]. }
    pose proof (rename_ok ins outs h g' R Nio) as (Ri & Ro & Rn). pose proof (rename_distinct ins outs h g' Gc Gd R Nio U) as Gd'. pose proof (rename_nodes_named _ _ _ _ R Gn) as Gn'.
    pose proof (rename_shape _ _ _ _ R) as Sh. rewrite Gi in Ri. rewrite Go in Ro. rewrite Gi, Go in Rn.
    exists g'. split; [reflexivity|]. assert (Cg' : closed g') by (rewrite Sh; exact Gc). split; [apply copy_own; assumption|]. split; [exact Cg'|]. split; [exact Gd'|].
    rewrite Sh. cbn [g_inputs g_inits g_outputs g_nodes g_meta g_names with_names]. change (values (with_names h (g_names g'))) with (values h).
    do 6 (split; [assumption|]). do 2 (split; [assumption|]). split.
    - intros v I J. rewrite Rn; [apply Gna, I|]. rewrite in_app_iff. intros [K|K]; [|contradiction]. destruct C as (Nd & _). apply (nodup_apart _ _ v Nd K I).
    - intros V sem tensor args. change (ir_meaning sem tensor (with_names h (g_names g')) args) with (ir_meaning sem tensor h args). rewrite Gme'. apply annotate_meaning.
  Qed.
  Lemma stages_keep : forall prefix ins outs kv kn g f p, closed g -> distinct g -> nodes_named g -> settled prefix ins outs g -> stages prefix (Some ins) (Some outs) kv kn g = Ok (f, p) ->
    p_inputs f = ins /\ p_outputs f = outs /\ forall V (sem : nat -> list (option V) -> list V) tensor args, file_meaning sem tensor f args = file_meaning sem tensor (to_proto g) args.
  Proof.
    intros prefix ins outs kv kn g f p C D N S E. destruct (stages_facts prefix ins outs kv kn g f p C D N S E) as (g' & -> & _ & C' & D' & _ & Gi & _ & Go & _ & _ & Ri & Ro & _ & M).
    split; [cbn; rewrite Gi; exact Ri|]. split; [cbn; rewrite Go; exact Ro|]. intros V sem tensor args. rewrite (file_means sem tensor g args C D), (file_means sem tensor g' args C' D'). apply M.
  Qed.
  Lemma nth_map : forall {A B} (f : A -> B) l i x, nth_error l i = Some x -> nth_error (map f l) i = Some (f x).
  Proof. intros. apply map_nth_error. assumption. Qed.
  Lemma called_is : forall prefix ins outs g g' v y, map (g_names g') (g_inputs g) = ins -> map (g_names g') (g_outputs g) = outs -> (forall v, In v (made g) -> ~ In v (g_outputs g) -> g_names g' v = inner prefix (g_names g v)) ->
    called prefix ins outs g v y -> y = g_names g' v.
  Proof.
    intros prefix ins outs g g' v y Ri Ro Rm [i x H H'|i x H H'|H H'].
    - rewrite <- Ri, (nth_map _ _ _ _ H) in H'. congruence.
    - rewrite <- Ro, (nth_map _ _ _ _ H) in H'. congruence.
    - symmetry. apply Rm; assumption.
  Qed.
  Lemma is_called : forall prefix ins outs g g' v, closed g -> map (g_names g') (g_inputs g) = ins -> map (g_names g') (g_outputs g) = outs -> (forall v, In v (made g) -> ~ In v (g_outputs g) -> g_names g' v = inner prefix (g_names g v)) ->
    In v (values g) -> called prefix ins outs g v (g_names g' v).
  Proof.
    intros prefix ins outs g g' v C Ri Ro Rm I. unfold values in I. apply in_app_or in I. destruct I as [I|I].
    - apply In_nth_error in I. destruct I as [i I]. apply (called_input _ _ _ _ _ i); [exact I|]. rewrite <- Ri. apply nth_map, I.
    - destruct (in_dec Nat.eq_dec v (g_outputs g)) as [J|J].
      + apply In_nth_error in J. destruct J as [i J]. apply (called_output _ _ _ _ _ i); [exact J|]. rewrite <- Ro. apply nth_map, J.
      + rewrite (Rm v I J). apply called_inner; assumption.
  Qed.
  Lemma annotate_fold : forall g l meta v, fold_left (annotate_value specs targets value_from g) l meta v =
    if existsb (Nat.eqb v) l then match quant_spec specs targets (value_item value_from g v) with Some m => Some m | None => meta v end else meta v.
  Proof.
    intros g. induction l as [|w l IH]; intros meta v; cbn [fold_left existsb]; [reflexivity|]. rewrite IH. unfold annotate_value. destruct (Nat.eqb_spec v w) as [->|Nv]; cbn [orb].
    - destruct (quant_spec specs targets (value_item value_from g w)) as [m|]; [rewrite upd_same|]; destruct (existsb (Nat.eqb w) l); reflexivity.
    - destruct (quant_spec specs targets (value_item value_from g w)) as [m|]; [rewrite upd_other by exact Nv|]; reflexivity.
  Qed.
  Lemma annotate_meta : forall g v, g_meta (annotate g) v =
    if existsb (Nat.eqb v) (g_inputs g ++ g_outputs g ++ g_inits g) then match quant_spec specs targets (value_item value_from g v) with Some m => Some m | None => g_meta g v end else g_meta g v.
  Proof. intros g v. cbn [g_meta OnxModel.annotate]. apply annotate_fold. Qed.
  Lemma annotate_meta_in : forall g v x m, In v (g_inputs g ++ g_outputs g ++ g_inits g) -> fst (value_from v) = Some x -> spec_of specs x = Some m -> g_meta (annotate g) v = Some m.
  Proof.
    intros g v x m I F S. rewrite annotate_meta. replace (existsb (Nat.eqb v) (g_inputs g ++ g_outputs g ++ g_inits g)) with true by (symmetry; apply existsb_exists; exists v; split; [exact I | apply Nat.eqb_refl]).
    rewrite (quant_spec_node specs targets (value_item value_from g v) x m F S). reflexivity.
  Qed.
  Definition entries (b : bool) (l : list (string * option metadata)) : list (string * metadata * bool) := flat_map (fun '(n, m) => match m with Some m => [(n, m, b)] | None => [] end) l.
  Lemma entries_in : forall b name (meta : nat -> option metadata) l y m q, In (y, m, q) (entries b (map (fun v => (name v, meta v)) l)) <-> exists v, In v l /\ name v = y /\ meta v = Some m /\ q = b.
  Proof.
    intros. unfold entries. rewrite in_flat_map. split.
    - intros ((n & o) & I & J). apply in_map_iff in I. destruct I as (v & E & I). injection E as <- <-. destruct (meta v) as [m'|] eqn:M; [|contradiction]. destruct J as [J|[]]. injection J as <- <- <-. exists v. auto.
    - intros (v & I & <- & M & ->). exists (name v, meta v). split; [apply in_map_iff; exists v; auto|]. rewrite M. left. reflexivity.
  Qed.
  Lemma stages_complete : forall prefix ins outs kv kn g f p v y x m, closed g -> distinct g -> nodes_named g -> settled prefix ins outs g -> stages prefix (Some ins) (Some outs) kv kn g = Ok (f, p) ->
    called prefix ins outs g v y -> spec_of specs x = Some m ->
    (In v (g_inits g) -> fst (value_from v) = Some x -> In (y, m, true) (EncSpec.annotated p)) /\
    (In v (g_inputs g) \/ In v (g_outputs g) -> fst (value_from v) = Some x -> In (y, m, false) (EncSpec.annotated p)) /\
    (forall n, In n (g_nodes g) -> In v (n_out n) -> fst (node_from n) = Some x -> In (y, m, false) (EncSpec.annotated p)).
  Proof.
    intros prefix ins outs kv kn g f p v y x m C D N S E Cv Sx. destruct (stages_facts prefix ins outs kv kn g f p C D N S E) as (g' & _ & -> & C' & D' & Gv & Gi & Gt & Go & Gn & Gm & Ri & Ro & Rm & _).
    rewrite (called_is prefix ins outs g g' v y Ri Ro Rm Cv). unfold EncSpec.annotated, own_metadata. cbn [EncModel.g_init EncModel.g_input EncModel.g_node EncModel.g_output].
    rewrite Gi, Gt, Go, Gn, Gm. split; [|split].
    - intros I F. apply in_or_app. left. apply entries_in. exists v. repeat split; auto. apply (annotate_meta_in g v x m); auto. rewrite !in_app_iff. auto.
    - intros [I|I] F.
      + apply in_or_app. right. apply in_or_app. left. apply in_flat_map. exists (g_names g' v, g_meta (annotate g) v). split.
        * apply filter_In. split; [apply in_map_iff; exists v; auto|]. cbn. apply Bool.negb_true_iff, Bool.not_true_is_false. intros X. apply existsb_exists in X. destruct X as (z & X & Z). rewrite map_map in X. cbn in X. apply in_map_iff in X. destruct X as (w & <- & X).
          apply String.eqb_eq in Z. destruct D' as [_ D']. apply D' in Z; [|rewrite Gv; apply in_or_app; auto | rewrite Gv; unfold values, made; rewrite !in_app_iff; auto]. subst w.
          destruct C as (Nd & _). apply (nodup_apart _ _ v Nd I). apply in_or_app. auto.
        * rewrite (annotate_meta_in g v x m); auto; [left; reflexivity|]. rewrite !in_app_iff. auto.
      + do 3 (apply in_or_app; right). apply entries_in. exists v. repeat split; auto. apply (annotate_meta_in g v x m); auto. rewrite !in_app_iff. auto.
    - intros n I J F. do 2 (apply in_or_app; right). apply in_or_app. left. apply in_flat_map. exists (Some m, map (g_names g') (n_out n)). split; [|apply in_map_iff; exists (g_names g' v); split; [reflexivity | apply in_map, J]].
      rewrite map_map. cbn [g_nodes OnxModel.annotate]. rewrite map_map. apply in_map_iff. exists n. split; [|exact I].
      assert (Q : quant_spec specs targets (node_item node_from g n) = Some m) by (apply (quant_spec_node specs targets (node_item node_from g n) x m F Sx)). rewrite Q.
      destruct prefix; reflexivity.
  Qed.
  Lemma stages_sound : forall prefix ins outs kv kn g f p y m q, closed g -> distinct g -> nodes_named g -> settled prefix ins outs g -> bare g -> stages prefix (Some ins) (Some outs) kv kn g = Ok (f, p) ->
    In (y, m, q) (EncSpec.annotated p) -> exists v x, called prefix ins outs g v y /\ spec_of specs x = Some m /\ (q = true -> In v (g_inits g)) /\
      ((In v (g_inits g ++ g_inputs g ++ g_outputs g) /\ related targets (value_item value_from g v) x) \/ (exists n, In n (g_nodes g) /\ In v (n_out n) /\ related targets (node_item node_from g n) x)).
  Proof.
    intros prefix ins outs kv kn g f p y m q C D N S [Bv Bn] E. destruct (stages_facts prefix ins outs kv kn g f p C D N S E) as (g' & _ & -> & C' & D' & Gv & Gi & Gt & Go & Gn & Gm & Ri & Ro & Rm & _).
    unfold EncSpec.annotated, own_metadata. cbn [EncModel.g_init EncModel.g_input EncModel.g_node EncModel.g_output]. rewrite Gi, Gt, Go, Gn, Gm.
    assert (V : forall v, In v (g_inits g ++ g_inputs g ++ g_outputs g) -> In v (values g)).
    { intros v. rewrite !in_app_iff. unfold values, made. rewrite !in_app_iff. intros [I|[I|I]]; auto. destruct C as (_ & _ & Co). specialize (Co v I). unfold values, made in Co. rewrite !in_app_iff in Co. exact Co. }
    assert (K : forall v m, g_meta (annotate g) v = Some m -> exists x, related targets (value_item value_from g v) x /\ spec_of specs x = Some m).
    { intros v m' M. rewrite annotate_meta in M. rewrite Bv in M. destruct (existsb _ _); [|discriminate]. destruct (quant_spec specs targets (value_item value_from g v)) as [m''|] eqn:Q; [|discriminate]. injection M as <-. apply quant_spec_found in Q. exact Q. }
    assert (F : forall v b, In v (g_inits g ++ g_inputs g ++ g_outputs g) -> (b = true -> In v (g_inits g)) -> g_meta (annotate g) v = Some m -> exists v' x, called prefix ins outs g v' (g_names g' v) /\ spec_of specs x = Some m /\ (b = true -> In v' (g_inits g)) /\
      ((In v' (g_inits g ++ g_inputs g ++ g_outputs g) /\ related targets (value_item value_from g v') x) \/ (exists n, In n (g_nodes g) /\ In v' (n_out n) /\ related targets (node_item node_from g n) x))).
    { intros v b I J M. destruct (K v m M) as (x & R & Sx). exists v, x. split; [apply is_called; auto|]. split; [exact Sx|]. split; [exact J|]. left. auto. }
    intros I. apply in_app_or in I. destruct I as [I|I]; [|apply in_app_or in I; destruct I as [I|I]; [|apply in_app_or in I; destruct I as [I|I]]].
    - apply entries_in in I. destruct I as (v & I & <- & M & ->). apply F; auto. rewrite !in_app_iff. auto.
    - apply in_flat_map in I. destruct I as ((n & o) & I & J). apply filter_In in I. destruct I as [I _]. apply in_map_iff in I. destruct I as (v & X & I). assert (X1 : g_names g' v = n) by congruence. assert (X2 : g_meta (annotate g) v = o) by congruence. destruct o as [m'|]; [|contradiction]. destruct J as [J|[]]. injection J as <- -> <-. rewrite <- X1.
      apply F; auto; [rewrite !in_app_iff; auto | discriminate].
    - apply in_flat_map in I. destruct I as ((o & ns) & I & J). rewrite map_map in I. cbn [g_nodes OnxModel.annotate] in I. rewrite map_map in I. apply in_map_iff in I. destruct I as (n & X & I). destruct o as [m'|]; [|contradiction]. apply in_map_iff in J. destruct J as (z & J & Z). injection J as -> -> <-.
      injection X as X1 X2. assert (X1' : match quant_spec specs targets (node_item node_from g n) with Some m => Some m | None => n_meta n end = Some m) by (destruct prefix; exact X1).
      assert (X2' : map (g_names g') (n_out n) = ns) by (destruct prefix; exact X2). clear X1 X2. rewrite (Bn n I) in X1'. destruct (quant_spec specs targets (node_item node_from g n)) as [m'|] eqn:Q; [|discriminate]. injection X1' as ->.
      rewrite <- X2' in Z. apply in_map_iff in Z. destruct Z as (v & <- & Z). apply quant_spec_found in Q. destruct Q as (x & R & Sx). exists v, x.
      split; [apply is_called; auto; unfold values, made; rewrite !in_app_iff; right; right; apply in_flat_map; eauto|]. split; [exact Sx|]. split; [discriminate|]. right. exists n. auto.
    - apply entries_in in I. destruct I as (v & I & <- & M & ->). apply F; auto; [rewrite !in_app_iff; auto | discriminate].
  Qed.
End Stages.
