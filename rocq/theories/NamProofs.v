(** Proofs for C97, C98 and C99. *)
From Coq Require Import String Ascii DecimalString DecimalNat.
From Verif Require Import Prelude NamModel NamSpec.
Local Open Scope nat_scope.
Local Open Scope list_scope.

(** *** Strings *)
Lemma append_inj : forall p a b : string, (p ++ a)%string = (p ++ b)%string -> a = b.
Proof. induction p as [|c p IH]; cbn; intros a b E; [exact E|]. injection E as E. apply IH, E. Qed.
Lemma append_assoc : forall a b c : string, ((a ++ b) ++ c)%string = (a ++ b ++ c)%string.
Proof. induction a as [|x a IH]; cbn; intros b c; [reflexivity|]. rewrite IH. reflexivity. Qed.
Lemma decimal_inj : forall n m, decimal n = decimal m -> n = m.
Proof.
  unfold decimal. intros n m H. apply (f_equal NilZero.uint_of_string) in H. rewrite !NilZero.usu in H.
  - injection H as H. apply (f_equal Nat.of_uint) in H. rewrite !Unsigned.of_to in H. exact H.
  - intros E. pose proof (Unsigned.of_to m) as X. rewrite E in X. cbn in X. subst. discriminate.
  - intros E. pose proof (Unsigned.of_to n) as X. rewrite E in X. cbn in X. subst. discriminate.
Qed.
Fixpoint has (c : ascii) (s : string) : Prop := match s with EmptyString => False | String d s' => d = c \/ has c s' end.
Lemma has_app : forall c a b, has c (a ++ b) <-> has c a \/ has c b.
Proof. induction a as [|d a IH]; cbn; intros b; [intuition|]. rewrite IH. intuition. Qed.
Lemma uint_digits : forall u, ~ has "_"%char (NilEmpty.string_of_uint u).
Proof. induction u; cbn; intros H; try contradiction; destruct H as [H|H]; try discriminate; contradiction. Qed.
Lemma decimal_digits : forall n, ~ has "_"%char (decimal n).
Proof.
  intros n. unfold decimal. destruct (Nat.to_uint n) eqn:E; unfold NilZero.string_of_uint; try (rewrite <- E; apply uint_digits).
  cbn. intros [H|H]; [discriminate | contradiction].
Qed.
Lemma under_inj : forall x y d e, ~ has "_"%char d -> ~ has "_"%char e -> (x ++ String "_" d)%string = (y ++ String "_" e)%string -> x = y /\ d = e.
Proof.
  induction x as [|c x IH]; destruct y as [|k y]; cbn; intros d e D E H.
  - injection H as H. auto.
  - injection H as <- H. exfalso. apply D. rewrite H. apply has_app. right. left. reflexivity.
  - injection H as -> H. exfalso. apply E. rewrite <- H. apply has_app. right. left. reflexivity.
  - injection H as -> H. destruct (IH y d e D E H) as [-> ->]. auto.
Qed.
Lemma numbered_inj : forall x y n m, numbered x n = numbered y m -> x = y /\ n = m.
Proof.
  intros x y n m H. destruct (under_inj x y (decimal n) (decimal m) (decimal_digits n) (decimal_digits m) H) as [E D]. split; [exact E | apply decimal_inj, D].
Qed.
Lemma numbered_app : forall p x n, numbered (p ++ x) n = (p ++ numbered x n)%string.
Proof. intros. unfold numbered. apply append_assoc. Qed.

(** *** Quantizers *)
Lemma group_eqb_iff : forall c d, group_eqb (group_of c) (group_of d) = true <-> same_scope c d.
Proof.
  intros c d. split.
  - destruct c, d; cbn; try discriminate; intros E; try (apply Nat.eqb_eq in E; subst); constructor.
  - intros S. inversion S; cbn; try apply Nat.eqb_refl; reflexivity.
Qed.
Lemma alike_iff : forall a b, alike a b = true <-> same_scope (m_context a) (m_context b) /\ m_name a = m_name b.
Proof. intros. unfold alike. rewrite andb_true_iff, group_eqb_iff, String.eqb_eq. reflexivity. Qed.
Lemma same_scope_sym : forall c d, same_scope c d -> same_scope d c.
Proof. intros c d S. inversion S; constructor. Qed.
Lemma same_scope_trans : forall c d e, same_scope c d -> same_scope d e -> same_scope c e.
Proof. intros c d e S T. inversion S; subst; inversion T; subst; constructor. Qed.
Lemma same_scope_refl : forall c, same_scope c c.
Proof. destruct c; constructor. Qed.

Definition answer (prefix : string) (col : list meta) (i : nat) (m : meta) : string :=
  get_name prefix (m_name m) (length (filter (alike m) (firstn i col))) (length (filter (alike m) col)).
Lemma name_all_nth : forall prefix col before i,
  nth_error (name_all prefix before col) i =
  match nth_error col i with
  | Some m => Some (mkMeta (m_name m) (m_context m) (Some (get_name prefix (m_name m) (length (filter (alike m) (before ++ firstn i col))) (length (filter (alike m) (before ++ col))))))
  | None => None
  end.
Proof.
  induction col as [|m col IH]; intros before [|i]; cbn [name_all nth_error firstn]; try reflexivity.
  - rewrite app_nil_r. reflexivity.
  - rewrite IH. destruct (nth_error col i) as [k|]; [|reflexivity]. rewrite <- !app_assoc. reflexivity.
Qed.
Lemma all_nth : forall prefix col i, nth_error (disambiguate_all prefix col) i = match nth_error col i with Some m => Some (mkMeta (m_name m) (m_context m) (Some (answer prefix col i m))) | None => None end.
Proof. intros. unfold disambiguate_all. rewrite name_all_nth. reflexivity. Qed.

Definition collected (l : list (context * string)) : list meta := map (fun p => mkMeta (snd p) (fst p) None) l.
Lemma run_makes : forall prefix l ops col, run prefix (makes l ++ ops) col = run prefix ops (col ++ collected l).
Proof.
  induction l as [|[c x] l IH]; intros ops col; cbn [makes map app run collected]; [rewrite app_nil_r; reflexivity|].
  unfold makes in IH. rewrite IH. unfold create_reference. rewrite <- app_assoc. reflexivity.
Qed.
(** Names do not depend on what has been asked before. *)
Lemma run_named : forall prefix col l,
  run prefix (asks l) (disambiguate_all prefix col) = map (fun r => (r, option_map (answer prefix col r) (nth_error col r))) l.
Proof.
  intros prefix col. induction l as [|r l IH]; [reflexivity|]. cbn [asks map run]. unfold disambiguate_reference. rewrite all_nth.
  destruct (nth_error col r) as [m|]; cbn [m_final option_map]; unfold asks in IH; rewrite IH; reflexivity.
Qed.
Lemma run_fresh : forall prefix l asked, let col := collected l in
  run prefix (makes l ++ asks asked) [] = map (fun r => (r, option_map (answer prefix col r) (nth_error col r))) asked.
Proof.
  intros prefix l asked col. rewrite run_makes. cbn [app]. fold col. induction asked as [|r asked IH]; [reflexivity|]. cbn [asks map run]. unfold disambiguate_reference.
  destruct (nth_error col r) as [m|] eqn:E.
  - assert (F : m_final m = None). { subst col. unfold collected in E. rewrite nth_error_map in E. destruct (nth_error l r) as [[c x]|]; [|discriminate]. injection E as <-. reflexivity. }
    rewrite F, all_nth, E. cbn [option_map]. change (map Ask asked) with (asks asked). rewrite run_named. reflexivity.
  - cbn [option_map]. unfold asks in IH. rewrite IH. reflexivity.
Qed.
Lemma filter_le : forall {A} (f : A -> bool) l i, length (filter f (firstn i l)) <= length (filter f l).
Proof. intros A f l i. rewrite <- (firstn_skipn i l) at 2. rewrite filter_app, app_length. lia. Qed.
Lemma filter_more : forall {A} (f : A -> bool) l i j m, i < j -> nth_error l i = Some m -> f m = true -> length (filter f (firstn i l)) < length (filter f (firstn j l)).
Proof.
  induction l as [|x l IH]; intros i j m L E F; [destruct i; discriminate|]. destruct j as [|j]; [lia|]. destruct i as [|i]; cbn in E.
  - injection E as ->. cbn. rewrite F. cbn. lia.
  - cbn. specialize (IH i j m ltac:(lia) E F). destruct (f x); cbn; lia.
Qed.
Lemma filter_ext_count : forall {A} (f g : A -> bool) l, (forall x, f x = g x) -> filter f l = filter g l.
Proof. intros A f g l H. induction l as [|x l IH]; cbn; [reflexivity|]. rewrite H, IH. reflexivity. Qed.
Lemma alike_ext : forall a b, alike a b = true -> forall x, alike a x = alike b x.
Proof.
  intros a b H x. apply alike_iff in H. destruct H as [S E]. destruct (alike a x) eqn:X; symmetry.
  - apply alike_iff in X. destruct X as [T F]. apply alike_iff. split; [apply same_scope_sym in S; apply (same_scope_trans _ _ _ S T) | congruence].
  - destruct (alike b x) eqn:Y; [|reflexivity]. apply alike_iff in Y. destruct Y as [T F]. rewrite <- X. symmetry. apply alike_iff. split; [apply (same_scope_trans _ _ _ S T) | congruence].
Qed.
Lemma answer_alike : forall prefix col i j a b, i < j -> nth_error col i = Some a -> nth_error col j = Some b -> alike a b = true -> answer prefix col i a <> answer prefix col j b.
Proof.
  intros prefix col i j a b L Ei Ej K. unfold answer.
  rewrite <- (filter_ext_count (alike a) (alike b) (firstn j col) (alike_ext a b K)), <- (filter_ext_count (alike a) (alike b) col (alike_ext a b K)).
  assert (R : alike a a = true) by (apply alike_iff; split; [apply same_scope_refl | reflexivity]).
  pose proof (filter_more (alike a) col i j a L Ei R) as M.
  pose proof (filter_more (alike a) col j (S j) b ltac:(lia) Ej K) as M'. pose proof (filter_le (alike a) col (S j)) as M''.
  apply alike_iff in K. destruct K as [_ N]. rewrite <- N. unfold get_name.
  destruct (1 <? length (filter (alike a) col)) eqn:C; [|apply Nat.ltb_ge in C; lia].
  intros H. apply numbered_inj in H. lia.
Qed.
Lemma answer_other : forall prefix col i j a b, String.prefix prefix (m_name a) = false -> String.prefix prefix (m_name b) = false -> m_name a <> m_name b ->
  (forall n, m_name a <> numbered (m_name b) n) -> (forall n, m_name b <> numbered (m_name a) n) -> answer prefix col i a <> answer prefix col j b.
Proof.
  intros prefix col i j a b Pa Pb N Na Nb. unfold answer, get_name. rewrite Pa, Pb.
  destruct (1 <? _), (1 <? _); intros H; rewrite ?numbered_app in H; apply append_inj in H.
  - apply numbered_inj in H. destruct H as [H _]. contradiction.
  - symmetry in H. apply Nb in H. contradiction.
  - apply Na in H. contradiction.
  - contradiction.
Qed.
Lemma collected_nth : forall l r m, nth_error (collected l) r = Some m -> In (m_context m, m_name m) l /\ nth_error l r = Some (m_context m, m_name m).
Proof.
  intros l r m E. unfold collected in E. rewrite nth_error_map in E. destruct (nth_error l r) as [[c x]|] eqn:F; [|discriminate]. injection E as <-. cbn. split; [apply (nth_error_In _ _ F) | reflexivity].
Qed.
Lemma answers_distinct : forall prefix l i j c d x y, clear prefix l -> nth_error l i = Some (c, x) -> nth_error l j = Some (d, y) -> same_scope c d -> i <> j ->
  forall asked u v, In (i, Some u) (run prefix (makes l ++ asks asked) []) -> In (j, Some v) (run prefix (makes l ++ asks asked) []) -> u <> v.
Proof.
  intros prefix l i j c d x y [P Q] Ei Ej S N asked u v Iu Iv. rewrite run_fresh in Iu, Iv. apply in_map_iff in Iu, Iv.
  destruct Iu as (r & Er & _), Iv as (s & Es & _). injection Er as -> Er. injection Es as -> Es.
  assert (Ci : nth_error (collected l) i = Some (mkMeta x c None)) by (unfold collected; rewrite nth_error_map, Ei; reflexivity).
  assert (Cj : nth_error (collected l) j = Some (mkMeta y d None)) by (unfold collected; rewrite nth_error_map, Ej; reflexivity).
  rewrite Ci in Er. rewrite Cj in Es. cbn [option_map] in Er, Es. injection Er as <-. injection Es as <-.
  destruct (string_dec x y) as [->|NE].
  - destruct (Nat.lt_total i j) as [L|[->|L]]; [|contradiction|].
    + apply answer_alike; auto. apply alike_iff. auto.
    + intros H. symmetry in H. revert H. apply answer_alike; auto. apply alike_iff. split; [apply same_scope_sym; exact S | reflexivity].
  - apply nth_error_In in Ei, Ej. apply answer_other; cbn; eauto; intros n; unfold numbered; [apply (Q c d) | apply (Q d c)]; auto. apply same_scope_sym, S.
Qed.
Lemma answers_steady : forall prefix l asked r u v, In (r, u) (run prefix (makes l ++ asks asked) []) -> In (r, v) (run prefix (makes l ++ asks asked) []) -> u = v.
Proof.
  intros prefix l asked r u v I J. rewrite run_fresh in I, J. apply in_map_iff in I, J. destruct I as (i & E & _), J as (j & F & _). injection E as -> <-. injection F as -> <-. reflexivity.
Qed.
Lemma answers_known : forall prefix l asked r, In (r, None) (run prefix (makes l ++ asks asked) []) <-> In r asked /\ length l <= r.
Proof.
  intros prefix l asked r. rewrite run_fresh, in_map_iff. assert (L : length (collected l) = length l) by apply map_length. split.
  - intros (i & E & I). injection E as -> E. split; [exact I|]. destruct (nth_error (collected l) r) eqn:F; [discriminate|]. apply nth_error_None in F. lia.
  - intros [I G]. exists r. split; [|exact I]. destruct (nth_error (collected l) r) eqn:F; [|reflexivity]. exfalso. assert (X : nth_error (collected l) r <> None) by congruence. apply nth_error_Some in X. lia.
Qed.
Lemma declared : forall l module r, In r (instance_quantizers module (collected l)) <-> exists f x, nth_error l r = Some (InMethod module f, x).
Proof.
  intros l module r. unfold instance_quantizers. rewrite filter_In, in_seq. split.
  - intros [_ H]. destruct (nth_error (collected l) r) as [m|] eqn:E; [|discriminate]. destruct (collected_nth l r m E) as [_ F]. destruct (m_context m) as [|k f|f] eqn:C; try discriminate.
    apply Nat.eqb_eq in H. subst k. exists f, (m_name m). exact F.
  - intros (f & x & E). assert (X : nth_error (collected l) r = Some (mkMeta x (InMethod module f) None)) by (unfold collected; rewrite nth_error_map, E; reflexivity).
    rewrite X. cbn [m_context]. rewrite Nat.eqb_refl. split; [|reflexivity]. assert (Y : nth_error (collected l) r <> None) by congruence. apply nth_error_Some in Y. lia.
Qed.

(** *** Allocation *)
Lemma mem_in : forall x l, mem x l = true <-> In x l.
Proof.
  intros x l. unfold mem. rewrite existsb_exists. split; [intros (y & I & E); apply String.eqb_eq in E; subst; exact I | intros I; exists x; split; [exact I | apply String.eqb_refl]].
Qed.
Lemma mem_not : forall x l, mem x l = false <-> ~ In x l.
Proof. intros x l. rewrite <- mem_in. destruct (mem x l); split; intros H; try congruence. Qed.
Lemma search_sound : forall fuel p i used y, search fuel p i used = Some y -> ~ In y used /\ exists n, i <= n /\ y = numbered p n.
Proof.
  induction fuel as [|k IH]; cbn; intros p i used y E; [discriminate|]. destruct (mem (numbered p i) used) eqn:M.
  - destruct (IH p (S i) used y E) as [N (n & L & ->)]. split; [exact N|]. exists n. split; [lia | reflexivity].
  - injection E as <-. apply mem_not in M. split; [exact M|]. exists i. auto.
Qed.
Lemma search_none : forall fuel p i used, search fuel p i used = None -> forall j, j < fuel -> In (numbered p (i + j)) used.
Proof.
  induction fuel as [|k IH]; cbn; intros p i used E j L; [lia|]. destruct (mem (numbered p i) used) eqn:M; [|discriminate].
  apply mem_in in M. destruct j as [|j]; [rewrite Nat.add_0_r; exact M|]. replace (i + S j) with (S i + j) by lia. apply (IH p (S i) used E). lia.
Qed.
Lemma map_inj_NoDup : forall {A B} (f : A -> B) l, (forall x y, f x = f y -> x = y) -> NoDup l -> NoDup (map f l).
Proof.
  intros A B f l F N. induction N as [|x l I N IH]; cbn; constructor; [|exact IH]. intros J. apply in_map_iff in J. destruct J as (y & E & J). apply F in E. subst. contradiction.
Qed.
Lemma search_total : forall p i used, exists y, search (S (length used)) p i used = Some y.
Proof.
  intros p i used. destruct (search (S (length used)) p i used) as [y|] eqn:E; [eauto|]. exfalso. pose proof (search_none _ _ _ _ E) as A.
  assert (N : NoDup (map (fun j => numbered p (i + j)) (seq 0 (S (length used))))).
  { apply map_inj_NoDup; [|apply seq_NoDup]. intros x y H. apply numbered_inj in H. lia. }
  assert (I : incl (map (fun j => numbered p (i + j)) (seq 0 (S (length used)))) used).
  { intros z H. apply in_map_iff in H. destruct H as (j & <- & J). apply in_seq in J. apply A. lia. }
  pose proof (NoDup_incl_length N I) as L. rewrite map_length, seq_length in L. lia.
Qed.
Definition made_from (preferred x : string) : Prop := x = preferred \/ exists n, 1 <= n /\ x = numbered preferred n.
Lemma alloc_ok : forall p used, exists y, alloc_unique p used = Some y /\ ~ In y used /\ (~ In p used -> y = p).
Proof.
  intros p used. unfold alloc_unique. destruct (mem p used) eqn:M.
  - destruct (search_total p 1 used) as [y E]. exists y. split; [exact E|]. apply search_sound in E. apply mem_in in M. split; [apply E | contradiction].
  - exists p. split; [reflexivity|]. apply mem_not in M. auto.
Qed.
Lemma allocate_ok : forall totals names a, exists l, allocate totals a names = Some l /\ length l = length names /\
  NoDup (map fst l) /\ NoDup (map snd l) /\ (forall x y, In (x, y) l -> ~ In x (a_aliases a) /\ ~ In y (a_quantized a)).
Proof.
  induction names as [|x names IH]; intros a; cbn [allocate]; [exists []; repeat split; try constructor; contradiction|].
  unfold for_module_type. destruct (if 1 <? occurrences x totals then _ else _) as [p q].
  destruct (alloc_ok p (a_aliases a)) as (u & Eu & Nu & _). destruct (alloc_ok q (a_quantized a)) as (v & Ev & Nv & _). rewrite Eu, Ev.
  destruct (IH (mkAllocator (a_seen a ++ [x]) (v :: a_quantized a) (u :: a_aliases a))) as (l & E & L & N1 & N2 & F). cbn [a_quantized a_aliases] in F.
  rewrite E. exists ((u, v) :: l). cbn. split; [reflexivity|]. split; [lia|]. split; [|split].
  - constructor; [|exact N1]. intros I. apply in_map_iff in I. destruct I as ([u' v'] & X & I). cbn in X. subst u'. destruct (F u v' I) as [G _]. apply G. left. reflexivity.
  - constructor; [|exact N2]. intros I. apply in_map_iff in I. destruct I as ([u' v'] & X & I). cbn in X. subst v'. destruct (F u' v I) as [_ G]. apply G. left. reflexivity.
  - intros y z [H|I]; [injection H as <- <-; auto|]. destruct (F y z I) as [G H]. cbn in G, H. intuition.
Qed.
Lemma occurrences_one : forall x l, NoDup l -> occurrences x l <= 1.
Proof.
  intros x l N. unfold occurrences. induction N as [|y l I N IH]; cbn; [lia|]. destruct (String.eqb_spec x y) as [->|NE]; cbn; [|lia].
  enough (length (filter (String.eqb y) l) = 0) by lia. clear IH N. induction l as [|z l IH]; [reflexivity|]. cbn. destruct (String.eqb_spec y z) as [->|]; [exfalso; apply I; left; reflexivity|]. apply IH. intros J. apply I. right. exact J.
Qed.
Lemma allocate_plain : forall totals names a, NoDup totals -> NoDup names -> (forall x, In x names -> ~ In x (a_aliases a) /\ ~ In ("Quantized" ++ x)%string (a_quantized a)) ->
  allocate totals a names = Some (map (fun x => (x, ("Quantized" ++ x)%string)) names).
Proof.
  intros totals names a T N. revert a. induction N as [|x names I N IH]; intros a F; cbn [allocate map]; [reflexivity|]. unfold for_module_type.
  assert (O : (1 <? occurrences x totals) = false) by (apply Nat.ltb_ge, occurrences_one, T). rewrite O.
  destruct (F x (or_introl eq_refl)) as [Fa Fq]. destruct (alloc_ok x (a_aliases a)) as (u & Eu & _ & Pu). destruct (alloc_ok ("Quantized" ++ x)%string (a_quantized a)) as (v & Ev & _ & Pv).
  rewrite Eu, Ev. specialize (Pu Fa). specialize (Pv Fq). subst u v. rewrite IH; [reflexivity|]. intros y J. cbn [a_aliases a_quantized]. destruct (F y (or_intror J)) as [Ga Gq].
  split; intros [H|H]; try contradiction; [subst; contradiction|]. apply append_inj in H. subst. contradiction.
Qed.
Lemma helper_ok : forall used x, exists y, helper_name used x = Some y /\ ~ In y used /\ (~ In ("quantized_" ++ x)%string used -> y = ("quantized_" ++ x)%string).
Proof.
  intros used x. unfold helper_name. destruct (mem ("quantized_" ++ x)%string used) eqn:M.
  - destruct (search_total ("quantized_" ++ x) 2 used) as [y E]. exists y. split; [exact E|]. apply search_sound in E. apply mem_in in M. split; [apply E | contradiction].
  - eexists. split; [reflexivity|]. apply mem_not in M. auto.
Qed.
Lemma helpers_ok : forall names used, exists l, helper_names used names = Some l /\ length l = length names /\ NoDup l /\ (forall y, In y l -> ~ In y used).
Proof.
  induction names as [|x names IH]; intros used; cbn [helper_names]; [exists []; repeat split; [constructor | contradiction]|].
  destruct (helper_ok used x) as (y & Ey & Ny & _). rewrite Ey. destruct (IH (y :: used)) as (l & E & L & N & F). rewrite E. exists (y :: l). cbn. split; [reflexivity|]. split; [lia|]. split.
  - constructor; [|exact N]. intros I. apply (F y I). left. reflexivity.
  - intros z [<-|I]; [exact Ny|]. intros J. apply (F z I). right. exact J.
Qed.
Lemma helpers_plain : forall names used, NoDup names -> (forall x, In x names -> ~ In ("quantized_" ++ x)%string used) -> helper_names used names = Some (map (append "quantized_") names).
Proof.
  intros names used N. revert used. induction N as [|x names I N IH]; intros used F; cbn [helper_names map]; [reflexivity|].
  destruct (helper_ok used x) as (y & Ey & _ & P). rewrite Ey. specialize (P (F x (or_introl eq_refl))). subst y. rewrite IH; [reflexivity|].
  intros z J [H|H]; [apply (append_inj "quantized_") in H; subst; contradiction | apply (F z (or_intror J) H)].
Qed.

(** *** References to helpers *)
Fixpoint expr_size (e : expr) : nat :=
  match e with Name _ => 1 | Attr e _ => S (expr_size e) | Call f args => S (expr_size f + fold_right (fun p n => expr_size (snd p) + n) 0 args) end.
Lemma in_size : forall args p, In p args -> expr_size (snd p) <= fold_right (fun (p : option string * expr) n => expr_size (snd p) + n) 0 args.
Proof. induction args as [|q args IH]; cbn; intros p I; [contradiction|]. destruct I as [<-|I]; [lia|]. specialize (IH p I). lia. Qed.
Lemma rename_value : forall {V} attribute call (map : list (string * string)) (before after : string -> V),
  (forall x, after (renamed_name map x) = before x) ->
  forall e, (forall k, In k (keywords e) -> lookup k map = None) -> value attribute call after (rename_refs map e) = value attribute call before e.
Proof.
  intros V attribute call mp before after A. intros e. remember (expr_size e) as n eqn:En. assert (L : expr_size e <= n) by lia. clear En. revert e L.
  induction n as [|n IH]; intros e L K; [destruct e; cbn in L; lia|]. destruct e as [x|e a|f args]; cbn [rename_refs value].
  - apply A.
  - cbn in L, K. rewrite IH; [reflexivity | lia | exact K].
  - cbn [expr_size keywords] in L, K. rewrite IH; [|lia | intros k I; apply K, in_or_app; left; exact I]. f_equal. rewrite map_map. apply map_ext_in. intros p I. cbn [fst snd].
    pose proof (in_size args p I) as Sz. rewrite IH; [|lia|].
    + f_equal. destruct (fst p) as [k|] eqn:E; [|reflexivity]. cbn. f_equal. unfold renamed_name. rewrite K; [reflexivity|]. apply in_or_app. right. apply in_flat_map. exists p. split; [exact I|]. rewrite E. left. reflexivity.
    + intros k J. apply K. apply in_or_app. right. apply in_flat_map. exists p. split; [exact I|]. apply in_or_app. right. exact J.
Qed.
Lemma lookup_app : forall x a b, lookup x (a ++ b) = match lookup x a with Some y => Some y | None => lookup x b end.
Proof. induction a as [|[k v] a IH]; cbn; intros b; [reflexivity|]. destruct (String.eqb x k); auto. Qed.
Lemma lookup_filter : forall x old l, lookup x (filter (fun p => negb (String.eqb old (fst p))) l) = if String.eqb old x then None else lookup x l.
Proof.
  induction l as [|[k v] l IH]; cbn; [destruct (String.eqb old x); reflexivity|]. destruct (String.eqb_spec old k) as [->|N]; cbn.
  - rewrite IH. destruct (String.eqb_spec k x) as [->|M]; [reflexivity|]. destruct (String.eqb_spec x k); [congruence | reflexivity].
  - rewrite IH. destruct (String.eqb_spec x k) as [->|M]; [|reflexivity]. destruct (String.eqb_spec old k); [contradiction | reflexivity].
Qed.
(** Exactly the names one helper has are mapped. *)
Lemma name_map_lookup : forall renamed ambiguous map x,
  (In x ambiguous -> lookup x map = None) ->
  lookup x (name_map ambiguous map renamed) =
  if mem x ambiguous then None
  else match lookup x map, filter (fun p => String.eqb x (fst p)) renamed with
       | Some y, [] => Some y
       | Some _, _ :: _ => None
       | None, [(_, y)] => Some y
       | None, _ => None
       end.
Proof.
  induction renamed as [|[old new] l IH]; intros amb mp x D; cbn [name_map filter fst].
  - destruct (mem x amb) eqn:M; [apply D, mem_in, M|]. destruct (lookup x mp); reflexivity.
  - destruct (mem old amb) eqn:Mo.
    + rewrite IH by exact D. destruct (String.eqb_spec x old) as [->|N]; [rewrite Mo; reflexivity | reflexivity].
    + destruct (lookup old mp) as [y|] eqn:Lo.
      * rewrite IH.
        -- cbn [mem existsb]. change (existsb (String.eqb x) amb) with (mem x amb). rewrite lookup_filter. destruct (String.eqb_spec x old) as [->|N]; cbn [orb]; [rewrite Mo, Lo; reflexivity|].
           destruct (String.eqb_spec old x); [congruence | reflexivity].
        -- intros [->|I]; [rewrite lookup_filter, String.eqb_refl; reflexivity|]. rewrite lookup_filter, (D I). destruct (String.eqb old x); reflexivity.
      * rewrite IH.
        -- rewrite lookup_app. cbn [lookup]. destruct (String.eqb_spec x old) as [->|N]; [rewrite Mo, Lo; destruct (filter _ l) as [|[? ?] [|? ?]]; reflexivity|]. destruct (lookup x mp); reflexivity.
        -- intros I. rewrite lookup_app, (D I). cbn. destruct (String.eqb_spec x old) as [->|N]; [|reflexivity]. apply mem_not in Mo. contradiction.
Qed.
