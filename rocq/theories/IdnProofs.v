(** Proofs about names for expressions. *)
From Coq Require Import String Ascii List Arith Bool Lia.
From Verif Require Import Prelude IdnModel IdnSpec.
Import ListNotations.
Local Open Scope char_scope.

Lemma keeps_table : forall c, keeps c = existsb (Ascii.eqb c) (letters ++ digits ++ [underscore]).
Proof. intros [[] [] [] [] [] [] [] []]; vm_compute; reflexivity. Qed.
Lemma digit_table : forall c, is_digit c = existsb (Ascii.eqb c) digits.
Proof. intros [[] [] [] [] [] [] [] []]; vm_compute; reflexivity. Qed.
Lemma alnum_table : forall c, letter_or_digit c = keeps c && negb (Ascii.eqb c "_").
Proof. intros [[] [] [] [] [] [] [] []]; vm_compute; reflexivity. Qed.

Lemma existsb_In : forall c l, existsb (Ascii.eqb c) l = true <-> In c l.
Proof.
  intros c l. rewrite existsb_exists. split.
  - intros (x & I & E). apply Ascii.eqb_eq in E. subst. exact I.
  - intro I. exists c. split; auto. apply Ascii.eqb_refl.
Qed.
Lemma keeps_spec : forall c, keeps c = true <-> In c letters \/ In c digits \/ c = underscore.
Proof.
  intro c. rewrite keeps_table, existsb_In, !in_app_iff. cbn [In]. split; intros [H|[H|H]]; auto.
  destruct H as [H|[]]; auto.
Qed.
Lemma digit_spec : forall c, is_digit c = true <-> In c digits.
Proof. intro c. now rewrite digit_table, existsb_In. Qed.
Lemma alnum_spec : forall c, letter_or_digit c = true <-> In c letters \/ In c digits.
Proof. intro c. unfold letter_or_digit. now rewrite existsb_In, in_app_iff. Qed.

Lemma same_eq : forall a b, same a b = true <-> a = b.
Proof.
  induction a as [|c a IH]; intros [|d b]; cbn; split; intro H; try discriminate; auto.
  - apply andb_prop in H as [E H]. apply Ascii.eqb_eq in E. apply IH in H. congruence.
  - injection H as -> ->. rewrite Ascii.eqb_refl. cbn. now apply IH.
Qed.

Lemma kwlist_reserved : kwlist = map list_ascii_of_string reserved.
Proof. reflexivity. Qed.
Lemma is_keyword_spec : forall s, is_keyword s = true <-> In (string_of_list_ascii s) reserved.
Proof.
  intro s. unfold is_keyword. rewrite existsb_exists, kwlist_reserved. split.
  - intros (x & I & E). apply same_eq in E. subst x. apply in_map_iff in I as (y & <- & I).
    now rewrite string_of_list_ascii_of_string.
  - intro I. exists s. split; [|now apply same_eq]. apply in_map_iff. exists (string_of_list_ascii s).
    split; auto. apply list_ascii_of_string_of_list_ascii.
Qed.
Lemma reserved_start : forall s, In (string_of_list_ascii ("_" :: s)) reserved -> False.
Proof. intros s I. cbn [string_of_list_ascii] in I. cbn in I. repeat (destruct I as [I|I]; [discriminate|]). exact I. Qed.

(** ** Underscores *)
Lemma no_double_cons : forall c s, no_double (c :: s) <-> (c = underscore -> match s with d :: _ => d <> underscore | [] => True end) /\ no_double s.
Proof.
  intros c s. split.
  - intro H. split.
    + intros -> . destruct s as [|d s]; auto. intros ->. apply (H [] s). reflexivity.
    + intros a b E. apply (H (c :: a) b). cbn. now rewrite E.
  - intros [H N] a b E. destruct a as [|x a]; cbn in E; injection E as -> E.
    + subst s. now apply H.
    + now apply (N a b).
Qed.
Lemma no_double_nil : no_double [].
Proof. intros [|x a] b E; discriminate. Qed.

Lemma merge_head : forall c s, exists r, merge (c :: s) = c :: r.
Proof.
  intros c s. revert c. induction s as [|d s IH]; intro c.
  - cbn. destruct (Ascii.eqb c "_"); eauto.
  - cbn [merge]. destruct (Ascii.eqb c "_") eqn:E; [|eauto].
    destruct (Ascii.eqb d "_") eqn:E2; [|eauto].
    apply Ascii.eqb_eq in E, E2. subst. exact (IH "_").
Qed.
Lemma merge_no_double : forall s, no_double (merge s).
Proof.
  induction s as [|c s IH]; [apply no_double_nil|]. cbn [merge]. destruct (Ascii.eqb c "_") eqn:E.
  - destruct s as [|d s].
    + apply no_double_cons. split; [auto|apply no_double_nil].
    + destruct (Ascii.eqb d "_") eqn:E2; [exact IH|].
      apply no_double_cons. split; [|exact IH]. intros _. destruct (merge_head d s) as [r ->].
      apply Ascii.eqb_neq. exact E2.
  - apply no_double_cons. split; [|exact IH]. intros ->. discriminate.
Qed.
Lemma merge_in : forall x s, In x (merge s) <-> In x s.
Proof.
  intros x. induction s as [|c s IH]; [reflexivity|]. cbn [merge]. destruct (Ascii.eqb c "_") eqn:E; [|cbn; now rewrite IH].
  destruct s as [|d s]; [reflexivity|]. destruct (Ascii.eqb d "_") eqn:E2; [|cbn [In] in *; now rewrite IH].
  apply Ascii.eqb_eq in E, E2. subst. rewrite IH. cbn. tauto.
Qed.
Lemma merge_same : forall s, no_double s -> merge s = s.
Proof.
  induction s as [|c s IH]; intro N; [reflexivity|]. apply no_double_cons in N as [H N]. specialize (IH N).
  cbn [merge]. destruct (Ascii.eqb c "_") eqn:E; [|now rewrite IH].
  destruct s as [|d s]; [reflexivity|]. destruct (Ascii.eqb d "_") eqn:E2; [|now rewrite IH].
  apply Ascii.eqb_eq in E, E2. subst. exfalso. now apply H.
Qed.
Lemma merge_filter : forall s, filter letter_or_digit (merge s) = filter letter_or_digit s.
Proof.
  induction s as [|c s IH]; [reflexivity|]. cbn [merge]. destruct (Ascii.eqb c "_") eqn:E.
  - apply Ascii.eqb_eq in E. subst c. destruct s as [|d s]; [reflexivity|]. destruct (Ascii.eqb d "_").
    + rewrite IH. reflexivity.
    + cbn [filter]. change (letter_or_digit "_") with false. cbv iota. exact IH.
  - cbn [filter]. now rewrite IH.
Qed.

Lemma strip_prefix : forall s, exists k, s = strip_end s ++ repeat "_" k.
Proof.
  induction s as [|c s [k IH]]; [exists 0; reflexivity|]. cbn [strip_end]. destruct (strip_end s) as [|d r] eqn:E.
  - destruct (Ascii.eqb c "_") eqn:E2.
    + apply Ascii.eqb_eq in E2. subst c. exists (S k). cbn in *. now rewrite <- IH.
    + exists k. cbn in *. now rewrite <- IH.
  - exists k. cbn in *. now rewrite <- IH.
Qed.
Lemma strip_no_trailing : forall s, no_trailing (strip_end s).
Proof.
  induction s as [|c s IH]; [intros [|x a] E; discriminate|]. cbn [strip_end]. destruct (strip_end s) as [|d r] eqn:E.
  - destruct (Ascii.eqb c "_") eqn:E2; [intros [|x a] F; discriminate|].
    intros [|x [|y a]] F; try discriminate. injection F as ->. discriminate.
  - intros [|x a] F; [discriminate|]. injection F as -> F. exact (IH a F).
Qed.
Lemma strip_no_double : forall s, no_double s -> no_double (strip_end s).
Proof.
  intros s N a b E. destruct (strip_prefix s) as [k P]. rewrite E in P. apply (N a (b ++ repeat "_" k)).
  rewrite P, <- app_assoc. reflexivity.
Qed.
Lemma strip_in : forall x s, In x (strip_end s) -> In x s.
Proof. intros x s I. destruct (strip_prefix s) as [k ->]. apply in_or_app. now left. Qed.
Lemma strip_same : forall s, no_trailing s -> strip_end s = s.
Proof.
  intros s N. destruct (strip_prefix s) as [k P]. destruct k as [|k].
  - cbn in P. now rewrite app_nil_r in P.
  - exfalso. apply (N (strip_end s ++ repeat "_" k)). rewrite P at 1. rewrite <- app_assoc. f_equal.
    change [underscore] with (repeat "_" 1). rewrite <- repeat_app. f_equal. lia.
Qed.
Lemma strip_filter : forall s, filter letter_or_digit (strip_end s) = filter letter_or_digit s.
Proof.
  intro s. destruct (strip_prefix s) as [k P]. rewrite P at 2. rewrite filter_app.
  assert (Z : filter letter_or_digit (repeat "_" k) = []) by (clear P; induction k; auto). rewrite Z. now rewrite app_nil_r.
Qed.
Lemma strip_nil : forall s, strip_end s = [] <-> forall c, In c s -> c = "_".
Proof.
  intro s. split.
  - intros E c I. destruct (strip_prefix s) as [k P]. rewrite E in P. cbn in P. rewrite P in I. now apply repeat_spec in I.
  - intro H. pose proof (strip_no_trailing s) as N.
    assert (I : forall x, In x (strip_end s) -> x = "_") by (intros x I; apply H; now apply strip_in).
    revert N I. generalize (strip_end s). intro t. destruct t as [|y t]; auto. intros N I.
    exfalso. destruct (@exists_last _ (y :: t)) as (a & x & E); [discriminate|].
    apply (N a). rewrite E in *. f_equal. f_equal. apply I. apply in_or_app. right. left. reflexivity.
Qed.

(** ** Replacements *)
Lemma others_filter : forall s, filter letter_or_digit (replace_others s) = filter letter_or_digit s.
Proof.
  induction s as [|c s IH]; [reflexivity|]. cbn [replace_others map filter]. fold (replace_others s). rewrite IH.
  destruct (keeps c) eqn:E; [reflexivity|]. change (letter_or_digit "_") with false. cbv iota.
  rewrite alnum_table, E. reflexivity.
Qed.
Lemma replace_app : forall c r a b, replace c r (a ++ b) = replace c r a ++ replace c r b.
Proof. intros. unfold replace. now rewrite flat_map_app. Qed.
Lemma replace_same : forall c r s, ~ In c s -> replace c r s = s.
Proof.
  intros c r. induction s as [|d s IH]; intro N; [reflexivity|]. cbn in *. destruct (Ascii.eqb d c) eqn:E.
  - apply Ascii.eqb_eq in E. subst. tauto.
  - cbn. f_equal. apply IH. tauto.
Qed.
Lemma double_skip : forall c r d s, d <> c -> replace_double c r (d :: s) = d :: replace_double c r s.
Proof.
  intros c r d s N. cbn [replace_double]. destruct s as [|e s]; [reflexivity|].
  apply Ascii.eqb_neq in N. now rewrite N.
Qed.
Lemma double_app : forall c r a b, ~ In c a -> replace_double c r (a ++ b) = a ++ replace_double c r b.
Proof.
  intros c r. induction a as [|d a IH]; intros b N; [reflexivity|]. cbn [app]. rewrite double_skip, IH; auto; cbn in N; firstorder.
Qed.
Lemma double_same : forall c r s, ~ In c s -> replace_double c r s = s.
Proof. intros c r s N. rewrite <- (app_nil_r s) at 1. rewrite double_app; auto. apply app_nil_r. Qed.

Definition R (s : text) : text := replace "*" (word "_mul_") (replace "-" (word "_minus_") (replace "+" (word "_plus_") s)).
Lemma R_app : forall a b, R (a ++ b) = R a ++ R b.
Proof. intros. unfold R. now rewrite !replace_app. Qed.
Lemma R_slash : R ["/"] = ["/"].
Proof. reflexivity. Qed.
Lemma R_other : forall c, c <> "/" -> ~ In "/" (R [c]) /\ filter letter_or_digit (R [c]) = filter letter_or_digit (spell_one c) /\ exists x l, R [c] = x :: l /\ x <> "/".
Proof.
  intros c N. destruct (Ascii.eqb c "+") eqn:E1; [apply Ascii.eqb_eq in E1; subst; split; [cbn; intuition discriminate|split; [reflexivity|do 2 eexists; split; [reflexivity|discriminate]]]|].
  destruct (Ascii.eqb c "-") eqn:E2; [apply Ascii.eqb_eq in E2; subst; split; [cbn; intuition discriminate|split; [reflexivity|do 2 eexists; split; [reflexivity|discriminate]]]|].
  destruct (Ascii.eqb c "*") eqn:E3; [apply Ascii.eqb_eq in E3; subst; split; [cbn; intuition discriminate|split; [reflexivity|do 2 eexists; split; [reflexivity|discriminate]]]|].
  assert (E : R [c] = [c]) by (unfold R, replace; cbn [flat_map app]; rewrite E1; cbn [flat_map app]; rewrite E2; cbn [flat_map app]; rewrite E3; reflexivity).
  rewrite E. split; [cbn; intuition congruence|]. split.
  - unfold spell_one. rewrite E1, E2, E3. apply Ascii.eqb_neq in N. now rewrite N.
  - exists c, []. auto.
Qed.
Lemma symbols_R : forall s, replace_symbols s = replace "/" (word "_div_") (replace_double "/" (word "_div_") (R s)).
Proof. reflexivity. Qed.

Lemma symbols_filter : forall n s, length s <= n -> filter letter_or_digit (replace_symbols s) = filter letter_or_digit (spell s).
Proof.
  induction n as [|n IH]; intros s L.
  { destruct s; [reflexivity|cbn in L; lia]. }
  destruct s as [|c s]; [reflexivity|]. cbn in L.
  destruct (Ascii.eqb c "/") eqn:E.
  - apply Ascii.eqb_eq in E. subst c. destruct s as [|d s]; [reflexivity|]. destruct (Ascii.eqb d "/") eqn:E2.
    + apply Ascii.eqb_eq in E2. subst d. cbn [spell]. change (Ascii.eqb "/" "/" && Ascii.eqb "/" "/") with true. cbv iota.
      rewrite symbols_R. change ("/" :: "/" :: s) with (["/"] ++ ["/"] ++ s). rewrite !R_app, R_slash.
      cbn [app replace_double]. change (Ascii.eqb "/" "/" && Ascii.eqb "/" "/") with true. cbv iota.
      rewrite replace_app, !filter_app, <- symbols_R, IH by (cbn in L; lia). reflexivity.
    + assert (N : d <> "/") by now apply Ascii.eqb_neq.
      destruct (R_other d N) as (_ & _ & x & l & Ex & Nx).
      assert (S1 : spell ("/" :: d :: s) = list_ascii_of_string "div" ++ spell (d :: s)).
      { cbn [spell]. rewrite E2. reflexivity. }
      rewrite S1, symbols_R. change ("/" :: d :: s) with (["/"] ++ d :: s). rewrite R_app, R_slash.
      assert (S2 : replace_double "/" (word "_div_") (["/"] ++ R (d :: s)) = "/" :: replace_double "/" (word "_div_") (R (d :: s))).
      { change (d :: s) with ([d] ++ s). rewrite R_app, Ex. cbn [app replace_double].
        apply Ascii.eqb_neq in Nx. rewrite Nx. reflexivity. }
      rewrite S2. change ("/" :: replace_double "/" (word "_div_") (R (d :: s))) with (["/"] ++ replace_double "/" (word "_div_") (R (d :: s))).
      rewrite replace_app, !filter_app, <- symbols_R, IH by (cbn in *; lia). reflexivity.
  - assert (N : c <> "/") by now apply Ascii.eqb_neq.
    destruct (R_other c N) as (No & Fi & _).
    assert (S1 : spell (c :: s) = spell_one c ++ spell s).
    { cbn [spell]. rewrite E. destruct s; [now rewrite app_nil_r|reflexivity]. }
    rewrite S1, symbols_R. change (c :: s) with ([c] ++ s). rewrite R_app, double_app, replace_app, replace_same by exact No.
    rewrite !filter_app, <- symbols_R, IH, Fi by lia. reflexivity.
Qed.

Definition normal (s : text) : text := strip_end (merge (replace_others (replace_symbols s))).
Lemma normal_filter : forall s, filter letter_or_digit (normal s) = filter letter_or_digit (spell s).
Proof.
  intro s. unfold normal. rewrite strip_filter, merge_filter, others_filter. now apply (symbols_filter (length s)).
Qed.
Lemma normal_keeps : forall s c, In c (normal s) -> keeps c = true.
Proof.
  intros s c I. apply strip_in in I. apply (proj1 (merge_in _ _)) in I. unfold replace_others in I. apply in_map_iff in I as (x & <- & _).
  destruct (keeps x) eqn:E; auto.
Qed.
Lemma normal_no_double : forall s, no_double (normal s).
Proof. intro s. apply strip_no_double, merge_no_double. Qed.
Lemma normal_no_trailing : forall s, no_trailing (normal s).
Proof. intro s. apply strip_no_trailing. Qed.
Lemma expr_to_ident_normal : forall s, expr_to_ident s = match normal s with
  | [] => Err AssertionError
  | c :: r => Ok (if is_digit c || is_keyword (c :: r) then "_" :: c :: r else c :: r) end.
Proof. reflexivity. Qed.

Lemma not_digit_underscore : is_digit "_" = false. Proof. reflexivity. Qed.

Lemma ident_valid : forall s n, expr_to_ident s = Ok n -> identifier n /\ no_double n /\ no_trailing n.
Proof.
  intros s n H. rewrite expr_to_ident_normal in H.
  pose proof (normal_keeps s) as K. pose proof (normal_no_double s) as D. pose proof (normal_no_trailing s) as T.
  destruct (normal s) as [|c r]; [discriminate|]. injection H as <-.
  destruct (is_digit c || is_keyword (c :: r)) eqn:E.
  - assert (Nc : c <> "_").
    { intros ->. cbn [orb] in E. rewrite not_digit_underscore in E. apply is_keyword_spec in E. now apply reserved_start in E. }
    split; [|split].
    + split; [|split].
      * exists "_", (c :: r). split; auto.
      * intros x [<-|I]; [right; right; reflexivity|]. now apply keeps_spec, K.
      * intro I. now apply reserved_start in I.
    + apply no_double_cons. split; auto.
    + intros [|x a] F; [discriminate|]. injection F as _ F. exact (T a F).
  - apply orb_false_elim in E as [E1 E2]. split; [|split]; auto. split; [|split].
    + exists c, r. split; auto. destruct (proj1 (keeps_spec c) (K c (or_introl eq_refl))) as [H|[H|H]]; auto.
      apply digit_spec in H. congruence.
    + intros x I. now apply keeps_spec, K.
    + intro I. apply is_keyword_spec in I. congruence.
Qed.

Lemma ident_spelled : forall s n, expr_to_ident s = Ok n -> filter letter_or_digit n = filter letter_or_digit (spell s).
Proof.
  intros s n H. rewrite <- normal_filter. rewrite expr_to_ident_normal in H. destruct (normal s) as [|c r]; [discriminate|].
  injection H as <-. destruct (is_digit c || is_keyword (c :: r)); reflexivity.
Qed.

Lemma spell_has : forall n s, length s <= n ->
  ((exists c, In c (spell s) /\ letter_or_digit c = true) <-> exists c, In c s /\ (In c letters \/ In c digits \/ In c symbols)).
Proof.
  assert (one : forall c, (exists x, In x (spell_one c) /\ letter_or_digit x = true) <-> (In c letters \/ In c digits \/ In c symbols)).
  { intro c. unfold spell_one.
    destruct (Ascii.eqb c "+") eqn:E1; [apply Ascii.eqb_eq in E1; subst; split; [intros _; cbn; auto 10|intros _; exists "p"; cbn; auto]|].
    destruct (Ascii.eqb c "-") eqn:E2; [apply Ascii.eqb_eq in E2; subst; split; [intros _; cbn; auto 10|intros _; exists "m"; cbn; auto]|].
    destruct (Ascii.eqb c "*") eqn:E3; [apply Ascii.eqb_eq in E3; subst; split; [intros _; cbn; auto 10|intros _; exists "m"; cbn; auto]|].
    destruct (Ascii.eqb c "/") eqn:E4; [apply Ascii.eqb_eq in E4; subst; split; [intros _; cbn; auto 10|intros _; exists "d"; cbn; auto]|].
    apply Ascii.eqb_neq in E1, E2, E3, E4. split.
    - intros (x & [<-|[]] & A). apply alnum_spec in A. tauto.
    - intro H. exists c. split; [left; auto|]. apply alnum_spec. destruct H as [H|[H|H]]; auto.
      cbn in H. destruct H as [H|[H|[H|[H|[]]]]]; congruence. }
  assert (app_ : forall (a b : text) P, (exists c, In c (a ++ b) /\ P c) <-> (exists c, In c a /\ P c) \/ (exists c, In c b /\ P c)).
  { intros a b P. split.
    - intros (c & I & H). apply in_app_or in I as [I|I]; eauto.
    - intros [(c & I & H)|(c & I & H)]; exists c; split; auto using in_or_app. }
  assert (cons_ : forall c (b : text) P, (exists x, In x (c :: b) /\ P x) <-> P c \/ (exists x, In x b /\ P x)).
  { intros c b P. split.
    - intros (x & [<-|I] & H); eauto.
    - intros [H|(x & I & H)]; [exists c|exists x]; cbn; auto. }
  induction n as [|n IH]; intros s L.
  { destruct s; [|cbn in L; lia]. split; intros (x & [] & _). }
  destruct s as [|c s]; [split; intros (x & [] & _)|]. cbn in L. rewrite cons_.
  destruct s as [|d s].
  - change (spell [c]) with (spell_one c). rewrite one. split; auto. intros [H|(x & [] & _)]; auto.
  - destruct (Ascii.eqb c "/" && Ascii.eqb d "/") eqn:E.
    + apply andb_prop in E as [E1 E2]. apply Ascii.eqb_eq in E1, E2. subst.
      split; [intros _; left; right; right; cbn; auto 10|]. intros _. exists "d". split; [left; auto|reflexivity].
    + assert (S1 : spell (c :: d :: s) = spell_one c ++ spell (d :: s)) by (cbn [spell]; rewrite E; reflexivity).
      rewrite S1, app_, one, IH by lia. reflexivity.
Qed.

Lemma ident_exists : forall s, (exists n, expr_to_ident s = Ok n) <-> exists c, In c s /\ (In c letters \/ In c digits \/ In c symbols).
Proof.
  intro s. rewrite <- (spell_has (length s) s (le_n _)).
  assert (F : (exists c, In c (spell s) /\ letter_or_digit c = true) <-> exists c, In c (normal s) /\ letter_or_digit c = true).
  { split; intros (c & H); apply filter_In in H; [rewrite <- normal_filter in H|rewrite normal_filter in H]; apply filter_In in H; eauto. }
  rewrite F, expr_to_ident_normal. split.
  - intros [n H]. pose proof (normal_keeps s) as K. assert (E : normal s <> []) by (intro E; rewrite E in H; discriminate).
    assert (Z : ~ forall c, In c (normal s) -> c = "_").
    { intro A. apply E. rewrite <- (strip_same _ (normal_no_trailing s)). now apply strip_nil. }
    destruct (existsb letter_or_digit (normal s)) eqn:X; [now apply existsb_exists in X|].
    exfalso. apply Z. intros c I. destruct (letter_or_digit c) eqn:Y.
    + assert (existsb letter_or_digit (normal s) = true) by (apply existsb_exists; eauto). congruence.
    + rewrite alnum_table, (K c I) in Y. cbn in Y. apply negb_false_iff in Y. now apply Ascii.eqb_eq.
  - intros (c & I & _). destruct (normal s); [destruct I|eauto].
Qed.
Lemma ident_fails : forall s e, expr_to_ident s = Err e -> e = AssertionError.
Proof. intros s e H. rewrite expr_to_ident_normal in H. destruct (normal s); congruence. Qed.

Lemma ident_plain : forall s, identifier s -> no_double s -> no_trailing s -> expr_to_ident s = Ok s.
Proof.
  intros s ((c & r & E & H) & K & NR) D T.
  assert (N : forall x, In x symbols -> ~ In x s).
  { intros x I J. apply K in J. apply keeps_spec in J. cbn in I. destruct I as [I|[I|[I|[I|[]]]]]; subst x; discriminate. }
  assert (P : normal s = s).
  { unfold normal. rewrite symbols_R. unfold R.
    rewrite (replace_same "+") by (apply N; cbn; auto). rewrite (replace_same "-") by (apply N; cbn; auto).
    rewrite (replace_same "*") by (apply N; cbn; auto). rewrite double_same by (apply N; cbn; auto).
    rewrite (replace_same "/") by (apply N; cbn; auto).
    assert (O : replace_others s = s).
    { unfold replace_others. rewrite <- (map_id s) at 2. apply map_ext_in. intros a I. apply K, keeps_spec in I. now rewrite I. }
    rewrite O, merge_same by exact D. now apply strip_same. }
  rewrite expr_to_ident_normal, P, E. subst s.
  assert (E1 : is_digit c = false).
  { destruct H as [H|H]; [|now subst c]. destruct (is_digit c) eqn:X; auto. apply digit_spec in X.
    exfalso. clear -H X. cbn in X. repeat (destruct X as [X|X]; [subst c; cbn in H; repeat (destruct H as [H|H]; [discriminate|]); exact H|]). exact X. }
  assert (E2 : is_keyword (c :: r) = false) by (destruct (is_keyword (c :: r)) eqn:X; auto; apply is_keyword_spec in X; tauto).
  now rewrite E1, E2.
Qed.

(** ** Numbers of quantizers *)
Lemma index_of_some : forall x l i, index_of x l = Some i -> nth_error l i = Some x.
Proof.
  intros x. induction l as [|y l IH]; intros i H; [discriminate|]. cbn in H. destruct (same x y) eqn:E.
  - injection H as <-. apply same_eq in E. subst. reflexivity.
  - destruct (index_of x l) as [j|]; [|discriminate]. injection H as <-. cbn. now apply IH.
Qed.
Lemma index_of_none : forall x l, index_of x l = None -> ~ In x l.
Proof.
  intros x. induction l as [|y l IH]; intros H I; [destruct I|]. cbn in H. destruct (same x y) eqn:E; [discriminate|].
  destruct (index_of x l) as [j|]; [discriminate|]. destruct I as [->|I]; [|now apply IH].
  assert (same x x = true) by now apply same_eq. congruence.
Qed.
Lemma NoDup_snoc : forall (l : list text) x, NoDup l -> ~ In x l -> NoDup (l ++ [x]).
Proof.
  induction l as [|y l IH]; intros x N I; cbn; [constructor; auto; constructor|]. inversion N as [|? ? A B]; subst.
  constructor; [|apply IH; auto; intro; apply I; now right]. intro J. apply in_app_or in J as [J|[J|[]]]; [tauto|]. subst. apply I. now left.
Qed.

Lemma annotate_ids : forall codes ids l, NoDup ids -> annotate ids codes = Ok l ->
  exists more, NoDup (ids ++ more) /\ (forall x, In x more -> In x codes)
  /\ Forall2 (fun c p => nth_error (ids ++ more) (fst p) = Some c /\ expr_to_ident c = Ok (snd p)) codes l.
Proof.
  induction codes as [|c codes IH]; intros ids l N H.
  - injection H as <-. exists []. rewrite app_nil_r. split; [exact N|]. split; [intros x []|constructor].
  - cbn in H. destruct (index_of c ids) as [i|] eqn:E.
    + destruct (expr_to_ident c) as [n|] eqn:En; [|discriminate]. cbn in H.
      destruct (annotate ids codes) as [l'|] eqn:El; [|discriminate]. injection H as <-.
      destruct (IH ids l' N El) as (more & A & B & C). exists more. split; [exact A|]. split; [intros x I; right; auto|].
      constructor; auto. cbn. split; auto. apply index_of_some in E.
      rewrite nth_error_app1; auto. apply nth_error_Some. congruence.
    + destruct (expr_to_ident c) as [n|] eqn:En; [|discriminate]. cbn in H.
      destruct (annotate (ids ++ [c]) codes) as [l'|] eqn:El; [|discriminate]. injection H as <-.
      destruct (IH (ids ++ [c]) l') as (more & A & B & C); auto.
      { apply NoDup_snoc; auto. now apply index_of_none. }
      exists (c :: more). rewrite <- app_assoc in A, C. cbn [app] in A, C. split; [exact A|]. split; [intros x [<-|I]; cbn; auto|].
      constructor; auto. cbn. split; auto. rewrite nth_error_app2, Nat.sub_diag; auto.
Qed.

Lemma annotate_numbers : forall codes l, annotate [] codes = Ok l ->
  length l = length codes
  /\ (forall i c k n, nth_error codes i = Some c -> nth_error l i = Some (k, n) -> expr_to_ident c = Ok n)
  /\ forall i j c d k m n n', nth_error codes i = Some c -> nth_error codes j = Some d ->
     nth_error l i = Some (k, n) -> nth_error l j = Some (m, n') -> (k = m <-> c = d).
Proof.
  intros codes l H. destruct (annotate_ids codes [] l (NoDup_nil _) H) as (more & A & _ & C). cbn in A, C.
  assert (P : forall i c p, nth_error codes i = Some c -> nth_error l i = Some p -> nth_error more (fst p) = Some c /\ expr_to_ident c = Ok (snd p)).
  { clear -C. induction C as [|c p cs l H C IH]; intros [|i] x q E F; cbn in E, F; try discriminate.
    - injection E as <-. injection F as <-. exact H.
    - eapply IH; eauto. }
  split; [|split].
  - symmetry. clear -C. induction C; cbn; auto.
  - intros i c k n E F. exact (proj2 (P i c (k, n) E F)).
  - intros i j c d k m n n' E1 E2 F1 F2. destruct (P i c (k, n) E1 F1) as [X _]. destruct (P j d (m, n') E2 F2) as [Y _]. cbn in X, Y.
    split; [intros ->; congruence|]. intros ->. apply (proj1 (NoDup_nth_error more) A); [apply nth_error_Some; congruence|congruence].
Qed.

Lemma annotate_total : forall codes ids, (exists l, annotate ids codes = Ok l) <-> forall c, In c codes -> exists n, expr_to_ident c = Ok n.
Proof.
  induction codes as [|c codes IH]; intro ids; [split; [intros _ c []|intros _; exists []; reflexivity]|].
  cbn [annotate]. set (p := match index_of c ids with Some i => (i, ids) | None => (length ids, ids ++ [c]) end).
  destruct p as [i ids']. specialize (IH ids'). split.
  - intros [l H] x I. destruct (expr_to_ident c) as [n|] eqn:En; [|discriminate]. cbn in H. destruct I as [<-|I]; [eauto|].
    apply IH; auto. destruct (annotate ids' codes); [eauto|discriminate].
  - intro H. destruct (H c (or_introl eq_refl)) as [n En]. rewrite En. cbn.
    destruct (proj2 IH) as [l El]; [intros x I; apply H; now right|]. rewrite El. cbn. eauto.
Qed.
