(** Proofs about the Hugging Face to GGUF name maps. *)
From Coq Require Import String Ascii.
From Verif Require Import Prelude TilingModel GgufModel GgufSpec.
Local Open Scope nat_scope.
Local Open Scope list_scope.

Lemma sapp_assoc a b c : ((a ++ b) ++ c = a ++ (b ++ c))%string.
Proof. induction a as [|x a IH]; simpl; [reflexivity|]. now rewrite IH. Qed.
Lemma sapp_nil a : (a ++ "" = a)%string.
Proof. induction a as [|x a IH]; simpl; [reflexivity|]. now rewrite IH. Qed.
Lemma sapp_inv a b c : (a ++ b = a ++ c)%string -> b = c.
Proof. induction a as [|x a IH]; simpl; [auto|]. intros H. injection H as H. auto. Qed.

Lemma strip_prefix_spec p s r : strip_prefix p s = Some r <-> s = (p ++ r)%string.
Proof.
  revert s. induction p as [|a p IH]; intros s; simpl.
  - split; [now intros [= ->]|now intros ->].
  - destruct s as [|b s]; [split; discriminate|].
    destruct (Ascii.eqb_spec a b) as [->|N].
    + rewrite IH. split; [now intros ->|]. intros H. now injection H.
    + split; [discriminate|]. intros H. injection H as H _. congruence.
Qed.

Definition head_not_digit (s : string) : Prop :=
  match s with EmptyString => True | String c _ => is_digit c = false end.

Lemma is_digit_spec c : is_digit c = true <-> 48 <= nat_of_ascii c <= 57.
Proof.
  unfold is_digit. destruct (Nat.leb_spec 48 (nat_of_ascii c)), (Nat.leb_spec (nat_of_ascii c) 57);
    simpl; split; try discriminate; try lia; auto.
Qed.

Lemma span_digits_spec s d r : span_digits s = (d, r) -> s = (d ++ r)%string /\ all_digits d /\ head_not_digit r.
Proof.
  revert d r. induction s as [|c s IH]; intros d r; simpl.
  - intros [= <- <-]. now repeat split.
  - destruct (is_digit c) eqn:E.
    + destruct (span_digits s) as [d' r'] eqn:Es. intros [= <- <-].
      destruct (IH _ _ eq_refl) as (-> & A & B). split; [reflexivity|]. split; [|exact B].
      split; [now apply is_digit_spec|exact A].
    + intros [= <- <-]. split; [reflexivity|]. split; [exact I|exact E].
Qed.

Lemma span_digits_app d r : all_digits d -> head_not_digit r -> span_digits (d ++ r)%string = (d, r).
Proof.
  induction d as [|c d IH]; intros A H.
  - simpl. destruct r as [|c r]; [reflexivity|]. cbn in *. now rewrite H.
  - destruct A as [A1 A2]. cbn. apply is_digit_spec in A1. rewrite A1. now rewrite (IH A2 H).
Qed.

Lemma digits_split d1 d2 t1 t2 : all_digits d1 -> all_digits d2 -> head_not_digit t1 -> head_not_digit t2 ->
  (d1 ++ t1 = d2 ++ t2)%string -> d1 = d2 /\ t1 = t2.
Proof.
  intros A1 A2 H1 H2 E. pose proof (span_digits_app d1 t1 A1 H1) as S1.
  rewrite E, (span_digits_app d2 t2 A2 H2) in S1. now injection S1 as -> ->.
Qed.

Lemma layer_match_spec suffix name ds : head_not_digit suffix -> suffix <> ""%string ->
  layer_match suffix name = Some ds <->
  layer_number ds /\ (name = ("model.layers." ++ ds ++ suffix)%string \/
                      name = ("model.layers." ++ ds ++ suffix ++ newline)%string).
Proof.
  intros Hs Hn. unfold layer_match. split.
  - destruct (strip_prefix "model.layers." name) as [rest|] eqn:E; [|discriminate].
    apply strip_prefix_spec in E. destruct (span_digits rest) as [d t] eqn:Es.
    apply span_digits_spec in Es as (-> & A & B).
    destruct (String.eqb_spec d "") as [|Nd]; [discriminate|].
    destruct (String.eqb_spec t suffix) as [->|_]; cbn [orb].
    + intros [= <-]. split; [now split|]. now left.
    + destruct (String.eqb_spec t (suffix ++ newline)) as [->|_]; [|discriminate].
      intros [= <-]. split; [now split|]. now right.
  - intros ((Nd & A) & E).
    assert (H2 : head_not_digit (suffix ++ newline)%string) by (destruct suffix; [congruence|exact Hs]).
    destruct E as [-> | ->].
    + rewrite (proj2 (strip_prefix_spec _ _ (ds ++ suffix)%string) eq_refl).
      rewrite (span_digits_app _ _ A Hs). destruct (String.eqb_spec ds "") as [|_]; [congruence|].
      now rewrite String.eqb_refl.
    + rewrite (proj2 (strip_prefix_spec _ _ (ds ++ (suffix ++ newline))%string) eq_refl).
      rewrite (span_digits_app _ _ A H2). destruct (String.eqb_spec ds "") as [|_]; [congruence|].
      rewrite String.eqb_refl. now rewrite orb_true_r.
Qed.

Lemma no_newline_app a b : no_newline (a ++ b)%string <-> no_newline a /\ no_newline b.
Proof. induction a as [|c a IH]; simpl; [tauto|]. rewrite IH. tauto. Qed.

(** Checkable shape of a pattern table: suffixes and targets start with a dot, are
    pairwise different, and no suffix is another one followed by a newline. *)
Definition starts_dot (s : string) : bool :=
  match s with String c _ => Ascii.eqb c "."%char | _ => false end.
Definition table_ok (ps : list (string * string)) : bool :=
  forallb (fun '(s, t) => starts_dot s && starts_dot t) ps &&
  forallb (fun '(s, t) => forallb (fun '(s', t') =>
    (Bool.eqb (String.eqb s s') (String.eqb t t')) && negb (String.eqb s (s' ++ newline)%string)) ps) ps.

Lemma starts_dot_spec s : starts_dot s = true -> head_not_digit s /\ s <> ""%string.
Proof.
  destruct s as [|c s]; [discriminate|]. cbn. intros H. apply Ascii.eqb_eq in H. subst. split; [reflexivity|discriminate].
Qed.

Lemma table_ok_in ps s t : table_ok ps = true -> In (s, t) ps ->
  head_not_digit s /\ s <> ""%string /\ head_not_digit t.
Proof.
  intros H Hin. apply andb_prop in H as [H _]. rewrite forallb_forall in H. specialize (H _ Hin). cbn in H.
  apply andb_prop in H as [H1 H2]. apply starts_dot_spec in H1, H2. tauto.
Qed.

Lemma table_ok_pair ps s t s' t' : table_ok ps = true -> In (s, t) ps -> In (s', t') ps ->
  (s = s' <-> t = t') /\ s <> (s' ++ newline)%string.
Proof.
  intros H H1 H2. apply andb_prop in H as [_ H]. rewrite forallb_forall in H. specialize (H _ H1). cbn in H.
  rewrite forallb_forall in H. specialize (H _ H2). cbn in H. apply andb_prop in H as [A B].
  apply negb_true_iff, String.eqb_neq in B. split; [|exact B].
  apply Bool.eqb_prop in A. split; intros E.
  - apply String.eqb_eq in E. rewrite E in A. now apply String.eqb_eq.
  - apply String.eqb_eq in E. rewrite E in A. now apply String.eqb_eq.
Qed.

Lemma first_pattern_some ps name g : first_pattern ps name = Some g ->
  exists s t ds, In (s, t) ps /\ layer_match s name = Some ds /\ g = ("blk." ++ ds ++ t)%string.
Proof.
  induction ps as [|[s t] ps IH]; simpl; [discriminate|]. destruct (layer_match s name) as [ds|] eqn:E.
  - intros [= <-]. exists s, t, ds. auto.
  - intros H. destruct (IH H) as (s' & t' & ds & A & B & C). exists s', t', ds. auto.
Qed.

Lemma first_pattern_in ps name s t ds : In (s, t) ps -> layer_match s name = Some ds ->
  exists g, first_pattern ps name = Some g.
Proof.
  induction ps as [|[s0 t0] ps IH]; [easy|]. intros [[= -> ->]|Hin] E; cbn [first_pattern].
  - rewrite E. eauto.
  - destruct (layer_match s0 name); [eauto|]. now apply IH.
Qed.

Lemma layer_match_unique ps name s t ds s' t' ds' : table_ok ps = true -> In (s, t) ps -> In (s', t') ps ->
  layer_match s name = Some ds -> layer_match s' name = Some ds' -> s = s' /\ ds = ds'.
Proof.
  intros T H1 H2 E1 E2.
  destruct (table_ok_in _ _ _ T H1) as (A1 & B1 & _). destruct (table_ok_in _ _ _ T H2) as (A2 & B2 & _).
  apply (layer_match_spec s name ds A1 B1) in E1 as ((_ & D1) & E1).
  apply (layer_match_spec s' name ds' A2 B2) in E2 as ((_ & D2) & E2).
  assert (N1 : head_not_digit (s ++ newline)%string) by (destruct s; [congruence|exact A1]).
  assert (N2 : head_not_digit (s' ++ newline)%string) by (destruct s'; [congruence|exact A2]).
  destruct (table_ok_pair _ _ _ _ _ T H1 H2) as [_ X]. destruct (table_ok_pair _ _ _ _ _ T H2 H1) as [_ Y].
  assert (Z : forall a b, (a ++ newline = b ++ newline)%string -> a = b).
  { clear. induction a as [|x a IH]; intros [|y b] H; cbn in *; try reflexivity.
    - injection H as _ H. now destruct b.
    - injection H as _ H. now destruct a.
    - injection H as -> H. f_equal. now apply IH. }
  destruct E1 as [E1|E1], E2 as [E2|E2]; rewrite E1 in E2; apply sapp_inv in E2;
    apply digits_split in E2 as [-> E2]; try assumption; split; try reflexivity; try assumption; try congruence.
  now apply Z.
Qed.

(** The graph of a name map. *)
Lemma name_map_graph ps name g : table_ok ps = true ->
  build_name_map ps name = Some g <->
  assoc_str name static_map = Some g \/
  (assoc_str name static_map = None /\
   exists i s t, layer_number i /\ In (s, t) ps /\ g = ("blk." ++ i ++ t)%string /\
     (name = ("model.layers." ++ i ++ s)%string \/ name = ("model.layers." ++ i ++ s ++ newline)%string)).
Proof.
  intros T. unfold build_name_map. destruct (assoc_str name static_map) as [v|].
  { split; [now left|]. intros [H|[H _]]; [exact H|discriminate]. }
  split.
  - intros H. right. split; [reflexivity|].
    destruct (first_pattern_some _ _ _ H) as (s & t & ds & A & B & C).
    destruct (table_ok_in _ _ _ T A) as (X & Y & _).
    apply (layer_match_spec s name ds X Y) in B as (L & E). exists ds, s, t. auto.
  - intros [H|(_ & i & s & t & L & A & -> & E)]; [discriminate|].
    destruct (table_ok_in _ _ _ T A) as (X & Y & _).
    assert (B : layer_match s name = Some i) by (apply layer_match_spec; auto).
    destruct (first_pattern_in _ _ _ _ _ A B) as (g & G). rewrite G.
    destruct (first_pattern_some _ _ _ G) as (s' & t' & ds' & A' & B' & ->).
    destruct (layer_match_unique _ _ _ _ _ _ _ _ T A A' B B') as [-> ->].
    destruct (table_ok_pair _ _ _ _ _ T A A') as [P _]. now rewrite (proj1 P eq_refl).
Qed.

Lemma assoc_static_in name g : assoc_str name static_map = Some g -> In (name, g) static_map.
Proof.
  generalize static_map. intros l. induction l as [|[k v] l IH]; cbn [assoc_str]; [discriminate|].
  destruct (String.eqb_spec name k) as [->|_]; [intros [= <-]; now left|]. intros H. right. auto.
Qed.

Lemma name_map_injective ps a b g : table_ok ps = true -> no_newline a -> no_newline b ->
  build_name_map ps a = Some g -> build_name_map ps b = Some g -> a = b.
Proof.
  intros T Na Nb Ea Eb. apply (name_map_graph _ _ _ T) in Ea, Eb.
  assert (NN : forall x y z, no_newline (x ++ y ++ z ++ newline)%string -> False).
  { intros x y z H. rewrite !no_newline_app in H. cbn in H. lia. }
  assert (SL : forall n i t, assoc_str n static_map = Some ("blk." ++ i ++ t)%string -> False).
  { intros n i t H. apply assoc_static_in in H. unfold static_map in H. cbn in H.
    destruct H as [H|[H|[H|H]]]; try discriminate H; exact H. }
  destruct Ea as [Ea|(_ & i & s & t & L & A & -> & [-> | ->])].
  - destruct Eb as [Eb|(_ & i & s & t & L & A & -> & _)]; [|exfalso; eapply SL; exact Ea].
    apply assoc_static_in in Ea, Eb. unfold static_map in Ea, Eb. cbn in Ea, Eb.
    destruct Ea as [Ea|[Ea|[Ea|Ea]]]; destruct Eb as [Eb|[Eb|[Eb|Eb]]]; try contradiction; congruence.
  - destruct Eb as [Eb|(_ & i' & s' & t' & L' & A' & Eg & [-> | ->])].
    + exfalso. eapply SL; exact Eb.
    + apply sapp_inv in Eg. destruct (table_ok_in _ _ _ T A) as (_ & _ & D1).
      destruct (table_ok_in _ _ _ T A') as (_ & _ & D2).
      apply digits_split in Eg as [-> ->]; try assumption; try apply L; try apply L'.
      destruct (table_ok_pair _ _ _ _ _ T A A') as [P _]. now rewrite (proj2 P eq_refl).
    + exfalso. eapply NN; exact Nb.
  - exfalso. eapply NN; exact Na.
Qed.

Lemma llama_table : table_ok common_patterns = true. Proof. vm_compute. reflexivity. Qed.
Lemma qwen3_table : table_ok (common_patterns ++ qwen3_extra) = true. Proof. vm_compute. reflexivity. Qed.
Lemma qwen2_table : table_ok (common_patterns ++ qwen2_extra) = true. Proof. vm_compute. reflexivity. Qed.

(** Detection of the projections by the RoPE transform agrees with the specification. *)
Lemma layer_match_is suffix name : head_not_digit suffix -> suffix <> ""%string -> no_newline name ->
  (exists ds, layer_match suffix name = Some ds) <-> is_layer_tensor suffix name.
Proof.
  intros H1 H2 N. split.
  - intros (ds & E). apply layer_match_spec in E as (L & E); try assumption. exists ds. split; [exact L|].
    destruct E as [E|E]; [exact E|]. exfalso. rewrite E, !no_newline_app in N. cbn in N. lia.
  - intros (i & L & E). exists i. apply layer_match_spec; auto.
Qed.
