(** Parsing terminates, and parsing a printed selector gives it back. *)
From Coq Require Import String Ascii.
From Verif Require Import Prelude ModulesModel ModulesSpec MpathModel MpathSpec MpathLangProofs MpathSetProofs MpathProofs MpathParseModel MpathParseSpec.
Local Open Scope nat_scope.
Local Open Scope list_scope.

Lemma kind_beq_eq a b : kind_beq a b = true <-> a = b.
Proof. split; [apply internal_kind_dec_bl|apply internal_kind_dec_lb]. Qed.

(** ** Forgetting identities *)
Lemma forget_app a b : forget (a ++ b) = forget a ++ forget b.
Proof. apply map_app. Qed.
Section Lang.
  Variable re_fullmatch : string -> string -> bool.
  Variable is_instance : nat -> nat -> bool.
  Variable predicate : nat -> string -> nat -> bool.
  Notation matched := (matched re_fullmatch is_instance predicate).
  Lemma matched_forget s p : matched s p -> matched (forget s) p.
  Proof.
    induction 1; cbn; try (now constructor).
    apply matched_alt with (map forget_node alt); [now apply (in_map (map forget_node))|]. change (map forget_node q) with (forget q).
    change (map forget_node alt) with (forget alt). now rewrite <- forget_app.
  Qed.
  Lemma forget_matched t p : matched t p -> forall s, t = forget s -> matched s p.
  Proof.
    induction 1; intros s E.
    - destruct s; [constructor|discriminate].
    - destruct s as [|[j g|alts] s]; try discriminate. injection E as -> -> ->. constructor; auto.
    - destruct s as [|[j g|alts] s]; try discriminate. cbn in E. injection E as -> <- ->. constructor; auto.
    - destruct s as [|[j g|alts] s]; try discriminate. cbn in E. injection E as -> <- ->. apply matched_more. now apply IHmatched.
    - destruct s as [|[j g|alts'] s]; try discriminate. cbn in E. injection E as -> ->. apply in_map_iff in H. destruct H as (a & <- & Ha).
      apply matched_alt with a; [assumption|]. apply IHmatched. symmetry. apply forget_app.
  Qed.
  Lemma forget_lang s s' p : forget s = forget s' -> (matched s p <-> matched s' p).
  Proof.
    intros E. split; intros M.
    - apply matched_forget in M. rewrite E in M. now apply forget_matched with (forget s').
    - apply matched_forget in M. rewrite <- E in M. now apply forget_matched with (forget s).
  Qed.
End Lang.

(** ** Lexing *)
Lemma code_in_iff lo hi c : code_in lo hi c = true <-> between lo hi c.
Proof. unfold code_in, between. rewrite andb_true_iff, !Nat.leb_le. tauto. Qed.
Lemma isdigit_iff c : isdigit c = true <-> is_digit c.
Proof. apply code_in_iff. Qed.
Lemma idstart_iff c : idstart c = true <-> is_letter c.
Proof. unfold idstart, is_letter. rewrite !orb_true_iff, !code_in_iff, Nat.eqb_eq. tauto. Qed.
Lemma isspace_iff c : isspace c = true <-> is_white c.
Proof. unfold isspace, is_white. rewrite !orb_true_iff, !code_in_iff. tauto. Qed.
Lemma idchar_iff c : idchar c = true <-> is_letter c \/ is_digit c.
Proof. unfold idchar. rewrite orb_true_iff, idstart_iff, isdigit_iff. tauto. Qed.

Definition starts (p : ascii -> bool) (k : string) : bool := match k with EmptyString => false | String c _ => p c end.
Lemma span_app p a k : every (fun c => p c = true) a -> starts p k = false -> span p (a ++ k) = a.
Proof.
  induction a as [|c a IH]; intros H S; cbn.
  - destruct k as [|c k]; cbn; [reflexivity|]. cbn in S. now rewrite S.
  - rewrite (H c) by (now left). f_equal. apply IH; [|assumption]. intros x Hx. apply H. now right.
Qed.
Lemma lex_skip a : forall pos k, tokengen (String.length a) pos (a ++ k) = tokengen 0 (pos + String.length a) k.
Proof.
  induction a as [|c a IH]; intros pos k; cbn [String.append String.length].
  - now rewrite Nat.add_0_r.
  - cbn [tokengen]. rewrite IH. f_equal. lia.
Qed.
Lemma letter_not c : is_letter c -> isspace c = false /\ single c = None /\ Ascii.eqb c "." = false /\ isdigit c = false /\ Ascii.eqb c quote = false.
Proof.
  intros H. destruct c as [[] [] [] [] [] [] [] []]; repeat split; try reflexivity; exfalso; revert H; unfold is_letter, between; cbn; lia.
Qed.
Lemma digit_not c : is_digit c -> isspace c = false /\ single c = None /\ Ascii.eqb c "." = false.
Proof.
  intros H. destruct c as [[] [] [] [] [] [] [] []]; repeat split; try reflexivity; exfalso; revert H; unfold is_digit, between; cbn; lia.
Qed.
(** A text after a fragment: nothing, or a slash, a comma or a closing brace. *)
Definition delimited (k : string) : Prop :=
  match k with EmptyString => True | String c _ => c = "/"%char \/ c = ","%char \/ c = "}"%char end.
Lemma delimited_starts k : delimited k -> starts idchar k = false /\ starts isdigit k = false.
Proof. destruct k as [|c k]; cbn; [auto|]. intros [->|[->| ->]]; cbn; auto. Qed.
Lemma lex_word s k pos : word s -> delimited k -> exists kd, (kd = Digit \/ kd = Ident) /\
  tokengen 0 pos (s ++ k) = mkTok pos kd s :: tokengen 0 (pos + String.length s) k.
Proof.
  intros [(c & r & -> & L & A)|[NE A]] D; apply delimited_starts in D; destruct D as [D1 D2].
  - exists Ident. split; [now right|]. cbn [String.append tokengen]. destruct (letter_not c L) as (-> & -> & -> & -> & ->).
    rewrite (proj2 (idstart_iff c) L). rewrite (span_app idchar r k); [|intros x Hx; apply idchar_iff; now apply A|assumption].
    rewrite lex_skip. cbn [String.length]. do 2 f_equal. lia.
  - destruct s as [|c r]; [easy|]. exists Digit. split; [now left|]. assert (L : is_digit c) by (apply A; now left).
    cbn [String.append tokengen]. destruct (digit_not c L) as (-> & -> & ->). rewrite (proj2 (isdigit_iff c) L).
    rewrite (span_app isdigit r k); [|intros x Hx; apply isdigit_iff; apply A; now right|assumption].
    rewrite lex_skip. cbn [String.length]. do 2 f_equal. lia.
Qed.

Lemma span_le p a k : starts p k = false -> String.length (span p (a ++ k)) <= String.length a.
Proof.
  induction a as [|c a IH]; intros S; cbn.
  - destruct k as [|c k]; cbn; [lia|]. cbn in S. rewrite S. cbn. lia.
  - destruct (p c); cbn; [apply le_n_S; now apply IH|lia].
Qed.
Lemma string_snoc_cons c a (d : ascii) : String c (a ++ String d "")%string = (String c a ++ String d "")%string.
Proof. reflexivity. Qed.
Lemma plain_tail c p : plain_pattern (String c p) -> plain_pattern p.
Proof.
  intros [A L]. split; [intros x Hx; apply A; now right|]. intros p' d ->. apply (L (String c p') d). reflexivity.
Qed.
Lemma plain_last c : plain_pattern (String c "") -> c <> "\"%char /\ isspace c = false.
Proof.
  intros [_ L]. destruct (L ""%string c eq_refl) as [H1 H2]. split; [assumption|]. destruct (isspace c) eqn:E; [|reflexivity]. apply isspace_iff in E. contradiction.
Qed.
Lemma until_plain k : forall p skip pos esc, plain_pattern p -> skip <= String.length p -> (p = ""%string \/ 0 < skip -> esc = false) ->
  consume_until esc (tokengen skip pos (p ++ String "]" k)) = Ok (mkTok (pos + String.length p) RBracket "]", tokengen 0 (S (pos + String.length p)) k).
Proof.
  induction p as [|c p IH]; intros skip pos esc PP Sk He.
  - cbn in Sk. assert (skip = 0) by lia. subst skip. rewrite He by (now left). cbn. rewrite Nat.add_0_r. reflexivity.
  - pose proof (plain_tail _ _ PP) as PT.
    replace (pos + String.length (String c p)) with (S pos + String.length p) by (cbn [String.length]; lia).
    destruct skip as [|sk].
    2:{ cbn [String.append tokengen]. apply IH; [assumption|cbn in Sk; lia|]. intros _. apply He. right. lia. }
    cbn [String.append tokengen].
    assert (GO : forall sk t, sk <= String.length p -> t_kind t <> RBracket -> t_kind t <> Eol -> t_kind t <> BSlash ->
      consume_until esc (t :: tokengen sk (S pos) (p ++ String "]" k)) = Ok (mkTok (S pos + String.length p) RBracket "]", tokengen 0 (S (S pos + String.length p)) k)).
    { intros sk t L N1 N2 N3. cbn [consume_until]. destruct (kind_beq (t_kind t) RBracket) eqn:E1; [apply kind_beq_eq in E1; contradiction|].
      destruct (kind_beq (t_kind t) Eol) eqn:E2; [apply kind_beq_eq in E2; contradiction|].
      destruct (kind_beq (t_kind t) BSlash) eqn:E3; [apply kind_beq_eq in E3; contradiction|]. cbn. now apply IH. }
    assert (PE : p = ""%string -> c <> "\"%char /\ isspace c = false) by (intros ->; now apply plain_last).
    destruct PP as [PC _]. destruct (PC c (or_introl eq_refl)) as (C1 & C2 & C3).
    destruct (isspace c) eqn:SP.
    + apply IH; [assumption|lia|]. intros [->|H]; [|lia]. destruct (PE eq_refl). discriminate.
    + destruct (single c) as [kd|] eqn:SI.
      * destruct (Ascii.eqb c "\") eqn:EB.
        -- apply Ascii.eqb_eq in EB. subst c. cbn in SI. injection SI as <-. cbn [consume_until t_kind kind_beq andb].
           destruct esc; cbn [negb].
           ++ apply IH; [assumption|lia|auto].
           ++ apply IH; [assumption|lia|]. intros [->|H]; [|lia]. destruct (PE eq_refl). easy.
        -- apply GO; [lia|..]; cbn; intros ->; destruct c as [[] [] [] [] [] [] [] []]; cbn in SI; try discriminate; try (now apply C2); try (now apply C1).
      * destruct (Ascii.eqb c "."); [destruct (prefix ".." _); apply GO; cbn; (lia || discriminate)|].
        destruct (isdigit c); [apply GO; cbn; [now apply span_le|discriminate..]|].
        destruct (Ascii.eqb c quote) eqn:EQ; [apply Ascii.eqb_eq in EQ; subst c; now elim C3|].
        destruct (idstart c); [apply GO; cbn; [now apply span_le|discriminate..]|].
        apply GO; cbn; (lia || discriminate).
Qed.
Lemma substring_len p k : substring 0 (String.length p) (p ++ k) = p.
Proof. induction p; cbn; [now destruct k|]. now rewrite IHp. Qed.
Lemma substring_at pre p k : substring (String.length pre) (String.length p) (pre ++ p ++ k) = p.
Proof. induction pre; cbn; [apply substring_len|assumption]. Qed.
Lemma unescape_id c p : every (fun x => x <> c) p -> unescape c p = p.
Proof.
  induction p as [|x p IH]; intros H; [reflexivity|]. destruct p as [|y p]; [reflexivity|]. cbn [unescape].
  destruct (Ascii.eqb y c) eqn:E; [apply Ascii.eqb_eq in E; subst; exfalso; apply (H c); [now right; left|reflexivity]|].
  rewrite andb_false_r. f_equal. apply IH. intros z Hz. apply H. now right.
Qed.
Lemma str_length_app a b : String.length (a ++ b) = String.length a + String.length b.
Proof. induction a; cbn; [reflexivity|]. now rewrite IHa. Qed.

Lemma app_nil_str (a : string) : (a ++ "")%string = a.
Proof. induction a; cbn; congruence. Qed.
Section Parse.
  Variable re_valid : string -> bool.
  Variable extensions : string -> option (string -> option frag).
  Variable aliases : string -> option sel.
  Notation p_sel := (p_sel re_valid extensions aliases).
  Notation p_frag := (p_frag re_valid extensions aliases).
  Notation p_alts := (p_alts re_valid extensions aliases).
  Notation p_ext := (p_ext re_valid extensions).
  Notation parse := (parse re_valid extensions aliases).

  Lemma p_sel_S n src ts c : p_sel (S n) src ts c =
        let? (s, ts, c) := p_frag n src ts c in
        if at_kind FSlash ts then
          let ts := advance ts in
          if at_kind Eol ts then Ok (s, ts, c)
          else let? (s', ts, c) := p_sel n src ts c in Ok (s ++ s', ts, c)
        else Ok (s, ts, c).
  Proof. reflexivity. Qed.
  Lemma p_frag_S n src ts c : p_frag (S n) src ts c =
        let? t := peek ts in
        match t_kind t with
        | LBracket => p_ext src ts c
        | Digit | Ident => Ok ([NFrag c (Name (t_raw t))], advance ts, S c)
        | Asterisk =>
            let ts := advance ts in
            if at_kind Asterisk ts then Ok ([NFrag c (Wild true)], advance ts, S c)
            else Ok ([NFrag c (Wild false)], ts, S c)
        | LBrace => let? (alts, ts, c) := p_alts n src (advance ts) c in Ok ([NMulti alts], ts, c)
        | Tilde =>
            let? (s, ts, c) := p_frag n src (advance ts) c in
            let? s := invert c s in
            Ok (s, ts, S c)
        | Amp =>
            let? (i, ts) := expect Ident (advance ts) in
            match aliases (t_raw i) with
            | Some s => Ok (s, ts, c)
            | None => Err MPathParseError
            end
        | _ => Err MPathParseError
        end.
  Proof. reflexivity. Qed.
  Lemma p_alts_S n src ts c : p_alts (S n) src ts c =
        let? (s, ts, c) := p_sel n src ts c in
        if at_kind Comma ts then let? (alts, ts, c) := p_alts n src (advance ts) c in Ok (s :: alts, ts, c)
        else if at_kind RBrace ts then Ok ([s], advance ts, c)
        else Err MPathParseError.
  Proof. reflexivity. Qed.
  (** ** Fuel *)
  Lemma advance_le ts : length (advance ts) <= length ts.
  Proof. destruct ts as [|t r]; cbn; [lia|]. destruct (kind_beq _ _); cbn; lia. Qed.
  Lemma advance_lt t r : t_kind t <> Eol -> advance (t :: r) = r.
  Proof. intros H. cbn. destruct (kind_beq _ _) eqn:E; [apply kind_beq_eq in E; contradiction|reflexivity]. Qed.
  Lemma expect_le k ts t r : expect k ts = Ok (t, r) -> length r <= length ts /\ (k <> Eol -> length r < length ts).
  Proof.
    unfold expect. destruct ts as [|t0 ts]; cbn [peek rbind]; [discriminate|]. destruct (kind_beq (t_kind t0) k) eqn:E; [|discriminate].
    apply kind_beq_eq in E. intros H. assert (r = advance (t0 :: ts)) by congruence. subst r. split; [apply (advance_le (t0 :: ts))|]. intros N. rewrite advance_lt by congruence. cbn. lia.
  Qed.
  Lemma until_le e ts t r : consume_until e ts = Ok (t, r) -> length r <= length ts.
  Proof.
    revert e. induction ts as [|t0 ts IH]; intros e; cbn; [discriminate|].
    destruct (_ && _); [intros E; injection E as <- <-; lia|]. destruct (kind_beq (t_kind t0) Eol); [discriminate|].
    destruct (_ && _); intros E; apply IH in E; lia.
  Qed.
  Lemma ext_ok src ts c : p_ext src ts c <> Err RecursionError /\
    forall s r c', p_ext src ts c = Ok (s, r, c') -> length r < length ts.
  Proof.
    unfold MpathParseModel.p_ext.
    destruct (expect LBracket ts) as [[t1 r1]|e] eqn:E1; cbn [rbind]; [|split; [|discriminate]; unfold expect in E1; destruct ts; cbn in E1; [injection E1 as <-; discriminate|destruct (kind_beq _ _); congruence]].
    destruct (expect Ident r1) as [[t2 r2]|e] eqn:E2; cbn [rbind]; [|split; [|discriminate]; unfold expect in E2; destruct r1; cbn in E2; [injection E2 as <-; discriminate|destruct (kind_beq _ _); congruence]].
    destruct (expect Colon r2) as [[t3 r3]|e] eqn:E3; cbn [rbind]; [|split; [|discriminate]; unfold expect in E3; destruct r2; cbn in E3; [injection E3 as <-; discriminate|destruct (kind_beq _ _); congruence]].
    destruct (consume_until false r3) as [[t4 r4]|e] eqn:E4; cbn [rbind].
    2:{ split; [|discriminate]. enough (e = MPathParseError) by (subst; discriminate). clear -E4. revert E4. generalize false. induction r3 as [|t0 ts IH]; intros b; cbn; [congruence|].
        destruct (_ && _); [discriminate|]. destruct (kind_beq (t_kind t0) Eol); [congruence|]. destruct (_ && _); apply IH. }
    apply expect_le in E1, E2, E3. apply until_le in E4. destruct E1 as [_ E1], E2 as [E2 _], E3 as [E3 _]. specialize (E1 ltac:(discriminate)).
    set (sp := substring _ _ _). clearbody sp. split.
    - unfold run_extension. destruct (String.eqb _ _).
      + destruct (re_valid _); cbn; discriminate.
      + destruct (extensions _) as [f|]; cbn; [|discriminate]. destruct (f sp); cbn; discriminate.
    - intros s r c'. destruct (run_extension _ _ _ _); cbn; [|discriminate]. intros E. injection E as <- <- <-. lia.
  Qed.
  Lemma fuel_ok k :
    (forall ts src c, 3 * length ts + 2 < k -> p_sel k src ts c <> Err RecursionError) /\
    (forall ts src c, 3 * length ts + 1 < k -> p_frag k src ts c <> Err RecursionError) /\
    (forall ts src c, 3 * length ts + 3 < k -> p_alts k src ts c <> Err RecursionError) /\
    (forall ts src c s r c', p_sel k src ts c = Ok (s, r, c') -> length r < length ts \/ (length r <= length ts /\ at_kind Eol r = true)) /\
    (forall ts src c s r c', p_frag k src ts c = Ok (s, r, c') -> length r < length ts) /\
    (forall ts src c s r c', p_alts k src ts c = Ok (s, r, c') -> length r < length ts).
  Proof.
    induction k as [|k (I1 & I2 & I3 & I4 & I5 & I6)]; [repeat split; intros; (lia || discriminate)|].
    assert (EX : forall kd ts e, expect kd ts = Err e -> e = MPathParseError).
    { intros kd ts e. unfold expect. destruct ts; cbn; [congruence|]. destruct (kind_beq _ _); [discriminate|congruence]. }
    assert (AK : forall kd ts, at_kind kd ts = true -> kd <> Eol -> length (advance ts) < length ts).
    { intros kd [|t ts]; cbn [at_kind]; [discriminate|]. intros E N. apply kind_beq_eq in E. rewrite advance_lt by congruence. cbn. lia. }
    repeat split.
    - intros ts src c L. rewrite p_sel_S. destruct (p_frag k src ts c) as [[[s r] c1]|e] eqn:E; cbn [rbind].
      2:{ intros X. assert (e = RecursionError) by congruence. subst e. apply I2 in E; [easy|lia]. }
      apply I5 in E. destruct (at_kind FSlash r) eqn:F; [|discriminate]. destruct (at_kind Eol (advance r)) eqn:G; [discriminate|].
      apply AK in F; [|discriminate].
      destruct (p_sel k src (advance r) c1) as [[[s' r'] c2]|e] eqn:E'; cbn [rbind]; [discriminate|].
      intros X. assert (e = RecursionError) by congruence. subst e. apply I1 in E'; [easy|lia].
    - intros ts src c L. rewrite p_frag_S. destruct ts as [|t ts]; cbn [peek rbind]; [discriminate|]. cbn [length] in L.
      destruct (t_kind t) eqn:K; try discriminate.
      + apply ext_ok.
      + rewrite advance_lt by congruence. destruct (p_alts k src ts c) as [[[s r] c1]|e] eqn:E; cbn [rbind]; [discriminate|].
        intros X. assert (e = RecursionError) by congruence. subst e. apply I3 in E; [easy|lia].
      + rewrite advance_lt by congruence. destruct (p_frag k src ts c) as [[[s r] c1]|e] eqn:E; cbn [rbind].
        * unfold invert. destruct s as [|[i f|alts] [|n s]]; cbn; discriminate.
        * intros X. assert (e = RecursionError) by congruence. subst e. apply I2 in E; [easy|lia].
      + rewrite advance_lt by congruence. destruct (expect Ident ts) as [[i r]|e] eqn:E; cbn [rbind].
        * destruct (aliases _); discriminate.
        * apply EX in E. subst. discriminate.
      + rewrite advance_lt by congruence. destruct (at_kind Asterisk ts); discriminate.
    - intros ts src c L. rewrite p_alts_S. destruct (p_sel k src ts c) as [[[s r] c1]|e] eqn:E; cbn [rbind].
      2:{ intros X. assert (e = RecursionError) by congruence. subst e. apply I1 in E; [easy|lia]. }
      apply I4 in E. destruct (at_kind Comma r) eqn:F.
      + pose proof (AK _ _ F ltac:(discriminate)).
        destruct (p_alts k src (advance r) c1) as [[[s' r'] c2]|e] eqn:E'; cbn [rbind]; [discriminate|].
        intros X. assert (e = RecursionError) by congruence. subst e. apply I3 in E'; [easy|lia].
      + destruct (at_kind RBrace r); discriminate.
    - intros ts src c s r c'. rewrite p_sel_S. destruct (p_frag k src ts c) as [[[s0 r0] c1]|e] eqn:E; cbn [rbind]; [|discriminate].
      apply I5 in E. destruct (at_kind FSlash r0) eqn:F; [|intros X; injection X as <- <- <-; now left].
      pose proof (advance_le r0). destruct (at_kind Eol (advance r0)) eqn:G; [intros X; injection X as <- <- <-; left; lia|].
      destruct (p_sel k src (advance r0) c1) as [[[s' r'] c2]|e] eqn:E'; cbn [rbind]; [|discriminate].
      intros X. injection X as <- <- <-. apply I4 in E'. left. lia.
    - intros ts src c s r c'. rewrite p_frag_S. destruct ts as [|t ts]; cbn [peek rbind]; [discriminate|]. cbn [length].
      destruct (t_kind t) eqn:K; try discriminate.
      + apply ext_ok.
      + rewrite advance_lt by congruence. destruct (p_alts k src ts c) as [[[s0 r0] c1]|e] eqn:E; cbn [rbind]; [|discriminate].
        intros X. injection X as <- <- <-. apply I6 in E. lia.
      + rewrite advance_lt by congruence. intros X. injection X as <- <- <-. lia.
      + rewrite advance_lt by congruence. intros X. injection X as <- <- <-. lia.
      + rewrite advance_lt by congruence. destruct (p_frag k src ts c) as [[[s0 r0] c1]|e] eqn:E; cbn [rbind]; [|discriminate].
        destruct (invert c1 s0); cbn [rbind]; [|discriminate]. intros X. injection X as <- <- <-. apply I5 in E. lia.
      + rewrite advance_lt by congruence. destruct (expect Ident ts) as [[i r0]|e] eqn:E; cbn [rbind]; [|discriminate].
        apply expect_le in E. destruct (aliases _); [|discriminate]. intros X. injection X as <- <- <-. lia.
      + rewrite advance_lt by congruence. pose proof (advance_le ts). destruct (at_kind Asterisk ts); intros X; injection X as <- <- <-; lia.
    - intros ts src c s r c'. rewrite p_alts_S. destruct (p_sel k src ts c) as [[[s0 r0] c1]|e] eqn:E; cbn [rbind]; [|discriminate].
      apply I4 in E. destruct (at_kind Comma r0) eqn:F.
      + pose proof (AK _ _ F ltac:(discriminate)). destruct (p_alts k src (advance r0) c1) as [[[s' r'] c2]|e] eqn:E'; cbn [rbind]; [|discriminate].
        intros X. injection X as <- <- <-. apply I6 in E'. lia.
      + destruct (at_kind RBrace r0) eqn:G; [|discriminate]. pose proof (AK _ _ G ltac:(discriminate)). intros X. injection X as <- <- <-. lia.
  Qed.
  Lemma parse_terminates c src : parse c src <> Err RecursionError.
  Proof.
    unfold MpathParseModel.parse. set (ts := if at_kind FSlash (tokengen 0 0 src) then advance (tokengen 0 0 src) else tokengen 0 0 src). clearbody ts.
    destruct (p_sel (3 * length ts + 3) src ts c) as [[[s r] c1]|e] eqn:E; cbn [rbind].
    - destruct (at_kind Eol r); discriminate.
    - intros X. assert (e = RecursionError) by congruence. subst e. apply (proj1 (fuel_ok _)) in E; [easy|lia].
  Qed.
  Lemma fuel_mono k :
    (forall m ts src c x, p_sel k src ts c = x -> x <> Err RecursionError -> k <= m -> p_sel m src ts c = x) /\
    (forall m ts src c x, p_frag k src ts c = x -> x <> Err RecursionError -> k <= m -> p_frag m src ts c = x) /\
    (forall m ts src c x, p_alts k src ts c = x -> x <> Err RecursionError -> k <= m -> p_alts m src ts c = x).
  Proof.
    induction k as [|k (I1 & I2 & I3)]; [repeat split; intros m ts src c x E; cbn in E; congruence|].
    repeat split; intros [|m] ts src c x E N L; try lia; rewrite <- E in *; clear E; apply le_S_n in L.
    - rewrite !p_sel_S in *. destruct (p_frag k src ts c) as [[[s r] c1]|e] eqn:E; cbn [rbind] in *.
      + rewrite (I2 m _ _ _ _ E) by (easy || assumption). cbn [rbind]. destruct (at_kind FSlash r); [|reflexivity]. destruct (at_kind Eol (advance r)); [reflexivity|].
        destruct (p_sel k src (advance r) c1) as [[[s' r'] c2]|e] eqn:E'; cbn [rbind] in *; rewrite (I1 m _ _ _ _ E'); try easy; (intros X; injection X as ->; now apply N).
      + rewrite (I2 m _ _ _ _ E); [reflexivity|intros X; injection X as ->; now apply N|assumption].
    - rewrite !p_frag_S in *. destruct ts as [|t ts]; cbn [peek rbind] in *; [reflexivity|].
      destruct (t_kind t) eqn:K; try reflexivity.
      + destruct (p_alts k src (advance (t :: ts)) c) as [[[s r] c1]|e] eqn:E; cbn [rbind] in *; rewrite (I3 m _ _ _ _ E); try easy; (intros X; injection X as ->; now apply N).
      + destruct (p_frag k src (advance (t :: ts)) c) as [[[s r] c1]|e] eqn:E; cbn [rbind] in *; rewrite (I2 m _ _ _ _ E); try easy; (intros X; injection X as ->; now apply N).
    - rewrite !p_alts_S in *. destruct (p_sel k src ts c) as [[[s r] c1]|e] eqn:E; cbn [rbind] in *.
      + rewrite (I1 m _ _ _ _ E) by (easy || assumption). cbn [rbind]. destruct (at_kind Comma r); [|reflexivity].
        destruct (p_alts k src (advance r) c1) as [[[s' r'] c2]|e] eqn:E'; cbn [rbind] in *; rewrite (I3 m _ _ _ _ E'); try easy; (intros X; injection X as ->; now apply N).
      + rewrite (I1 m _ _ _ _ E); [reflexivity|intros X; injection X as ->; now apply N|assumption].
  Qed.

  (** ** Reading back what was printed *)
  Variable class_name : nat -> string.
  Variable predicate_name : nat -> string.
  Notation frag_str := (frag_str class_name predicate_name).
  Notation node_str := (node_str class_name predicate_name).
  Notation sel_str := (sel_str class_name predicate_name).

  Lemma lex_single ch kd pos k : single ch = Some kd -> isspace ch = false ->
    tokengen 0 pos (String ch k) = mkTok pos kd (String ch "") :: tokengen 0 (S pos) k.
  Proof. intros S W. cbn [tokengen]. now rewrite W, S. Qed.
  Lemma lex_re pos k : tokengen 0 pos (String "r" (String "e" (String ":" k))) =
    mkTok pos Ident "re" :: mkTok (pos + 2) Colon ":" :: tokengen 0 (pos + 3) k.
  Proof. replace (pos + 2) with (S (S pos)) by lia. replace (pos + 3) with (S (S (S pos))) by lia. reflexivity. Qed.

  Ltac same_pos := match goal with |- Ok (_, tokengen 0 ?a ?k, _) = Ok (_, tokengen 0 ?b ?k, _) =>
    replace a with b; [reflexivity|cbn [MpathParseModel.frag_str String.append String.length]; rewrite ?str_length_app; cbn [String.length]; rewrite ?str_length_app; cbn [String.length]; lia] end.
  Lemma frag_back f : writable_frag re_valid f -> forall src pre k c, src = (pre ++ frag_str f ++ k)%string -> delimited k ->
    exists n i c', c <= i < c' /\ forall m, n <= m ->
      p_frag m src (tokengen 0 (String.length pre) (frag_str f ++ k)) c = Ok ([NFrag i f], tokengen 0 (String.length pre + String.length (frag_str f)) k, c').
  Proof.
    induction 1 as [b|s W|p PP V|f WF IH]; intros src pre k c E D.
    - exists 1, c, (S c). split; [lia|]. intros [|m] Hm; [lia|]. destruct b; cbn [MpathParseModel.frag_str String.append].
      + rewrite (lex_single "*" Asterisk) by reflexivity. rewrite (lex_single "*" Asterisk) by reflexivity.
        rewrite p_frag_S; cbn [peek rbind t_kind]. rewrite advance_lt by discriminate. cbn [at_kind t_kind kind_beq].
        rewrite advance_lt by discriminate. same_pos.
      + rewrite (lex_single "*" Asterisk) by reflexivity.
        rewrite p_frag_S; cbn [peek rbind t_kind]. rewrite advance_lt by discriminate.
        assert (A : at_kind Asterisk (tokengen 0 (S (String.length pre)) k) = false).
        { destruct k as [|ch k]; [reflexivity|]. destruct D as [->|[->| ->]]; reflexivity. }
        rewrite A. same_pos.
    - exists 1, c, (S c). split; [lia|]. intros [|m] Hm; [lia|]. cbn [MpathParseModel.frag_str].
      destruct (lex_word s k (String.length pre) W D) as (kd & [->| ->] & ->);
        rewrite p_frag_S; cbn [peek rbind t_kind t_raw]; rewrite advance_lt by discriminate; reflexivity.
    - exists 1, c, (S c). split; [lia|]. intros [|m] Hm; [lia|]. cbn [MpathParseModel.frag_str] in *.
      change (("[re:" ++ p ++ "]") ++ k)%string with (String "[" (String "r" (String "e" (String ":" ((p ++ "]") ++ k)))))%string in *.
      rewrite string_app_assoc in *. change ("]" ++ k)%string with (String "]" k) in *.
      rewrite (lex_single "[" LBracket) by reflexivity. rewrite lex_re.
      rewrite p_frag_S; cbn [peek rbind t_kind]. unfold MpathParseModel.p_ext. unfold expect at 1. cbn [peek rbind t_kind kind_beq].
      rewrite advance_lt by discriminate. unfold expect at 1. cbn [peek rbind t_kind kind_beq].
      rewrite advance_lt by discriminate. unfold expect at 1. cbn [peek rbind t_kind kind_beq].
      rewrite advance_lt by discriminate. rewrite until_plain; [|assumption|lia|reflexivity]. cbn [rbind t_pos t_raw].
      replace (S (String.length pre) + 3 + String.length p - S (S (String.length pre) + 2)) with (String.length p) by lia.
      replace (S (S (String.length pre) + 2)) with (String.length (pre ++ "[re:")) by (rewrite str_length_app; cbn; lia).
      assert (Es : src = ((pre ++ "[re:") ++ p ++ String "]" k)%string) by (rewrite E, string_app_assoc; reflexivity).
      rewrite Es, substring_at. unfold run_extension. cbn [String.eqb Ascii.eqb Bool.eqb].
      rewrite (unescape_id "["), (unescape_id "]").
      + rewrite V. cbn [rbind]. same_pos.
      + intros x Hx. now apply PP.
      + intros x Hx. now apply PP.
    - destruct (IH src (pre ++ "~")%string k c) as (n & i & c' & L & H).
      { rewrite E, string_app_assoc. reflexivity. }
      { assumption. }
      exists (S n), c', (S c'). split; [lia|]. intros [|m] Hm; [lia|]. cbn [MpathParseModel.frag_str].
      change (("~" ++ frag_str f) ++ k)%string with (String "~" (frag_str f ++ k)%string).
      rewrite (lex_single "~" Tilde) by reflexivity. rewrite p_frag_S; cbn [peek rbind t_kind]. rewrite advance_lt by discriminate.
      assert (LP : String.length (pre ++ "~") = S (String.length pre)) by (rewrite str_length_app; cbn; lia).
      rewrite LP in H. rewrite H by lia. cbn [rbind invert]. same_pos.
  Qed.

  (** What reading back gives: the same query with new objects *)
  Definition back {A} (ids_of : A -> list nat) (c c' : nat) (x : A) : Prop :=
    c <= c' /\ NoDup (ids_of x) /\ forall i, In i (ids_of x) -> c <= i < c'.
  Definition closing (k : string) : Prop := match k with EmptyString => True | String ch _ => ch = ","%char \/ ch = "}"%char end.
  Definition node_reads (n : node) : Prop := forall src pre k c, src = (pre ++ node_str n ++ k)%string -> delimited k ->
    exists N n' c', forget_node n' = forget_node n /\ back ids_node c c' n' /\ forall m, N <= m ->
      p_frag m src (tokengen 0 (String.length pre) (node_str n ++ k)) c = Ok ([n'], tokengen 0 (String.length pre + String.length (node_str n)) k, c').
  Definition sel_reads (s : sel) : Prop := forall src pre k c, src = (pre ++ sel_str s ++ k)%string -> closing k ->
    exists N s' c', forget s' = forget s /\ back ids c c' s' /\ forall m, N <= m ->
      p_sel m src (tokengen 0 (String.length pre) (sel_str s ++ k)) c = Ok (s', tokengen 0 (String.length pre + String.length (sel_str s)) k, c').

  Lemma closing_no k pos : closing k -> at_kind FSlash (tokengen 0 pos k) = false.
  Proof. destruct k as [|ch k]; [reflexivity|]. intros [->| ->]; reflexivity. Qed.
  Lemma sel_back s : s <> [] -> (forall n, In n s -> node_reads n) -> sel_reads s.
  Proof.
    induction s as [|n s IH]; intros NE H; [easy|]. intros src pre k c E C.
    destruct s as [|n2 s].
    - destruct (H n (or_introl eq_refl) src pre k c E) as (N & n' & c' & F & (B1 & B2 & B3) & R).
      { destruct k as [|ch k]; [exact I|]. destruct C; cbn; auto. }
      exists (S N), [n'], c'. split; [cbn; now rewrite F|]. split; [split; [assumption|]; unfold ids; cbn; now rewrite app_nil_r|].
      intros [|m] Hm; [lia|]. rewrite p_sel_S. change (sel_str [n]) with (node_str n). rewrite R by lia. cbn [rbind].
      now rewrite closing_no.
    - set (rest := n2 :: s) in *. assert (RN : rest <> []) by discriminate.
      change (sel_str (n :: rest)) with (node_str n ++ String "/" (sel_str rest))%string in *.
      rewrite string_app_assoc in *. change (String "/" (sel_str rest) ++ k)%string with (String "/" (sel_str rest ++ k)%string) in *.
      destruct (H n (or_introl eq_refl) src pre (String "/" (sel_str rest ++ k)) c E) as (N & n' & c' & F & (B1 & B2 & B3) & R); [cbn; auto|].
      destruct (IH RN (fun x Hx => H x (or_intror Hx)) src (pre ++ node_str n ++ "/")%string k c') as (N2 & s' & c2 & F2 & (D1 & D2 & D3) & R2).
      { rewrite E, !string_app_assoc. reflexivity. }
      { assumption. }
      exists (S (N + N2)), (n' :: s'), c2. split; [cbn; rewrite F; now f_equal|]. split.
      { split; [lia|]. rewrite ids_cons. split.
        - apply nodup_join; [assumption|assumption|]. intros x Hx Hy. apply B3 in Hx. apply D3 in Hy. lia.
        - intros i Hi. apply in_app_iff in Hi. destruct Hi as [Hi|Hi]; [apply B3 in Hi|apply D3 in Hi]; lia. }
      intros [|m] Hm; [lia|]. rewrite p_sel_S. rewrite R by lia. cbn [rbind].
      rewrite (lex_single "/" FSlash) by reflexivity. cbn [at_kind t_kind kind_beq]. rewrite advance_lt by discriminate.
      assert (LP : String.length (pre ++ node_str n ++ "/") = S (String.length pre + String.length (node_str n))) by (rewrite !str_length_app; cbn; lia).
      rewrite LP in R2. specialize (R2 m ltac:(lia)).
      assert (NEol : at_kind Eol (tokengen 0 (S (String.length pre + String.length (node_str n))) (sel_str rest ++ k)) = false).
      { destruct m as [|m]; [discriminate R2|]. destruct m as [|m]; [discriminate R2|]. rewrite p_sel_S, p_frag_S in R2. destruct (tokengen 0 (S (String.length pre + String.length (node_str n))) (sel_str rest ++ k)) as [|t ts]; [reflexivity|].
        cbn. destruct (kind_beq (t_kind t) Eol) eqn:KE; [|reflexivity]. apply kind_beq_eq in KE. cbn [peek rbind] in R2. rewrite KE in R2. discriminate. }
      rewrite NEol, R2. cbn [rbind]. same_pos.
  Qed.
  Definition alts_str (alts : list sel) : string := join ", " (map sel_str alts).
  Lemma alts_back alts : alts <> [] -> (forall a, In a alts -> sel_reads a) ->
    forall src pre k c, src = (pre ++ alts_str alts ++ String "}" k)%string ->
    exists N alts' c', map forget alts' = map forget alts /\ back (flat_map ids) c c' alts' /\ forall m, N <= m ->
      p_alts m src (tokengen 0 (String.length pre) (alts_str alts ++ String "}" k)) c =
        Ok (alts', tokengen 0 (S (String.length pre + String.length (alts_str alts))) k, c').
  Proof.
    induction alts as [|a alts IH]; intros NE H src pre k c E; [easy|].
    destruct alts as [|b alts].
    - change (alts_str [a]) with (sel_str a) in *.
      destruct (H a (or_introl eq_refl) src pre (String "}" k) c E) as (N & a' & c' & F & (B1 & B2 & B3) & R); [cbn; auto|].
      exists (S N), [a'], c'. split; [cbn; now rewrite F|]. split; [split; [assumption|]; cbn; now rewrite app_nil_r|].
      intros [|m] Hm; [lia|]. rewrite p_alts_S. rewrite R by lia. cbn [rbind].
      rewrite (lex_single "}" RBrace) by reflexivity. cbn [at_kind t_kind kind_beq]. now rewrite advance_lt by discriminate.
    - set (rest := b :: alts) in *. assert (RN : rest <> []) by discriminate.
      change (alts_str (a :: rest)) with (sel_str a ++ String "," (String " " (alts_str rest)))%string in *.
      rewrite string_app_assoc in *.
      change (String "," (String " " (alts_str rest)) ++ String "}" k)%string with (String "," (String " " (alts_str rest ++ String "}" k)))%string in *.
      destruct (H a (or_introl eq_refl) src pre (String "," (String " " (alts_str rest ++ String "}" k))) c E) as (N & a' & c' & F & (B1 & B2 & B3) & R); [cbn; auto|].
      destruct (IH RN (fun x Hx => H x (or_intror Hx)) src (pre ++ sel_str a ++ ", ")%string k c') as (N2 & rest' & c2 & F2 & (D1 & D2 & D3) & R2).
      { rewrite E, !string_app_assoc. reflexivity. }
      exists (S (N + N2)), (a' :: rest'), c2. split; [cbn; rewrite F; now f_equal|]. split.
      { split; [lia|]. cbn [flat_map]. split.
        - apply nodup_join; [assumption|assumption|]. intros x Hx Hy. apply B3 in Hx. apply D3 in Hy. lia.
        - intros i Hi. apply in_app_iff in Hi. destruct Hi as [Hi|Hi]; [apply B3 in Hi|apply D3 in Hi]; lia. }
      intros [|m] Hm; [lia|]. rewrite p_alts_S. rewrite R by lia. cbn [rbind].
      rewrite (lex_single "," Comma) by reflexivity. cbn [at_kind t_kind kind_beq]. rewrite advance_lt by discriminate.
      assert (SP : forall pos x, tokengen 0 pos (String " " x) = tokengen 0 (S pos) x) by reflexivity. rewrite SP.
      assert (LP : String.length (pre ++ sel_str a ++ ", ") = S (S (String.length pre + String.length (sel_str a)))) by (rewrite !str_length_app; cbn; lia).
      rewrite LP in R2. rewrite (R2 m ltac:(lia)). cbn [rbind]. same_pos.
  Qed.
  Lemma node_back k0 : forall n, size_node n < k0 -> writable_node re_valid n -> node_reads n.
  Proof.
    induction k0; [lia|]. intros n Hk W. destruct W as [i f W|alts NE NA W]; intros src pre k c E D.
    - destruct (frag_back f W src pre k c E D) as (N & j & c' & L & R). exists N, (NFrag j f), c'.
      split; [reflexivity|]. split; [|assumption]. split; [lia|]. cbn. split; [repeat constructor; easy|]. intros x [<-|[]]. lia.
    - change (node_str (NMulti alts)) with (String "{" (alts_str alts ++ "}"))%string in *.
      change (String "{" (alts_str alts ++ "}") ++ k)%string with (String "{" ((alts_str alts ++ "}") ++ k))%string in *.
      rewrite string_app_assoc in *. change ("}" ++ k)%string with (String "}" k) in *.
      destruct (alts_back alts NE) with (src := src) (pre := (pre ++ "{")%string) (k := k) (c := c) as (N & alts' & c' & F & (B1 & B2 & B3) & R).
      { intros a Ha. apply sel_back; [now apply NA|]. intros n Hn. apply IHk0; [|now apply (W a)].
        change (size_node (NMulti alts)) with (S (list_sum (map size alts))) in Hk.
        pose proof (list_sum_in _ _ (in_map size _ _ Ha)). pose proof (list_sum_in _ _ (in_map size_node _ _ Hn)). unfold size in *. lia. }
      { rewrite E, string_app_assoc. reflexivity. }
      exists (S N), (NMulti alts'), c'. split; [cbn; now f_equal|]. split; [split; [assumption|]; rewrite ids_multi; auto|].
      intros [|m] Hm; [lia|]. rewrite (lex_single "{" LBrace) by reflexivity. rewrite p_frag_S; cbn [peek rbind t_kind]. rewrite advance_lt by discriminate.
      assert (LP : String.length (pre ++ "{") = S (String.length pre)) by (rewrite str_length_app; cbn; lia).
      rewrite LP in R. rewrite R by lia. cbn [rbind]. same_pos.
  Qed.

  Lemma tokengen_head_slash s : writable re_valid s -> at_kind FSlash (tokengen 0 0 (sel_str s)) = false.
  Proof.
    intros [NE W]. assert (R : sel_reads s) by (apply sel_back; [assumption|]; intros n Hn; apply (node_back (S (size_node n))); [lia|now apply W]).
    destruct (R (sel_str s) ""%string ""%string 0) as (N & s' & c' & _ & _ & H); [cbn; rewrite app_nil_str; reflexivity|exact I|].
    specialize (H (S (S N)) ltac:(lia)). cbn [String.length String.append] in H. rewrite app_nil_str in H.
    rewrite p_sel_S, p_frag_S in H. destruct (tokengen 0 0 (sel_str s)) as [|t ts]; [reflexivity|].
    cbn. destruct (kind_beq (t_kind t) FSlash) eqn:E; [|reflexivity]. apply kind_beq_eq in E. cbn [peek rbind] in H. rewrite E in H. discriminate.
  Qed.
  Lemma round_trip s c : writable re_valid s -> exists s', parse c (sel_str s) = Ok s' /\ forget s' = forget s /\ NoDup (objects s').
  Proof.
    intros W. pose proof (tokengen_head_slash s W) as TS. destruct W as [NE W].
    assert (R : sel_reads s) by (apply sel_back; [assumption|]; intros n Hn; apply (node_back (S (size_node n))); [lia|now apply W]).
    destruct (R (sel_str s) ""%string ""%string c) as (N & s' & c' & F & (_ & ND & _) & H); [cbn; rewrite app_nil_str; reflexivity|exact I|].
    cbn [String.length String.append] in H. rewrite app_nil_str in H. exists s'. split; [|split; [assumption|now rewrite objects_ids]].
    unfold MpathParseModel.parse. rewrite TS. set (ts := tokengen 0 0 (sel_str s)) in *. set (F0 := 3 * length ts + 3).
    assert (A : p_sel F0 (sel_str s) ts c <> Err RecursionError) by (apply (proj1 (fuel_ok F0)); unfold F0; lia).
    pose proof (proj1 (fuel_mono F0) (F0 + N) ts (sel_str s) c _ eq_refl A ltac:(lia)) as M. rewrite H in M by lia. rewrite <- M. reflexivity.
  Qed.
End Parse.
