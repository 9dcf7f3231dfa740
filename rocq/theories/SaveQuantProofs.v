(** Proofs about saving and loading quantizers. *)
From Coq Require Import String Ascii QArith.
From Verif Require Import Prelude GgufModel GgufNameProofs GgufExportProofs SaveModel SaveSpec SaveProofs.
Local Open Scope nat_scope.
Local Open Scope list_scope.

(** ** Strings *)

Lemma chars_app a b : chars (a ++ b)%string = chars a ++ chars b.
Proof. induction a as [|c a IH]; cbn; [reflexivity|now rewrite IH]. Qed.

Lemma split_none c s : ~ In c (chars s) -> split_char c s = [s].
Proof.
  induction s as [|a s IH]; cbn; [reflexivity|]. intros H.
  destruct (Ascii.eqb_spec a c) as [->|N]; [exfalso; auto|]. rewrite IH; auto.
Qed.

Lemma split_app c a b : ~ In c (chars a) -> split_char c (a ++ String c b)%string = a :: split_char c b.
Proof.
  induction a as [|x a IH]; cbn; intros H.
  - now rewrite Ascii.eqb_refl.
  - destruct (Ascii.eqb_spec x c) as [->|N]; [exfalso; auto|]. rewrite IH; auto.
Qed.

Lemma split_concat c l : l <> [] -> (forall s, In s l -> ~ In c (chars s)) ->
  split_char c (String.concat (String c EmptyString) l) = l.
Proof.
  induction l as [|s l IH]; [congruence|]. intros _ H. destruct l as [|s' l].
  - cbn. apply split_none, H. now left.
  - change (String.concat (String c EmptyString) (s :: s' :: l))
      with (s ++ String c EmptyString ++ String.concat (String c EmptyString) (s' :: l))%string.
    cbn [append]. rewrite split_app by (apply H; now left). f_equal. apply IH; [discriminate|].
    intros x I. apply H. now right.
Qed.

Lemma no_colon_contains s : ~ In ":"%char (chars s) -> contains "::" s = false.
Proof.
  induction s as [|a s IH]; cbn [contains chars]; [reflexivity|]. intros H. rewrite IH by (intros I; apply H; now right).
  rewrite orb_false_r. cbn [String.prefix]. destruct (ascii_dec ":" a) as [<-|]; [|reflexivity].
  exfalso. apply H. now left.
Qed.

Lemma lazy_contains s : contains "::" (s ++ "::lazy")%string = true.
Proof.
  induction s as [|a s IH]; [reflexivity|]. cbn [append contains]. rewrite IH. apply orb_true_r.
Qed.

Lemma lazy_split s : ~ In ":"%char (chars s) -> split_colons (s ++ "::lazy")%string = [s; "lazy"%string].
Proof.
  induction s as [|a s IH]; [reflexivity|]. cbn [append chars]. intros H.
  assert (IH' := IH (fun I => H (or_intror I))).
  assert (Ha : Ascii.eqb a ":" = false).
  { apply Ascii.eqb_neq. intros ->. apply H. now left. }
  cbn [split_colons]. destruct (s ++ "::lazy")%string as [|b r] eqn:E; [destruct s; discriminate|].
  rewrite Ha. cbn [andb]. rewrite IH'. reflexivity.
Qed.

Lemma plain_chars s c : plain s -> c = ","%char \/ c = "="%char \/ c = ":"%char -> ~ In c (chars s).
Proof. intros P H I. destruct (P c I) as (P1 & P2 & P3). destruct H as [->|[->| ->]]; congruence. Qed.

Lemma dotted_chars a b c : c <> "."%char -> ~ In c (chars a) -> ~ In c (chars b) -> ~ In c (chars (dotted a b)).
Proof.
  unfold dotted. intros Hc Ha Hb. rewrite chars_app. cbn. intros I. apply in_app_or in I as [I|[I|I]]; auto.
Qed.

Lemma parse_meta first p s : plain first -> plain p ->
  parse_item (meta_item first (p, s)) = Ok (p, dotted first p, is_lazy s).
Proof.
  intros Pf Pp. unfold parse_item, meta_item. cbn [fst snd].
  change ("=" ++ dotted first p ++ (if is_lazy s then "::lazy" else ""))%string
    with (String "=" (dotted first p ++ (if is_lazy s then "::lazy" else "")))%string.
  rewrite split_app by (apply plain_chars; auto).
  assert (De : ~ In "="%char (chars (dotted first p))) by (apply dotted_chars; [discriminate| |]; apply plain_chars; auto).
  assert (Dc : ~ In ":"%char (chars (dotted first p))) by (apply dotted_chars; [discriminate| |]; apply plain_chars; auto).
  rewrite split_none.
  2: { rewrite chars_app. intros I. apply in_app_or in I as [I|I]; [auto|]. destruct s; cbn in I; intuition discriminate. }
  destruct s; cbn [is_lazy].
  - rewrite lazy_contains, lazy_split by exact Dc. reflexivity.
  - rewrite sapp_nil. now rewrite no_colon_contains.
Qed.

Lemma meta_parsed first ps : plain first -> ps <> [] -> (forall p, In p (map fst ps) -> plain p) ->
  rmapM parse_item (split_char "," (meta_string first ps)) =
  Ok (map (fun p => (fst p, dotted first (fst p), is_lazy (snd p))) ps).
Proof.
  intros Pf N P. unfold meta_string. rewrite split_concat.
  - clear N. induction ps as [|[p s] ps IH]; cbn [map rmapM]; [reflexivity|].
    rewrite parse_meta; [|exact Pf|apply P; now left]. cbn [rbind]. rewrite IH by (intros x I; apply P; now right).
    reflexivity.
  - destruct ps; [congruence|discriminate].
  - intros x I. apply in_map_iff in I as ([p s] & <- & I). unfold meta_item. cbn [fst snd].
    assert (Pp : plain p) by (apply P, in_map_iff; exists (p, s); auto).
    rewrite !chars_app. cbn [chars app]. intros J. apply in_app_or in J as [J|[J|J]]; [|discriminate|].
    + revert J. apply plain_chars; auto.
    + apply in_app_or in J as [J|J]; [|destruct s; cbn in J; intuition discriminate].
      revert J. apply dotted_chars; [discriminate| |]; apply plain_chars; auto.
Qed.

Lemma dotted_inj a b c d : no_dot b -> no_dot d -> dotted a b = dotted c d -> a = c /\ b = d.
Proof.
  unfold dotted, no_dot. revert c. induction a as [|x a IH]; intros [|y c] Hb Hd; cbn [append]; intros E.
  - split; [reflexivity|]. now injection E.
  - exfalso. injection E as <- ->. apply Hb. rewrite chars_app. apply in_or_app. right. now left.
  - exfalso. injection E as -> <-. apply Hd. rewrite chars_app. apply in_or_app. right. now left.
  - injection E as <- E. apply IH in E as [-> ->]; auto.
Qed.

(** ** Dictionary updates *)

Definition upd {V} (d l : list (string * V)) : list (string * V) :=
  fold_left (fun d e => dict_set (fst e) (snd e) d) l d.

Lemma upd_app {V} (d l1 l2 : list (string * V)) : upd d (l1 ++ l2) = upd (upd d l1) l2.
Proof. apply fold_left_app. Qed.

Lemma upd_other {V} (l : list (string * V)) : forall d k, ~ In k (map fst l) -> assoc_str k (upd d l) = assoc_str k d.
Proof.
  unfold upd. induction l as [|[k' v] l IH]; intros d k N; cbn [fold_left]; [reflexivity|].
  cbn in N. rewrite IH by tauto. cbn. rewrite assoc_dict_set.
  destruct (String.eqb_spec k k'); [subst; tauto|reflexivity].
Qed.

Lemma upd_in {V} (l : list (string * V)) : (forall k v v', In (k, v) l -> In (k, v') l -> v = v') ->
  forall d k v, In (k, v) l -> assoc_str k (upd d l) = Some v.
Proof.
  induction l as [|[k' v'] l IH]; intros C d k v I; [contradiction|].
  change (upd d ((k', v') :: l)) with (upd (dict_set k' v' d) l).
  destruct (in_dec string_dec k (map fst l)) as [J|J].
  - apply in_map_iff in J as ([k2 v2] & E & J). cbn in E. subst k2.
    rewrite (IH (fun a b c H1 H2 => C a b c (or_intror H1) (or_intror H2)) _ _ _ J).
    f_equal. eapply C; [right; exact J|exact I].
  - rewrite upd_other by exact J. rewrite assoc_dict_set.
    destruct I as [[= -> ->]|I]; [now rewrite String.eqb_refl|]. exfalso. apply J, in_map_iff. exists (k, v). auto.
Qed.

Lemma dict_set_new {V} k (v : V) d : ~ In k (map fst d) -> dict_set k v d = d ++ [(k, v)].
Proof.
  induction d as [|[k' v'] d IH]; cbn; [reflexivity|]. intros N.
  destruct (String.eqb_spec k k'); [subst; tauto|]. rewrite IH; tauto.
Qed.

Lemma upd_new {V} (l : list (string * V)) : forall d, NoDup (map fst (d ++ l)) -> upd d l = d ++ l.
Proof.
  induction l as [|[k v] l IH]; intros d N; [now rewrite app_nil_r|].
  change (upd d ((k, v) :: l)) with (upd (dict_set k v d) l).
  rewrite map_app in N. cbn in N. pose proof (NoDup_remove_2 _ _ _ N) as Nk.
  rewrite dict_set_new by (intros I; apply Nk, in_or_app; auto). rewrite IH.
  - now rewrite <- app_assoc.
  - rewrite <- app_assoc, map_app. exact N.
Qed.

(** ** Groups of names *)

Definition names_of (l : list (string * nat)) (q : nat) : list string :=
  map fst (filter (fun e => snd e =? q) l).

Record qgroups_ok (g : list (nat * list string)) (l : list (string * nat)) : Prop := {
  qg_nodup : NoDup (map fst g);
  qg_names : forall q ns, In (q, ns) g -> ns = names_of l q /\ ns <> [];
  qg_all : forall n q, In (n, q) l -> exists ns, In (q, ns) g
}.

Lemma in_names_of l q n : In n (names_of l q) <-> In (n, q) l.
Proof.
  unfold names_of. rewrite in_map_iff. split.
  - intros ([n' q'] & <- & I). apply filter_In in I as [I E]. cbn in E. apply Nat.eqb_eq in E. now subst.
  - intros I. exists (n, q). split; [reflexivity|]. apply filter_In. split; [exact I|apply Nat.eqb_refl].
Qed.

Lemma add_name_in q n g : NoDup (map fst g) -> NoDup (map fst (add_name q n g)) /\
  (forall k, In k (map fst (add_name q n g)) <-> k = q \/ In k (map fst g)) /\
  forall k ns, In (k, ns) (add_name q n g) <->
    (k <> q /\ In (k, ns) g) \/
    (k = q /\ ((exists ns0, In (q, ns0) g /\ ns = ns0 ++ [n]) \/ (~ In q (map fst g) /\ ns = [n]))).
Proof.
  induction g as [|[k0 ns0] g IH]; intros N; cbn [add_name].
  - repeat split; cbn.
    + repeat constructor; auto.
    + intros [<-|[]]; auto.
    + intros [->|[]]; auto.
    + intros [[= <- <-]|[]]. right. split; [reflexivity|]. right. auto.
    + intros [[_ []]|[-> [(? & [] & _)|[_ ->]]]]. auto.
  - cbn [map fst] in N. inversion_clear N as [|? ? N1 N2]. destruct (IH N2) as (H1 & H2 & H3).
    destruct (Nat.eqb_spec q k0) as [->|Hq].
    + repeat split; cbn [map fst].
      * now constructor.
      * intros [<-|I]; cbn; auto.
      * intros [->|[<-|I]]; cbn; auto.
      * intros [[= <- <-]|I].
        -- right. split; [reflexivity|]. left. exists ns0. cbn. auto.
        -- left. split; [|now right]. intros ->. apply N1. now apply (in_map fst) in I.
      * intros [[Hk [[= <- <-]|I]]|[-> [(ns1 & [[= <-]|I] & ->)|[Nk _]]]]; cbn; auto; [congruence| |].
        -- exfalso. apply N1. now apply (in_map fst) in I.
        -- exfalso. apply Nk. cbn. auto.
    + repeat split; cbn [map fst].
      * constructor; [|exact H1]. rewrite H2. intros [E|I]; [congruence|auto].
      * intros [<-|I]; cbn; auto. apply H2 in I as [->|I]; auto.
      * intros [->|[<-|I]]; cbn; auto; right; apply H2; auto.
      * intros [[= <- <-]|I].
        -- left. cbn. auto.
        -- apply H3 in I as [[Hk I]|[-> [(ns1 & I & ->)|[Nk ->]]]].
           ++ left. cbn. auto.
           ++ right. split; [reflexivity|]. left. exists ns1. cbn. auto.
           ++ right. split; [reflexivity|]. right. split; [|reflexivity]. cbn. intros [E|I]; [congruence|auto].
      * intros [[Hk [[= <- <-]|I]]|[-> [(ns1 & [[= E _]|I] & ->)|[Nk ->]]]]; cbn; auto.
        -- right. apply H3. auto.
        -- congruence.
        -- right. apply H3. right. split; [reflexivity|]. left. eauto.
        -- right. apply H3. right. split; [reflexivity|]. right. split; [|reflexivity]. intros I. apply Nk. cbn. auto.
Qed.

Lemma qgroups_spec l : qgroups_ok (quantizer_groups l) l.
Proof.
  unfold quantizer_groups.
  assert (H : forall l2 l1 g, qgroups_ok g l1 ->
            qgroups_ok (fold_left (fun g '(n, q) => add_name q n g) l2 g) (l1 ++ l2)).
  { clear. induction l2 as [|[n q] l2 IH]; intros l1 g G; cbn [fold_left]; [now rewrite app_nil_r|].
    replace (l1 ++ (n, q) :: l2) with ((l1 ++ [(n, q)]) ++ l2) by now rewrite <- app_assoc.
    apply IH. destruct (add_name_in q n g (qg_nodup _ _ G)) as (A1 & A2 & A3). split.
    - exact A1.
    - assert (Ln : forall k, names_of (l1 ++ [(n, q)]) k = names_of l1 k ++ (if q =? k then [n] else [])).
      { intros k. unfold names_of. rewrite filter_app, map_app. cbn. now destruct (q =? k). }
      intros k ns I. rewrite Ln. apply A3 in I as [[Hk I]|[-> [(ns1 & I & ->)|[Nk ->]]]].
      + destruct (qg_names _ _ G _ _ I) as [E1 E2]. destruct (Nat.eqb_spec q k); [congruence|]. rewrite app_nil_r. auto.
      + destruct (qg_names _ _ G _ _ I) as [E1 E2]. rewrite Nat.eqb_refl. split; [congruence|]. now destruct ns1.
      + rewrite Nat.eqb_refl. split; [|discriminate].
        destruct (names_of l1 q) as [|x xs] eqn:E; [reflexivity|]. exfalso. apply Nk.
        assert (I : In x (names_of l1 q)) by (rewrite E; now left). apply in_names_of in I.
        destruct (qg_all _ _ G _ _ I) as (ns & I'). now apply (in_map fst) in I'.
    - intros n' q' I. assert (K : In q' (map fst (add_name q n g))).
      { apply A2. apply in_app_or in I as [I|[[= <- <-]|[]]]; [|auto].
        destruct (qg_all _ _ G _ _ I) as (ns & I'). right. now apply (in_map fst) in I'. }
      apply in_map_iff in K as ([q2 ns] & <- & K). eauto. }
  apply (H l [] []). split; cbn; [constructor|contradiction|contradiction].
Qed.

Lemma number_from_nth {A} (l : list A) : forall b i a, In (i, a) (number_from b l) <-> b <= i /\ nth_error l (i - b) = Some a.
Proof.
  induction l as [|x l IH]; intros b i a; cbn [number_from In].
  - split; [contradiction|]. intros [_ H]. destruct (i - b); discriminate.
  - rewrite IH. split.
    + intros [[= <- <-]|[L H]]; [rewrite Nat.sub_diag; auto|]. split; [lia|].
      replace (i - b) with (S (i - S b)) by lia. exact H.
    + intros [L H]. destruct (Nat.eq_dec i b) as [->|N]; [rewrite Nat.sub_diag in H; injection H as ->; auto|].
      right. split; [lia|]. replace (i - b) with (S (i - S b)) in H by lia. exact H.
Qed.

(** ** Collecting *)

Definition inits (first : string) (ps : list (string * slot)) : list (string * ten) :=
  flat_map (fun p => match snd p with Uninit _ => [] | Init t => [(dotted first (fst p), t)] end) ps.

Definition first_of (ns : list string) : string := match min_name ns with Ok a => a | Err _ => EmptyString end.

Lemma inits_fold first ps : forall st,
  fold_left (fun st '(k, s) => match s with Uninit _ => st | Init t => dict_set (dotted first k) t st end) ps st
  = upd st (inits first ps).
Proof.
  induction ps as [|[p s] ps IH]; intros st; cbn [fold_left]; [reflexivity|].
  rewrite IH. destruct s; reflexivity.
Qed.

Lemma meta_fold (v : string) ns : forall m, fold_left (fun m n => dict_set n v m) ns m = upd m (map (fun n => (n, v)) ns).
Proof. induction ns as [|n ns IH]; intros m; cbn [fold_left]; [reflexivity|]. rewrite IH. reflexivity. Qed.

Section Collect.
  Context {C : Type} (store : nat -> qobj C) (allow : bool).

  Definition state_entries (gs : list (nat * list string)) : list (string * ten) :=
    flat_map (fun g => inits (first_of (snd g)) (q_params (store (fst g)))) gs.
  Definition meta_entries (gs : list (nat * list string)) : list (string * string) :=
    flat_map (fun g => map (fun n => (n, meta_string (first_of (snd g)) (q_params (store (fst g))))) (snd g)) gs.

  Lemma collect_fold gs : (forall g, In g gs -> snd g <> [] /\ (allow = true \/ lazy_free (store (fst g)))) ->
    forall st m, fold_left (collect_step store allow) gs (Ok (st, m)) =
      Ok (upd st (state_entries gs), upd m (meta_entries gs)).
  Proof.
    induction gs as [|[q ns] gs IH]; intros H st m; [reflexivity|].
    cbn [fold_left state_entries meta_entries flat_map].
    destruct (H (q, ns) (or_introl eq_refl)) as [Hn Hl]. cbn [fst snd] in Hn, Hl.
    unfold collect_step at 2. cbn [rbind fst snd].
    destruct (min_name_ok ns Hn) as (a & Ea). rewrite Ea. cbn [rbind].
    assert (L : existsb (fun p => is_lazy (snd p)) (q_params (store q)) && negb allow = false).
    { destruct Hl as [->|Hl]; [apply andb_false_r|]. apply andb_false_iff. left.
      destruct (existsb _ _) eqn:E; [|reflexivity]. apply existsb_exists in E as ([p s] & I & E).
      destruct (Hl p s I) as (t & ->). discriminate. }
    rewrite L, inits_fold, meta_fold, IH by (intros g I; apply H; now right).
    rewrite !upd_app. unfold first_of at 1 3. cbn [snd fst]. rewrite Ea. reflexivity.
  Qed.

  Lemma collect_err gs x : fold_left (collect_step store allow) gs (Err x) = Err x.
  Proof. induction gs; [reflexivity|exact IHgs]. Qed.

  Lemma collect_lazy gs : allow = false -> forall st m,
    (forall g, In g gs -> snd g <> []) -> (exists g, In g gs /\ ~ lazy_free (store (fst g))) ->
    fold_left (collect_step store allow) gs (Ok (st, m)) = Err ValueError.
  Proof.
    intros A. induction gs as [|[q ns] gs IH]; intros st m Hn (g & I & L); [contradiction|].
    cbn [fold_left]. unfold collect_step at 2. cbn [rbind fst snd].
    destruct (min_name_ok ns (Hn (q, ns) (or_introl eq_refl))) as (a & Ea). rewrite Ea. cbn [rbind].
    destruct (existsb (fun p => is_lazy (snd p)) (q_params (store q))) eqn:E.
    - replace (negb allow) with true by now rewrite A. cbn [andb]. apply collect_err.
    - cbn [andb]. apply IH; [intros g' I'; apply Hn; now right|].
      destruct I as [<-|I]; [|eauto]. exfalso. apply L. intros p s I. destruct s as [d|t]; [|eauto].
      assert (E' : existsb (fun p => is_lazy (snd p)) (q_params (store q)) = true)
        by (apply existsb_exists; exists (p, Uninit d); auto). congruence.
  Qed.
End Collect.

(** ** Loading one quantizer *)

Definition init_params (ps : list (string * slot)) : list (string * ten) :=
  flat_map (fun p => match snd p with Uninit _ => [] | Init t => [(fst p, t)] end) ps.

Lemma init_params_in ps p t : In (p, t) (init_params ps) <-> In (p, Init t) ps.
Proof.
  unfold init_params. rewrite in_flat_map. split.
  - intros ([p' s] & I & J). destruct s; cbn in J; [contradiction|]. destruct J as [[= -> ->]|[]]. exact I.
  - intros I. exists (p, Init t). split; [exact I|]. now left.
Qed.

Lemma init_params_keys ps : map fst (init_params ps) = map fst (filter (fun p => negb (is_lazy (snd p))) ps).
Proof. induction ps as [|[p s] ps IH]; [reflexivity|]. cbn. destruct s; cbn; now rewrite <- IH. Qed.

Lemma nodup_filter_keys {V} f (l : list (string * V)) : NoDup (map fst l) -> NoDup (map fst (filter f l)).
Proof.
  induction l as [|[k v] l IH]; [auto|]. cbn. intros N. inversion_clear N as [|? ? N1 N2].
  destruct (f (k, v)); cbn; [|auto]. constructor; [|auto]. intros I. apply N1.
  apply in_map_iff in I as (e & E & I). apply filter_In in I as [I _]. apply in_map_iff. eauto.
Qed.

Lemma slots_loaded cast ps0 ps : keeps cast -> NoDup (map fst ps) ->
  Forall2 (fun a b => fst a = fst b /\ takes (snd a) (snd b)) ps0 ps ->
  rmapM (load_slot cast (init_params ps)) ps0 = Ok ps.
Proof.
  intros K N F.
  assert (H : forall a b, In b ps -> fst a = fst b /\ takes (snd a) (snd b) -> load_slot cast (init_params ps) a = Ok b).
  { intros [p s] [p' s'] I [E T]. cbn in E, T. subst p'. unfold load_slot. cbn [fst snd].
    assert (Ni : NoDup (map fst (init_params ps))) by (rewrite init_params_keys; now apply nodup_filter_keys).
    destruct s' as [d'|t].
    - replace (assoc_str p (init_params ps)) with (@None ten).
      + destruct s as [d|t0]; cbn in T; [now subst|contradiction].
      + symmetry. apply assoc_none. intros J. apply in_map_iff in J as ([p2 t2] & E & J). cbn in E. subst p2.
        apply init_params_in in J. assert (Some (Uninit d') = Some (Init t2)); [|discriminate].
        rewrite <- (proj1 (assoc_in p (Uninit d') ps N) I). exact (proj1 (assoc_in p (Init t2) ps N) J).
    - rewrite (proj1 (assoc_in p t _ Ni)) by now apply init_params_in.
      destruct s as [d|t0]; cbn in T.
      + unfold copy_into. rewrite T. rewrite (K d). subst d. now destruct t.
      + destruct T as [T1 T2]. rewrite T2, size_eqb_refl. unfold copy_into. rewrite <- T1, (K (t_dtype t)). now destruct t. }
  assert (G : forall l, incl l ps -> forall l0, Forall2 (fun a b => fst a = fst b /\ takes (snd a) (snd b)) l0 l ->
              rmapM (load_slot cast (init_params ps)) l0 = Ok l).
  { intros l I l0 F0. induction F0 as [|a b l0 l Hab F0 IH]; cbn [rmapM]; [reflexivity|].
    rewrite (H a b (I b (or_introl eq_refl)) Hab). cbn [rbind]. rewrite IH by (intros x Hx; apply I; now right).
    reflexivity. }
  apply G; [apply incl_refl|exact F].
Qed.

Lemma takes_self ps : Forall2 (fun a b : string * slot => fst a = fst b /\ takes (snd a) (snd b)) ps ps.
Proof. induction ps as [|[p [d|t]] ps IH]; constructor; cbn; auto. Qed.

Lemma rmapM_map_ok {A B D} (f : B -> result D) (g : A -> B) (h : A -> D) l :
  (forall a, In a l -> f (g a) = Ok (h a)) -> rmapM f (map g l) = Ok (map h l).
Proof.
  induction l as [|a l IH]; intros H; cbn [map rmapM]; [reflexivity|].
  rewrite H by now left. cbn [rbind]. rewrite IH by (intros x I; apply H; now right). reflexivity.
Qed.

Lemma filter_map_comm {A B} (f : B -> bool) (g : A -> B) l : filter f (map g l) = map g (filter (fun a => f (g a)) l).
Proof. induction l as [|a l IH]; cbn; [reflexivity|]. destruct (f (g a)); cbn; now rewrite IH. Qed.

Lemma load_one {C} cast (f : saved C) allow objs n i first ps0 (q : qobj C) :
  keeps cast -> plain first -> describable q -> (allow = true \/ lazy_free q) ->
  assoc_str n (f_meta f) = Some (meta_string first (q_params q)) ->
  (forall p t, In (p, Init t) (q_params q) -> assoc_str (dotted first p) (f_state f) = Some t) ->
  nth_error objs i = Some ps0 ->
  Forall2 (fun a b => fst a = fst b /\ takes (snd a) (snd b)) ps0 (q_params q) ->
  load_step cast f allow objs (n, i) = Ok (set_nth objs i (q_params q)).
Proof.
  intros K Pf (Q1 & Q2 & Q3) L Hm Hs Ho F. unfold load_step. cbn [fst snd].
  unfold get_item at 1. rewrite Hm. cbn [rbind].
  rewrite meta_parsed by (auto; intros p I; apply Q3, I). cbn [rbind].
  rewrite !filter_map_comm, map_map. cbn [fst snd].
  set (ps := q_params q) in *.
  assert (Ek : fold_left (fun (d : list (string * string)) (i0 : string * string * bool) => dict_set (fst (fst i0)) (snd (fst i0)) d)
            (map (fun p => (fst p, dotted first (fst p), is_lazy (snd p))) (filter (fun a => negb (is_lazy (snd a))) ps)) []
          = map (fun p => (fst p, dotted first (fst p))) (filter (fun a => negb (is_lazy (snd a))) ps)).
  { rewrite <- (app_nil_l (map (fun p : string * slot => (fst p, dotted first (fst p))) _)).
    rewrite <- upd_new.
    - unfold upd. generalize (filter (fun a : string * slot => negb (is_lazy (snd a))) ps). intros l.
      generalize (@nil (string * string)). induction l as [|a l IH]; intros d; cbn [map fold_left]; [reflexivity|]. apply IH.
    - cbn [app]. rewrite map_map. cbn [fst]. now apply nodup_filter_keys. }
  rewrite Ek. clear Ek.
  assert (Es : rmapM (fun e : string * string => let? t := get_item (f_state f) (snd e) in Ok (fst e, t))
            (map (fun p => (fst p, dotted first (fst p))) (filter (fun a => negb (is_lazy (snd a))) ps)) = Ok (init_params ps)).
  { assert (Hs' : forall p t, In (p, Init t) ps -> assoc_str (dotted first p) (f_state f) = Some t) by exact Hs.
    clearbody ps. clear - Hs'. induction ps as [|[p s] ps IH]; [reflexivity|]. cbn. destruct s as [d|t]; cbn.
    - apply IH. intros p' t I. apply Hs'. now right.
    - unfold get_item at 1. rewrite (Hs' p t (or_introl eq_refl)). cbn [rbind].
      rewrite IH by (intros p' t' I; apply Hs'; now right). reflexivity. }
  rewrite Es. cbn [rbind]. rewrite Ho. unfold load_state_dict.
  rewrite (slots_loaded cast ps0 ps K Q2 F). cbn [rbind].
  assert (N0 : map fst ps0 = map fst ps).
  { clear - F. induction F as [|a b l0 l [E _] F IH]; cbn; congruence. }
  assert (El : (match map (fun x : string * slot => fst x) (filter (fun a => is_lazy (snd a)) ps) with
                | _ :: _ => if allow then Ok tt else Err ValueError | [] => Ok tt end) = Ok tt).
  { destruct L as [->|L]; [now destruct (map (fun x : string * slot => fst x) (filter (fun a => is_lazy (snd a)) ps))|].
    replace (filter (fun a => is_lazy (snd a)) ps) with (@nil (string * slot)); [reflexivity|].
    symmetry. apply filter_nil. intros [p s] I. destruct (L p s I) as (t & ->). reflexivity. }
  change (fun x : string * slot => fst (fst (fst x, dotted first (fst x), is_lazy (snd x)))) with (fun x : string * slot => fst x).
  rewrite El. cbn [rbind].
  rewrite N0.
  assert (E1 : filter (fun k => negb (mem_str k (map (fun x : string * slot => fst x) (filter (fun a => is_lazy (snd a)) ps))))
            (filter (fun k => negb (mem_str k (map fst (init_params ps)))) (map fst ps)) = []).
  { apply filter_nil. intros k I. apply filter_In in I as [I J]. apply negb_true_iff, mem_false in J.
    apply negb_false_iff, mem_spec. apply in_map_iff in I as ([p s] & <- & I). cbn [fst] in *.
    apply in_map_iff. exists (p, s). split; [reflexivity|]. apply filter_In. split; [exact I|].
    destruct s as [d|t]; [reflexivity|]. exfalso. apply J, in_map_iff. exists (p, t). split; [reflexivity|].
    now apply init_params_in. }
  assert (E2 : filter (fun k => negb (mem_str k (map fst ps))) (map fst (init_params ps)) = []).
  { apply filter_nil. intros k I. apply negb_false_iff, mem_spec. apply in_map_iff in I as ([p t] & <- & I).
    apply init_params_in in I. apply in_map_iff. exists (p, Init t). auto. }
  rewrite E1, E2. reflexivity.
Qed.

Lemma set_nth_spec {A} (l : list A) i a : i < length l ->
  length (set_nth l i a) = length l /\ nth_error (set_nth l i a) i = Some a /\
  forall j, j <> i -> nth_error (set_nth l i a) j = nth_error l j.
Proof.
  revert i. induction l as [|x l IH]; intros [|i] H; cbn in H; try lia.
  - repeat split. intros [|j] Hj; [congruence|reflexivity].
  - destruct (IH i ltac:(lia)) as (A1 & A2 & A3). unfold set_nth in *. repeat split; cbn in *.
    + now rewrite A1.
    + exact A2.
    + intros [|j] Hj; [reflexivity|]. cbn. apply A3. congruence.
Qed.

(** The loading loop.  [qs]: the saved objects, one per rebuilt object. *)
Lemma load_all {C} cast (f : saved C) allow (rebuild : C -> list (string * slot)) (qs : list (qobj C))
  (firsts : nat -> string) : keeps cast ->
  (forall i q, nth_error qs i = Some q ->
    plain (firsts i) /\ describable q /\ (allow = true \/ lazy_free q) /\
    forall p t, In (p, Init t) (q_params q) -> assoc_str (dotted (firsts i) p) (f_state f) = Some t) ->
  forall l objs,
  (forall n i, In (n, i) l -> exists q, nth_error qs i = Some q /\ assoc_str n (f_meta f) = Some (meta_string (firsts i) (q_params q))) ->
  Forall2 (fun ps0 q => Forall2 (fun a b => fst a = fst b /\ takes (snd a) (snd b)) ps0 (q_params q)) objs qs ->
  exists objs', fold_left (fun acc e => let? o := acc in load_step cast f allow o e) l (Ok objs) = Ok objs' /\
    length objs' = length objs /\
    forall i q, nth_error qs i = Some q ->
      ((exists n, In (n, i) l) \/ nth_error objs i = Some (q_params q)) -> nth_error objs' i = Some (q_params q).
Proof.
  intros K HQ. induction l as [|[n i] l IH]; intros objs HL F.
  - exists objs. split; [reflexivity|]. split; [reflexivity|]. intros i q Hq [(n & [])|H]; exact H.
  - destruct (HL n i (or_introl eq_refl)) as (q & Hq & Hm).
    destruct (HQ i q Hq) as (H1 & H2 & H3 & H4).
    assert (Li : i < length objs).
    { apply Forall2_length in F. rewrite F. apply nth_error_Some. congruence. }
    destruct (nth_error_lt_some objs i Li) as (ps0 & Ho).
    assert (F0 : Forall2 (fun a b => fst a = fst b /\ takes (snd a) (snd b)) ps0 (q_params q)).
    { clear - F Ho Hq. revert i Ho Hq. induction F as [|a b l0 l Hab F IH]; intros [|i] Ho Hq; cbn in *; try discriminate.
      - now injection Ho as <-; injection Hq as <-.
      - eauto. }
    cbn [fold_left]. cbn [rbind].
    rewrite (load_one cast f allow objs n i (firsts i) ps0 q K H1 H2 H3 Hm H4 Ho F0).
    destruct (set_nth_spec objs i (q_params q) Li) as (S1 & S2 & S3).
    destruct (IH (set_nth objs i (q_params q))) as (objs' & E & El & G).
    + intros n' i' I. apply HL. now right.
    + clear - F Li Hq S1 S2 S3.
      assert (G : forall (l1 : list (list (string * slot))) (l2 : list (qobj C)), length l1 = length l2 ->
                (forall j a b, nth_error l1 j = Some a -> nth_error l2 j = Some b ->
                   Forall2 (fun a b => fst a = fst b /\ takes (snd a) (snd b)) a (q_params b)) ->
                Forall2 (fun ps0 q => Forall2 (fun a b => fst a = fst b /\ takes (snd a) (snd b)) ps0 (q_params q)) l1 l2).
      { clear. induction l1 as [|a l1 IH]; intros [|b l2] L H; try discriminate; constructor.
        - apply (H 0 a b); reflexivity.
        - apply IH; [now injection L|]. intros j x y Hx Hy. apply (H (S j) x y); assumption. }
      apply G; [rewrite S1; now apply Forall2_length in F|].
      intros j a b Ha Hb. destruct (Nat.eq_dec j i) as [->|Nj].
      * assert (a = q_params q) by congruence. assert (b = q) by congruence. subst. apply takes_self.
      * rewrite S3 in Ha by exact Nj. clear - F Ha Hb. revert j Ha Hb.
        induction F as [|x y l0 l Hxy F IH]; intros [|j] Ha Hb; cbn in *; try discriminate.
        -- injection Ha as <-. now injection Hb as <-.
        -- eauto.
    + exists objs'. split; [exact E|]. split; [congruence|]. intros j q' Hq' H.
      apply G; [exact Hq'|]. destruct H as [(n' & [[= -> ->]|I])|H].
      * right. congruence.
      * left. eauto.
      * right. destruct (Nat.eq_dec j i) as [->|Nj]; [congruence|]. now rewrite S3.
Qed.

(** ** Attaching *)

Lemma cell_eqb_spec a b : cell_eqb a b = true <-> a = b.
Proof.
  unfold cell_eqb. destruct a as [a1 a2], b as [b1 b2]. cbn. rewrite andb_true_iff, Nat.eqb_eq, String.eqb_eq.
  split; [intros [-> ->]; reflexivity|intros [= -> ->]; auto].
Qed.

Lemma cell_eqb_false a b : cell_eqb a b = false <-> a <> b.
Proof. rewrite <- cell_eqb_spec. destruct (cell_eqb a b); split; congruence. Qed.
