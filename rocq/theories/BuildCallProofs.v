(** Calling graphs. *)
From Coq Require Import String Ascii Permutation Relations.
From Verif Require Import Prelude GraphModel GraphSpec GraphProofs EngineModel EngineSpec EngineOptProofs EngineTopProofs CoarseModel CoarseSpec CoarseValueProofs CoarseBaseProofs BuildModel BuildSpec BuildProofs.
Local Open Scope nat_scope.
Local Open Scope list_scope.

(** ** Without the trace *)
Section Untraced.
  Context {X U : Type} (s : semantics X U) (b : bool).
  Lemma untraced_batches pl c m bd : forall n i u tr, exists tr', call_batches (traced b s) pl (u, tr) c m bd i n = (fst (call_batches s pl u c m bd i n), (snd (call_batches s pl u c m bd i n), tr')).
  Proof.
    induction n as [|n IH]; intros i u tr; cbn [call_batches]; [cbn; eauto|]. destruct (batch bd i) as [[a k]|e]; [|cbn; eauto]. cbn [traced call fst snd]. destruct (call s pl u c m a k) as [[v|e] u'] eqn:E; [|cbn; eauto].
    destruct (IH (S i) u' (if b then tr ++ [Called c m a k] else tr)) as (tr' & ->). destruct (call_batches s pl u' c m bd (S i) n) as [r u'']. cbn. eauto.
  Qed.
  Lemma untraced_context pl u tr c m args kwargs g : exists tr', call_context (traced b s) pl (u, tr) c m args kwargs g = (fst (call_context s pl u c m args kwargs g), (snd (call_context s pl u c m args kwargs g), tr')).
  Proof.
    unfold call_context. change (gather (traced b s) g c args kwargs) with (gather s g c args kwargs). destruct (gather s g c args kwargs) as [bd|e]; [|cbn; eauto]. destruct args as [|a args]; [|apply untraced_batches]. destruct kwargs as [|k kwargs]; [|apply untraced_batches].
    cbn [traced call fst snd]. destruct (call s pl u c m [] []) as [r u']. cbn. eauto.
  Qed.
  Lemma untraced_contexts pl m args kwargs g : forall cs u tr, exists tr', call_contexts (traced b s) pl (u, tr) cs m args kwargs g = (fst (call_contexts s pl u cs m args kwargs g), (snd (call_contexts s pl u cs m args kwargs g), tr')).
  Proof.
    induction cs as [|c cs IH]; intros u tr; cbn [call_contexts]; [cbn; eauto|]. destruct (untraced_context pl u tr c m args kwargs g) as (tr1 & ->). destruct (call_context s pl u c m args kwargs g) as [[l|e] u']; cbn [fst snd]; [|eauto].
    destruct (IH u' tr1) as (tr2 & ->). destruct (call_contexts s pl u' cs m args kwargs g) as [r u'']. cbn. eauto.
  Qed.
  Lemma untraced_exec i pl u tr g : exists tr', exec (traced b s) i (mkWorld pl (u, tr)) g = let '(w, r) := exec s i (mkWorld pl u) g in (mkWorld (w_place w) (w_user w, tr'), r).
  Proof.
    destruct i; try (eexists; reflexivity).
    - cbn [exec w_place w_user]. destruct (untraced_contexts pl m args kwargs g cs u tr) as (tr' & ->). destruct (call_contexts s pl u cs m args kwargs g) as [r u']. cbn. eauto.
    - cbn [exec w_place w_user]. change (rmapM (fun c => gather (traced b s) g c args kwargs) (d_contexts d)) with (rmapM (fun c => gather s g c args kwargs) (d_contexts d)). destruct (rmapM _ _) as [bs|e]; [|cbn; eauto]. cbn [traced optimize fst snd]. destruct (optimize s pl u (d_fn d) m bs) as [r u']. cbn. eauto.
  Qed.
  Lemma untraced_instructions : forall is pl u tr g, exists tr', run_instructions (traced b s) is (mkWorld pl (u, tr)) g = let '(w, r) := run_instructions s is (mkWorld pl u) g in (mkWorld (w_place w) (w_user w, tr'), r).
  Proof.
    induction is as [|i is IH]; intros pl u tr g; cbn [run_instructions]; [cbn; eauto|]. destruct (untraced_exec i pl u tr g) as (tr1 & ->). destruct (exec s i (mkWorld pl u) g) as [[pl' u'] [[g' [o|]]|e]]; cbn [w_place w_user]; [eauto| |eauto]. apply IH.
  Qed.
  Lemma untraced_run order p args kwargs pl u tr : exists tr', run (traced b s) order p args kwargs (mkWorld pl (u, tr)) = let '(w, r) := run s order p args kwargs (mkWorld pl u) in (mkWorld (w_place w) (w_user w, tr'), r).
  Proof.
    unfold run. destruct (prepare_input_register _ _ _ _) as [g|e]; [|cbn; eauto]. apply untraced_instructions.
  Qed.
End Untraced.

(** ** Batch by batch *)
Section Batches.
  Context {X U : Type} (s : semantics X U).
  Variable f : nat -> nat -> list (val X) -> list (string * val X) -> result (val X).

  Lemma value_inputs g (inp inp' : nat -> val X -> Prop) c r v : (forall i v, inp i v -> inp' i v) -> value s f g inp c r v -> value s f g inp' c r v.
  Proof.
    intros H. revert r v. refine (value_rect' s f g inp c (value s f g inp' c) _ _ _ _); [intros i n v Hi|intros i|intros r a v w _ IH E|intros x nm xs ys v Hx _ Ia _ Ik E].
    - constructor. now apply H.
    - constructor.
    - econstructor; eassumption.
    - econstructor; eassumption.
  Qed.
  Lemma element_fun {A} (d : list A) i a a' : element d i a -> element d i a' -> a = a'.
  Proof. intros [H|H] [H'|H']; try congruence; subst; [destruct i as [|[|]]; cbn in H; congruence|destruct i as [|[|]]; cbn in H'; congruence]. Qed.

  Variable N : nat.
  Hypothesis agree : attributes_agree s.
  Definition fits (d : list (val X)) : Prop := length d = N \/ length d = 1.
  Definition at_batch (inp : nat -> list (val X) -> Prop) (i : nat) (id : nat) (v : val X) : Prop := exists d, inp id d /\ element d i v.

  Lemma means_batch g (inp : nat -> list (val X) -> Prop) c : (forall id d, inp id d -> fits d) -> forall r d, means s f g inp c r d -> fits d /\ forall i v, i < N -> element d i v -> value s f g (at_batch inp i) c r v.
  Proof.
    intros Hi. fix IH 3. intros r d H. destruct H as [i n d H|i|r a d d' H H'|x nm a k outs Hx Fa Fk Ap].
    - split; [exact (Hi i d H)|]. intros j v _ E. constructor. now exists d.
    - split; [now right|]. intros j v _ E. assert (v = constv s i) as ->; [|constructor]. apply (element_fun [constv s i] j); [exact E|now right].
    - destruct (IH _ _ H) as [F V]. clear IH H.
      assert (Q : length d' = length d /\ forall j v', nth_error d' j = Some v' -> exists v, nth_error d j = Some v /\ attr_value s a v v').
      { destruct H' as [F'|(k & -> & _ & F')].
        - split; [symmetry; exact (Forall2_len _ _ _ F')|]. intros j v' Ev. destruct (Forall2_nth_r _ _ _ F' j v' Ev) as (v & E1 & E2). exists v. split; [exact E1|now constructor].
        - split; [symmetry; exact (Forall2_len _ _ _ F')|]. intros j v' Ev. destruct (Forall2_nth_r _ _ _ F' j v' Ev) as (v & E1 & E2). exists v. split; [exact E1|]. assert (A := agree v k). destruct (item s v (AStr k)) as [w|e] eqn:Ei.
          + rewrite (A _ E2). now constructor.
          + apply av_attr; [|exact E2]. rewrite Ei. destruct A as [->| ->]; auto. }
      destruct Q as [L Q]. split; [unfold fits in *; now rewrite L|]. intros j v' Lj [E|E].
      + destruct (Q j v' E) as (v & E1 & E2). econstructor; [|exact E2]. apply V; [exact Lj|now left].
      + subst d'. destruct (Q 0 v' eq_refl) as (v & E1 & E2). econstructor; [|exact E2]. apply V; [exact Lj|]. right. destruct d as [|y [|]]; try discriminate. cbn in E1. now injection E1 as ->.
    - assert (A : forall l ds, Forall2 (means s f g inp c) l ds -> Forall2 (fun r d => fits d /\ forall i v, i < N -> element d i v -> value s f g (at_batch inp i) c r v) l ds).
      { fix GO 3. intros l ds F. destruct F as [|r d l ds h F]; constructor; [exact (IH _ _ h)|exact (GO _ _ F)]. }
      apply A in Fa. apply A in Fk. clear IH A.
      assert (G : forall l ds j xs, j < N -> Forall2 (fun r d => fits d /\ forall i v, i < N -> element d i v -> value s f g (at_batch inp i) c r v) l ds -> Forall2 (fun d x => element d j x) ds xs -> Forall2 (value s f g (at_batch inp j) c) l xs).
      { clear. intros l ds j xs Lj F. revert xs. induction F as [|r d l ds [_ h] F IH]; intros xs F'; inversion F' as [|? y ? ys E F2]; subst; constructor; [apply h; assumption|now apply IH]. }
      inversion Ap as [v E Ea Ek|a0 k0 M outs0 CL L Hb Ea Ek]; subst.
      + split; [now right|]. inversion Fa as [E1|]; subst. inversion Fk as [E2|]; subst. intros j v' Lj El. assert (v' = v) as -> by (apply (element_fun [v] j); [exact El|now right]).
        apply (v_node s f g _ c x nm [] [] v Hx).
        * rewrite <- E1. constructor.
        * rewrite <- E2. constructor.
        * destruct (n_kwargs x); [exact E|discriminate].
      + assert (Fits : forall d, In d (a ++ k) -> fits d). { intros d Hd. apply in_app_iff in Hd. destruct Hd as [Hd|Hd]; [destruct (Forall2_In_r _ _ _ _ Fa Hd) as (r & _ & h & _)|destruct (Forall2_In_r _ _ _ _ Fk Hd) as (r & _ & h & _)]; exact h. }
        destruct CL as [C1 (d0 & Hd0 & L0)]. assert (Fo : fits outs) by (unfold fits; rewrite <- L0; apply Fits; exact Hd0). split; [exact Fo|].
        intros j v Lj Ev.
        assert (Q : exists xs ys, Forall2 (fun d x => element d j x) a xs /\ Forall2 (fun d y => element d j y) k ys /\ f c (n_target x) xs (combine (map fst (n_kwargs x)) ys) = Ok v).
        { destruct Ev as [Ev|Ev]; [exact (Hb j v Ev)|]. subst outs. destruct (Hb 0 v eq_refl) as (xs & ys & H1 & H2 & H3). exists xs, ys.
          assert (W : forall ds zs, (forall d, In d ds -> length d = 1) -> Forall2 (fun d x => element d 0 x) ds zs -> Forall2 (fun (d : list (val X)) x => element d j x) ds zs).
          { clear. intros ds zs Hl F. induction F as [|d z ds zs h F IH]; constructor; [|apply IH; intros y Hy; apply Hl; now right]. assert (K := Hl d (or_introl eq_refl)). destruct d as [|y [|]]; try discriminate. right. destruct h as [h|h]; [cbn in h; now injection h as ->|exact h]. }
          assert (One : forall d, In d (a ++ k) -> length d = 1) by (intros d Hd; destruct (C1 d Hd) as [K|K]; [exact K|exact K]).
          split; [apply W; [intros d Hd; apply One; apply in_app_iff; now left|exact H1]|]. split; [apply W; [intros d Hd; apply One; apply in_app_iff; now right|exact H2]|exact H3]. }
        destruct Q as (xs & ys & H1 & H2 & H3). econstructor; [exact Hx|exact (G _ _ _ _ Lj Fa H1)|exact (G _ _ _ _ Lj Fk H2)|exact H3].
  Qed.
  (** what depends on an input has as many batches as the inputs *)
  Lemma reads_length g (inp : nat -> list (val X) -> Prop) c : graph_ok g -> (forall id d, inp id d -> length d = N) -> forall r, reads_input g r -> forall d, means s f g inp c r d -> length d = N.
  Proof.
    intros G Hi. assert (Hf : forall id d, inp id d -> fits d) by (intros id d H; left; exact (Hi id d H)). intros r R. induction R as [i n|r a R IH|x nm r Hx Hr R IH]; intros d M.
    - inversion M; subst. eauto.
    - inversion M as [| |? ? d0 ? M0 A|]; subst. rewrite <- (IH d0 M0). destruct A as [F|(k & _ & _ & F)]; symmetry; exact (Forall2_len _ _ _ F).
    - destruct (means_batch g inp c Hf _ _ M) as [[F|F] _]; [exact F|]. inversion M as [| | |y nm' a k outs Hy Fa Fk Ap Ey]; subst. assert (y = x) as -> by (apply (node_unique g); assumption).
      assert (K : exists dr, In dr (a ++ k) /\ length dr = N).
      { unfold call_refs in Hr. apply in_app_iff in Hr. destruct Hr as [Hr|Hr]; [destruct (Forall2_In_l _ _ _ _ Fa Hr) as (dr & Hd & Md)|destruct (Forall2_In_l _ _ _ _ Fk Hr) as (dr & Hd & Md)]; exists dr; (split; [apply in_app_iff; auto|exact (IH dr Md)]). }
      destruct K as (dr & Hdr & Ldr). inversion Ap as [v E Ea Ek|a0 k0 M0 outs0 [C1 _] L _ Ea Ek]; subst; [destruct Hdr|]. destruct (C1 dr Hdr); congruence.
  Qed.
End Batches.

(** ** Recognizing batches *)
Section Sanitize.
  Context {X U : Type} (s : semantics X U).
  Notation V := (val X).
  Variable text : string -> V.
  Variable iterate : X -> list (string * V) -> option (list V).

  Lemma iterable_elements a l : iterable iterate a l -> elements text iterate a = Some l.
  Proof. intros H. destruct H; cbn; auto. Qed.
  Lemma columns_ok {K} (get : V -> K -> result V) bs rows : forall keys, (forall j n k, nth_error keys j = Some (n, k) -> Forall2 (fun b row => exists v, nth_error row j = Some v /\ get b k = Ok v) bs rows) ->
    exists kw, columns get bs keys = Ok kw /\ map fst kw = map fst keys /\ forall j n a, nth_error kw j = Some (n, a) -> exists l, a = GValue (Lst l) /\ Forall2 (fun row v => nth_error row j = Some v) rows l.
  Proof.
    assert (G : forall keys o, (forall j n k, nth_error keys j = Some (n, k) -> Forall2 (fun b row => exists v, nth_error row (o + j) = Some v /\ get b k = Ok v) bs rows) ->
      exists kw, columns get bs keys = Ok kw /\ map fst kw = map fst keys /\ forall j n a, nth_error kw j = Some (n, a) -> exists l, a = GValue (Lst l) /\ Forall2 (fun row v => nth_error row (o + j) = Some v) rows l).
    { induction keys as [|[n k] keys IH]; intros o H; unfold columns in *; cbn [rmapM]; [exists []; split; [reflexivity|split; [reflexivity|]]; intros [|] ? ? E; discriminate|].
      assert (C : exists l, rmapM (fun b => get b k) bs = Ok l /\ Forall2 (fun row v => nth_error row (o + 0) = Some v) rows l).
      { assert (F := H 0 n k eq_refl). clear -F. induction F as [|b row bs rows (v & E1 & E2) F (l & E & Fl)]; cbn [rmapM]; [exists []; split; [reflexivity|constructor]|]. rewrite E2. cbn [rbind]. rewrite E. cbn [rbind]. exists (v :: l). split; [reflexivity|now constructor]. }
      destruct C as (l & El & Fl). cbn [fst snd]. rewrite El. cbn [rbind]. destruct (IH (S o)) as (kw & Ek & Em & Hk). { intros j n' k' E. replace (S o + j) with (o + S j) by lia. exact (H (S j) n' k' E). }
      rewrite Ek. cbn [rbind]. exists ((n, GValue (Lst l)) :: kw). split; [reflexivity|]. split; [cbn; now f_equal|]. intros [|j] n' a E; [injection E as <- <-; eauto|]. replace (o + S j) with (S o + j) by lia. exact (Hk j n' a E). }
    intros keys H. exact (G keys 0 H).
  Qed.
  Lemma has_all_ok v names vs : Forall2 (fun n w => getattr s v n = Ok w) names vs -> has_all s v names = Ok true.
  Proof. induction 1 as [|n w names vs E F IH]; cbn; [reflexivity|]. now rewrite E. Qed.

  Hypothesis plain : plain_items s.
  (** every input gets its column *)
  Lemma sanitize_batches names a first bs row0 rows : iterable iterate a (first :: bs) -> Forall2 (batch_of s names) (first :: bs) (row0 :: rows) -> (forall b, In b bs -> same_shape first b) ->
    exists kw, sanitize s text iterate names [a] [] = Ok ([], kw) /\ map fst kw = names /\
      forall j n x, nth_error kw j = Some (n, x) -> exists l, x = GValue (Lst l) /\ Forall2 (fun row v => nth_error row j = Some v) (row0 :: rows) l.
  Proof.
    intros Hi F Hs. unfold sanitize. rewrite (iterable_elements _ _ Hi). assert (Hf : batch_of s names first row0) by now inversion F. assert (Shape : forall b, In b (first :: bs) -> same_shape first b \/ b = first) by (intros b [<-|Hb]; [now right|left; now apply Hs]).
    assert (Nth : forall j n k, nth_error (map (fun n : string => (n, n)) names) j = Some (n, k) -> n = k /\ nth_error names j = Some n).
    { intros j n k E. rewrite nth_error_map in E. destruct (nth_error names j) eqn:En; [|discriminate]. cbn in E. injection E as <- <-. auto. }
    assert (Fst : map fst (map (fun n : string => (n, n)) names) = names) by (rewrite map_map; apply map_id).
    assert (Fst' : map fst (combine names (seq 0 (length names))) = names). { generalize 0. clear. induction names as [|n names IH]; intros o; cbn; [reflexivity|]. now rewrite IH. }
    assert (Nth' : forall j n k, nth_error (combine names (seq 0 (length names))) j = Some (n, k) -> k = j /\ j < length names).
    { assert (K : forall o j n k, nth_error (combine names (seq o (length names))) j = Some (n, k) -> k = o + j /\ j < length names).
      { clear. induction names as [|m names IH]; intros o [|j] n k E; cbn in E; try discriminate; [injection E as _ <-; cbn; lia|]. apply IH in E. cbn. lia. }
      intros j n k E. exact (K 0 j n k E). }
    assert (Seqs : (exists nm l, first = Tup nm l) \/ (exists l, first = Lst l) -> exists kw, columns (fun b i => item s b (AInt (Z.of_nat i))) (first :: bs) (combine names (seq 0 (length names))) = Ok kw /\ map fst kw = names /\
      forall j n x, nth_error kw j = Some (n, x) -> exists l, x = GValue (Lst l) /\ Forall2 (fun row v => nth_error row j = Some v) (row0 :: rows) l).
    { intros Hsq. destruct (columns_ok (fun b i => item s b (AInt (Z.of_nat i))) (first :: bs) (row0 :: rows) (combine names (seq 0 (length names)))) as (kw & E1 & E2 & E3); [|exists kw; split; [exact E1|]; split; [congruence|exact E3]].
      intros j n k E. destruct (Nth' j n k E) as [-> Lj]. refine (Forall2_in_imp _ _ _ _ _ F). intros b row Hb Hrow.
      assert (Sb : (exists nm l, b = Tup nm l) \/ exists l, b = Lst l). { destruct (Shape b Hb) as [Sh| ->]; [|exact Hsq]. destruct Hsq as [(nm & l & ->)|(l & ->)]; destruct b; cbn in Sh; try contradiction; eauto. }
      destruct plain as [_ P2]. destruct Hrow as [l vs Nl Fl|nm vs Lv|vs Lv|x fl vs Fv]; [destruct Sb as [(? & ? & ?)|(? & ?)]; discriminate| | |destruct Sb as [(? & ? & ?)|(? & ?)]; discriminate].
      - destruct (nth_error vs j) as [v|] eqn:Ev; [|apply nth_error_None in Ev; lia]. exists v. split; [reflexivity|]. exact (proj1 (P2 nm vs j v Ev)).
      - destruct (nth_error vs j) as [v|] eqn:Ev; [|apply nth_error_None in Ev; lia]. exists v. split; [reflexivity|]. exact (proj2 (P2 [] vs j v Ev)). }
    destruct Hf as [l vs Nl Fl|nm vs Lv|vs Lv|x fl vs Fv].
    - assert (E : forallb (fun n => existsb (fun e => String.eqb (fst e) n) l) names = true).
      { apply forallb_forall. intros n Hn. destruct (Forall2_In_l _ _ _ _ Fl Hn) as (v & _ & Hv). apply existsb_exists. exists (n, v). split; [exact Hv|apply String.eqb_refl]. }
      rewrite E. destruct (columns_ok (fun b n => item s b (AStr n)) (Dic l :: bs) (vs :: rows) (map (fun n => (n, n)) names)) as (kw & E1 & E2 & E3); [|rewrite E1; exists kw; split; [reflexivity|]; split; [congruence|exact E3]].
      intros j n k Ej. destruct (Nth j n k Ej) as [-> En]. refine (Forall2_in_imp _ _ _ _ _ F). intros b row Hb Hrow.
      assert (exists l, b = Dic l) as (l' & ->). { destruct (Shape b Hb) as [Sh| ->]; [|eauto]. destruct b; cbn in Sh; try contradiction. eauto. }
      inversion Hrow as [l0 vs0 Nl0 Fl0| | |]; subst. destruct (Forall2_nth_l _ _ _ Fl0 j k En) as (v & Ev & Hv). exists v. split; [exact Ev|]. exact (proj1 plain l' k v Nl0 Hv).
    - rewrite Lv, Nat.eqb_refl. destruct Seqs as (kw & E1 & E2 & E3); [eauto|]. rewrite E1. exists kw. auto.
    - rewrite Lv, Nat.eqb_refl. destruct Seqs as (kw & E1 & E2 & E3); [eauto|]. rewrite E1. exists kw. auto.
    - rewrite (has_all_ok _ _ _ Fv). cbn [rbind]. destruct (columns_ok (fun b n => getattr s b n) (Obj x fl :: bs) (vs :: rows) (map (fun n => (n, n)) names)) as (kw & E1 & E2 & E3); [|rewrite E1; exists kw; split; [reflexivity|]; split; [congruence|exact E3]].
      intros j n k Ej. destruct (Nth j n k Ej) as [-> En]. refine (Forall2_in_imp _ _ _ _ _ F). intros b row Hb Hrow.
      assert (exists x l, b = Obj x l) as (x' & l' & ->). { destruct (Shape b Hb) as [Sh| ->]; [|eauto]. destruct b; cbn in Sh; try contradiction. eauto. }
      inversion Hrow as [| | |x0 f0 vs0 Fv0]; subst. destruct (Forall2_nth_l _ _ _ Fv0 j k En) as (v & Ev & Hv). eauto.
  Qed.
  (** other calls are not changed *)
  Lemma sanitize_passes names args kwargs : length args <> 1 \/ kwargs <> [] \/ (exists v, args = [GValue v] /\ tensor v) -> sanitize s text iterate names args kwargs = Ok (args, kwargs).
  Proof.
    intros H. unfold sanitize. destruct args as [|a [|a' args]]; try reflexivity. destruct kwargs; [|reflexivity]. destruct H as [H|[H|(v & E & d & x & ->)]]; [now destruct H|now destruct H|]. injection E as ->. reflexivity.
  Qed.
  (** streams of one input *)
  Lemma sanitize_stream names a bs : iterable iterate a bs -> bs <> [] -> (forall b, In b bs -> tensor b) -> sanitize s text iterate names [a] [] = Ok ([GValue (Lst bs)], []).
  Proof.
    intros Hi Nb Ht. unfold sanitize. rewrite (iterable_elements _ _ Hi). destruct bs as [|b bs]; [contradiction|]. destruct (Ht b (or_introl eq_refl)) as (d & x & ->). reflexivity.
  Qed.
  Lemma has_all_missing v : forall names, (exists n, In n names /\ getattr s v n = Err AttributeError) ->
    (forall n, In n names -> getattr s v n = Err AttributeError \/ exists w, getattr s v n = Ok w) -> has_all s v names = Ok false.
  Proof.
    induction names as [|n names IH]; intros (m & Hm & Em) Ha; [destruct Hm|]. cbn [has_all].
    destruct (Ha n (or_introl eq_refl)) as [E|(w & E)]; rewrite E; [reflexivity|].
    apply IH.
    - destruct Hm as [->|Hm]; [congruence|exists m; auto].
    - intros k Hk. apply Ha. right. exact Hk.
  Qed.
  Lemma sanitize_other names a first bs : iterable iterate a (first :: bs) ->
    match first with
    | Dic l => exists n, In n names /\ ~ In n (map fst l)
    | Tup _ l | Lst l => length l <> length names
    | _ => True
    end ->
    (exists n, In n names /\ getattr s first n = Err AttributeError) ->
    (forall n, In n names -> getattr s first n = Err AttributeError \/ exists v, getattr s first n = Ok v) ->
    sanitize s text iterate names [a] [] = Ok ([GValue (Lst (first :: bs))], []).
  Proof.
    intros Hi Hf Hm Ha. pose proof (has_all_missing first names Hm Ha) as E. unfold sanitize. rewrite (iterable_elements _ _ Hi).
    destruct first as [d x|nm l|l|l|x fl].
    - reflexivity.
    - destruct (length l =? length names) eqn:L; [apply Nat.eqb_eq in L; contradiction|]. rewrite E. reflexivity.
    - destruct (length l =? length names) eqn:L; [apply Nat.eqb_eq in L; contradiction|]. rewrite E. reflexivity.
    - destruct Hf as (n & Hn & Nn). destruct (forallb _ names) eqn:F.
      + exfalso. rewrite forallb_forall in F. specialize (F n Hn). apply existsb_exists in F. destruct F as (e & He & Ee). apply String.eqb_eq in Ee.
        apply Nn. rewrite <- Ee. apply in_map. exact He.
      + rewrite E. reflexivity.
    - rewrite E. reflexivity.
  Qed.
End Sanitize.

(** ** Running *)
Section Run.
  Context {X U : Type} (s : semantics X U).
  Variable text : string -> val X.
  Variable iterate : X -> list (string * val X) -> option (list (val X)).
  Variable f : nat -> nat -> list (val X) -> list (string * val X) -> result (val X).
  Variable P : U -> Prop.
  Variable pl : nat -> nat.
  Hypothesis call_f : forall u c m a k, P u -> call s pl u c m a k = (f c m a k, u).
  Hypothesis opt_P : forall u fn m bs u', P u -> optimize s pl u fn m bs = (Ok tt, u') -> P u'.

  Definition engine_error (g : graph) args kwargs (e : exn) : Prop :=
    (e = TypeError /\ ~ call_ok (map fst (g_inputs g)) args kwargs) \/ (e = ValueError /\ misfit s f g (given_inputs g args kwargs)) \/ user_error s f e.

  Lemma finish_batches (out : output (X:=X)) o (ds : list (list (val X))) reg (w : world U) : aget Nat.eqb default_context out = Some o -> returned_for ds o ->
    exists r l, finish (w, Ok (reg, Some out)) = (w, Ok r) /\ returned_batches r l /\
      (forall d, In d ds -> length d = length l) /\ forall i v, nth_error l i = Some v -> exists row, Forall2 (fun d x => nth_error d i = Some x) ds row /\ v = match row with [x] => x | _ => Tup [] row end.
  Proof.
    intros Ho Hr.
    assert (Cases : (exists l, o = Single l /\ (forall d, In d ds -> length d = length l) /\ forall i v, nth_error l i = Some v -> exists row, Forall2 (fun d x => nth_error d i = Some x) ds row /\ v = match row with [x] => x | _ => Tup [] row end) \/
      exists rows, o = Multi rows /\ (forall d, In d ds -> length d = length (map (Tup []) rows)) /\ forall i v, nth_error (map (Tup []) rows) i = Some v -> exists row, Forall2 (fun d x => nth_error d i = Some x) ds row /\ v = match row with [x] => x | _ => Tup [] row end).
    { destruct ds as [|d [|d' ds]]; [destruct Hr| |].
      - left. cbn in Hr. exists d. split; [exact Hr|]. split; [intros ? [<-|[]]; reflexivity|]. intros i v E. exists [v]. split; [constructor; [exact E|constructor]|reflexivity].
      - right. destruct Hr as (rows & -> & L & H). exists rows. split; [reflexivity|]. rewrite map_length. split; [exact L|]. intros i v E. rewrite nth_error_map in E. destruct (nth_error rows i) as [row|] eqn:Er; [|discriminate]. cbn in E. injection E as <-.
        exists row. split; [exact (H i row Er)|]. assert (K := Forall2_len _ _ _ (H i row Er)). destruct row as [|x [|y row]]; cbn in K; try discriminate. reflexivity. }
    assert (Per : (forall c v, out <> [(c, Single [v])]) -> (forall c row, out <> [(c, Multi [row])]) -> finish (w, Ok (reg, Some out)) = (w, Ok (PerContext out))).
    { intros N1 N2. cbn. destruct out as [|[c [[|v [|]]|[|row [|]]]] [|]]; try reflexivity; [now destruct (N1 c v)|now destruct (N2 c row)]. }
    assert (Dec : (exists c v, out = [(c, Single [v])]) \/ (exists c row, out = [(c, Multi [row])]) \/ ((forall c v, out <> [(c, Single [v])]) /\ forall c row, out <> [(c, Multi [row])])).
    { destruct out as [|[c [[|v [|]]|[|row [|]]]] [|]]; eauto; right; right; split; discriminate. }
    destruct Dec as [(c & v & ->)|[(c & row & ->)|[N1 N2]]].
    - cbn in Ho. destruct c; [|discriminate]. cbn in Ho. injection Ho as <-. destruct Cases as [(l & E & L & H)|(rows & E & _)]; [|discriminate]. injection E as <-. exists (One v), [v]. split; [reflexivity|]. split; [constructor|auto].
    - cbn in Ho. destruct c; [|discriminate]. cbn in Ho. injection Ho as <-. destruct Cases as [(l & E & _)|(rows & E & L & H)]; [discriminate|]. injection E as <-. exists (One (Tup [] row)), [Tup [] row]. split; [reflexivity|]. split; [constructor|auto].
    - rewrite (Per N1 N2). exists (PerContext out). destruct Cases as [(l & E & L & H)|(rows & E & L & H)]; subst o; [exists l|exists (map (Tup []) rows)]; (split; [reflexivity|]); (split; [now constructor|auto]).
  Qed.

  Lemma forward_run order g a0 k0 args kwargs u : (forall l, Permutation (order l) l) -> graph_ok g -> refs_usable g -> g_outputs g <> [] ->
    NoDup (map fst (g_inputs g)) -> NoDup (map snd (g_inputs g)) -> NoDup (map fst kwargs) -> P u -> sanitize s text iterate (map fst (g_inputs g)) a0 k0 = Ok (args, kwargs) ->
    match snd (snd (forward s text iterate order (mkGm g None) a0 k0 (mkWorld pl u))) with
    | Ok r => call_ok (map fst (g_inputs g)) args kwargs /\ exists ds l, Forall2 (means s f g (given_inputs g args kwargs) default_context) (g_outputs g) ds /\ returned_batches r l /\
        (forall d, In d ds -> length d = length l) /\ forall i v, nth_error l i = Some v -> exists row, Forall2 (fun d x => nth_error d i = Some x) ds row /\ v = match row with [x] => x | _ => Tup [] row end
    | Err e => schedule s order g = Err e \/ engine_error g args kwargs e
    end.
  Proof.
    intros Po G R No Nn Ni Nk Pu Es. unfold forward. cbn [m_graph m_program]. rewrite Es. destruct (schedule s order g) as [p|e] eqn:Sc; [|cbn; now left]. cbn [snd].
    assert (K := graph_run s f P pl call_f opt_P order g p args kwargs u Po G R No Nn Ni Nk Pu Sc). destruct (untraced_run s false order p args kwargs pl u []) as (tr' & Et). rewrite Et in K.
    destruct (run s order p args kwargs (mkWorld pl u)) as [w [[reg [out|]]|e]].
    - destruct K as (Ck & (ds & o & H1 & H2 & H3) & _). destruct (finish_batches out o ds reg w H2 H3) as (r & l & E1 & E2 & E3 & E4). rewrite E1. cbn. split; [exact Ck|]. exists ds, l. auto.
    - destruct K.
    - cbn. right. exact K.
  Qed.

  Hypothesis agree : attributes_agree s.
  Hypothesis plain : plain_items s.

  (** the columns as inputs *)
  Lemma column_inputs g (kw : list (string * given (X:=X))) rows : NoDup (map fst (g_inputs g)) -> NoDup (map snd (g_inputs g)) -> map fst kw = map fst (g_inputs g) ->
    (forall j n x, nth_error kw j = Some (n, x) -> exists l, x = GValue (Lst l) /\ Forall2 (fun row v => nth_error row j = Some v) rows l) ->
    forall id d, given_inputs g [] kw id d -> length d = length rows /\ forall i row v, nth_error rows i = Some row -> nth_error d i = Some v -> positional g row id v.
  Proof.
    intros Nn Ni Em Hk id d (n & x & Hn & Hb & ->). destruct Hb as [(i & _ & E)|Hx]; [destruct i; discriminate|]. apply In_nth_error in Hx. destruct Hx as (j & Ej). destruct (Hk j n x Ej) as (l & -> & F). cbn [from_value]. split; [symmetry; exact (Forall2_len _ _ _ F)|].
    intros i row v Er Ev. destruct (Forall2_nth_l _ _ _ F i row Er) as (v' & Ev' & Hv). rewrite Ev in Ev'. injection Ev' as <-. exists j, n. split; [|exact Hv].
    assert (E1 : nth_error (map fst (g_inputs g)) j = Some n) by (rewrite <- Em, nth_error_map, Ej; reflexivity). rewrite nth_error_map in E1. destruct (nth_error (g_inputs g) j) as [[n' id']|] eqn:Eg; [|discriminate]. cbn in E1. injection E1 as ->.
    assert (id' = id) as ->; [|reflexivity]. apply nth_error_In in Eg. exact (fst_unique (g_inputs g) n id' id Nn Eg Hn).
  Qed.
  Lemma keyword_call (kw : list (string * given (X:=X))) names : map fst kw = names -> call_ok names [] kw.
  Proof.
    intros E. split; [cbn; lia|]. split.
    - intros k v Hk. assert (H : In k names) by (rewrite <- E; apply in_map_iff; now exists (k, v)). apply In_nth_error in H. destruct H as (i & Hi). exists i. cbn. split; [exact Hi|lia].
    - intros i n Hi _. apply nth_error_In in Hi. rewrite <- E in Hi. apply in_map_iff in Hi. destruct Hi as ([k v] & <- & Hk). now exists v.
  Qed.

  Lemma forward_batches order g a first bs row0 rows u : (forall l, Permutation (order l) l) -> graph_ok g -> refs_usable g -> g_outputs g <> [] ->
    NoDup (map fst (g_inputs g)) -> NoDup (map snd (g_inputs g)) -> P u ->
    iterable iterate a (first :: bs) -> Forall2 (batch_of s (map fst (g_inputs g))) (first :: bs) (row0 :: rows) -> (forall b, In b bs -> same_shape first b) ->
    match snd (snd (forward s text iterate order (mkGm g None) [a] [] (mkWorld pl u))) with
    | Ok r => exists l, returned_batches r l /\ (length l = length (first :: bs) \/ length l = 1) /\ forall i row, nth_error (row0 :: rows) i = Some row -> exists v, element l i v /\ graph_output s f g row v
    | Err e => schedule s order g = Err e \/ user_error s f e \/
        (e = ValueError /\ bs <> [] /\ exists o, In o (g_outputs g) /\ ~ reads_input g o)
    end.
  Proof.
    intros Po G R No Nn Ni Pu Hi F Hs. destruct (sanitize_batches s text iterate plain (map fst (g_inputs g)) a first bs row0 rows Hi F Hs) as (kw & Es & Em & Hk). assert (Nk : NoDup (map fst kw)) by now rewrite Em.
    assert (K := forward_run order g [a] [] [] kw u Po G R No Nn Ni Nk Pu Es). assert (Cin := column_inputs g kw (row0 :: rows) Nn Ni Em Hk).
    assert (LN := Forall2_len _ _ _ F). set (N := length (row0 :: rows)) in *.
    assert (Hf : forall id d, given_inputs g [] kw id d -> fits N d) by (intros id d Hd; left; apply (Cin id d Hd)).
    destruct (snd (snd _)) as [r|e].
    - destruct K as (_ & ds & l & Fd & Rb & Ld & Hl). exists l. split; [exact Rb|]. assert (Hd : exists d, In d ds). { destruct ds as [|d ds]; [inversion Fd as [E|]; symmetry in E; contradiction|]. exists d. now left. }
      destruct Hd as (d0 & Hd0). destruct (Forall2_In_r _ _ _ _ Fd Hd0) as (o0 & Ho0 & Md0). destruct (means_batch s f N agree g _ default_context Hf _ _ Md0) as [Fit _]. unfold fits in Fit. rewrite (Ld d0 Hd0) in Fit. split; [now rewrite LN|].
      intros i row Er. assert (Li : i < N) by (apply nth_error_Some; congruence).
      assert (Q : exists j v, nth_error l j = Some v /\ element l i v /\ forall (d : list (val X)) x, In d ds -> nth_error d j = Some x -> element d i x).
      { destruct Fit as [E|E].
        - destruct (nth_error l i) as [v|] eqn:Ev; [|apply nth_error_None in Ev; lia]. exists i, v. split; [exact Ev|]. split; [now left|]. intros d x _ Ex. now left.
        - destruct l as [|v [|]]; try discriminate. exists 0, v. split; [reflexivity|]. split; [now right|]. intros d x Hd Ex. right. assert (Ldd := Ld d Hd). destruct d as [|y [|]]; try discriminate. cbn in Ex. now injection Ex as ->. }
      destruct Q as (j & v & Ev & Hel & Hx). exists v. split; [exact Hel|]. destruct (Hl j v Ev) as (outs & Fo & ->). exists outs. split; [|reflexivity].
      assert (V : forall o d x, In d ds -> means s f g (given_inputs g [] kw) default_context o d -> nth_error d j = Some x -> value s f g (positional g row) default_context o x).
      { intros o d x Hd Md Ex. destruct (means_batch s f N agree g _ default_context Hf _ _ Md) as [_ Vd]. refine (value_inputs s f g _ _ default_context o x _ (Vd i x Li (Hx d x Hd Ex))).
        intros id y (dy & Hdy & Ey). destruct (Cin id dy Hdy) as [Ldy Py]. apply (Py i row y Er). destruct Ey as [Ey|Ey]; [exact Ey|]. subst dy. change (1 = N) in Ldy. assert (i = 0) as -> by lia. reflexivity. }
      clear -Fd Fo V. revert outs Fo V. induction Fd as [|o d os ds Md Fd IH]; intros outs Fo V; inversion Fo as [|? x ? outs' Ex Fo']; subst; constructor; [apply (V o d x); [now left|exact Md|exact Ex]|]. apply IH; [exact Fo'|]. intros o' d' x' Hd'. apply V. now right.
    - destruct K as [K|[[_ K]|[[-> K]|K]]]; [now left|destruct K; now apply keyword_call| |right; now left]. right. right. split; [reflexivity|].
      destruct K as [(c & n & ad & kd & Hn & Fa & Fk & Hc & Hno)|(c & o & o' & d & d' & Ho & Ho' & Md & Md' & Hl)].
      + exfalso. assert (Fits : forall d, In d (ad ++ kd) -> fits N d).
        { intros d Hd. apply in_app_iff in Hd. destruct Hd as [Hd|Hd]; [destruct (Forall2_In_r _ _ _ _ Fa Hd) as (r & _ & Md)|destruct (Forall2_In_r _ _ _ _ Fk Hd) as (r & _ & Md)]; exact (proj1 (means_batch s f N agree g _ c Hf _ _ Md)). }
        assert (Ne : ad ++ kd <> []). { intros E. apply app_eq_nil in E. destruct E as [-> ->]. apply Hc. unfold call_refs. inversion Fa as [E1|]; inversion Fk as [E2|]; subst. reflexivity. }
        destruct (existsb (fun d => length d =? N) (ad ++ kd)) eqn:Ex.
        * apply existsb_exists in Ex. destruct Ex as (d & Hd & Ed). apply Nat.eqb_eq in Ed. apply (Hno N). split; [intros d' Hd'; destruct (Fits d' Hd'); auto|eauto].
        * apply (Hno 1). assert (All : forall d, In d (ad ++ kd) -> length d = 1).
          { intros d Hd. destruct (Fits d Hd) as [E|E]; [|exact E]. assert (C : existsb (fun d => length d =? N) (ad ++ kd) = true) by (apply existsb_exists; exists d; split; [exact Hd|now apply Nat.eqb_eq]). congruence. }
          split; [intros d Hd; left; now apply All|]. destruct (ad ++ kd) as [|d ds]; [contradiction|]. exists d. split; [now left|apply All; now left].
      + assert (Bs : bs <> []). { intros ->. inversion F as [|? ? ? ? _ F']; subst. inversion F'; subst. subst N. destruct (means_batch s f 1 agree g _ c Hf _ _ Md) as [[A|A] _], (means_batch s f 1 agree g _ c Hf _ _ Md') as [[B|B] _]; congruence. }
        split; [exact Bs|]. assert (HiN : forall id d, given_inputs g [] kw id d -> length d = N) by (intros id d0 Hd0; apply (Cin id d0 Hd0)).
        destruct (Nat.eq_dec (length d) N) as [E|E].
        * exists o'. split; [exact Ho'|]. intros Rd. apply Hl. rewrite E. symmetry. exact (reads_length s f N agree g _ c G HiN o' Rd d' Md').
        * exists o. split; [exact Ho|]. intros Rd. apply E. exact (reads_length s f N agree g _ c G HiN o Rd d Md).
  Qed.

  (** one value per input *)
  Lemma forward_values order g args kwargs vs u : (forall l, Permutation (order l) l) -> graph_ok g -> refs_usable g -> g_outputs g <> [] ->
    NoDup (map fst (g_inputs g)) -> NoDup (map snd (g_inputs g)) -> NoDup (map fst kwargs) -> P u -> call_ok (map fst (g_inputs g)) args kwargs ->
    Forall2 (fun n v => tensor v /\ bound (map fst (g_inputs g)) args kwargs n (GValue v)) (map fst (g_inputs g)) vs ->
    match snd (snd (forward s text iterate order (mkGm g None) args kwargs (mkWorld pl u))) with
    | Ok r => exists v, returned_batches r [v] /\ graph_output s f g vs v
    | Err e => schedule s order g = Err e \/ user_error s f e
    end.
  Proof.
    intros Po G R No Nn Ni Nk Pu Ck F.
    assert (Es : sanitize s text iterate (map fst (g_inputs g)) args kwargs = Ok (args, kwargs)).
    { apply sanitize_passes. destruct args as [|a [|]]; [left; discriminate| |left; discriminate]. right. destruct kwargs as [|k kw]; [right|left; discriminate].
      destruct (map fst (g_inputs g)) as [|n ns] eqn:En; [destruct Ck as [Ck _]; cbn in Ck; lia|]. inversion F as [|? v ? ? [Tv [(i & E1 & E2)|[]]] F']; subst. exists v. split; [|exact Tv]. destruct i as [|[|]]; cbn in E2; try discriminate. now injection E2 as ->. }
    assert (K := forward_run order g args kwargs args kwargs u Po G R No Nn Ni Nk Pu Es).
    assert (Cin : forall id d, given_inputs g args kwargs id d -> exists v, d = [v] /\ positional g vs id v).
    { intros id d (n & x & Hn & Hb & ->). apply In_nth_error in Hn. destruct Hn as (j & Ej). destruct (Forall2_nth_l _ _ _ F j n) as (v & Ev & Tv & Bv); [rewrite nth_error_map, Ej; reflexivity|].
      assert (x = GValue v) as -> by exact (EngineInputProofs.bound_unique (map fst (g_inputs g)) args kwargs n x (GValue v) Nn Nk Ck Hb Bv). exists v. destruct Tv as (dv & xv & ->). split; [reflexivity|]. exists j, n. auto. }
    assert (Hf : forall id d, given_inputs g args kwargs id d -> fits 1 d) by (intros id d Hd; destruct (Cin id d Hd) as (v & -> & _); now left).
    destruct (snd (snd _)) as [r|e].
    - destruct K as (_ & ds & l & Fd & Rb & Ld & Hl).
      assert (Len : forall o d, means s f g (given_inputs g args kwargs) default_context o d -> length d = 1) by (intros o d Md; destruct (means_batch s f 1 agree g _ default_context Hf _ _ Md) as [[E|E] _]; exact E).
      assert (exists v, l = [v]) as (v & ->). { destruct ds as [|d ds]; [inversion Fd as [E|]; symmetry in E; contradiction|]. inversion Fd as [|o ? ? ? Md _]; subst. assert (L1 := Len _ _ Md). rewrite (Ld d (or_introl eq_refl)) in L1. destruct l as [|v [|]]; try discriminate. eauto. }
      exists v. split; [exact Rb|]. destruct (Hl 0 v eq_refl) as (outs & Fo & ->). exists outs. split; [|reflexivity]. clear Hl Rb Ld No.
      revert outs Fo. induction Fd as [|o d os ds Md Fd IH]; intros outs Fo; inversion Fo as [|? x ? outs' Ex Fo']; subst; [constructor|]. constructor; [|now apply IH].
      destruct (means_batch s f 1 agree g _ default_context Hf _ _ Md) as [_ Vd]. refine (value_inputs s f g _ _ default_context o x _ (Vd 0 x (Nat.lt_0_1) (or_introl Ex))).
      intros id y (dy & Hdy & Ey). destruct (Cin id dy Hdy) as (z & -> & Pz). destruct Ey as [Ey|Ey]; [cbn in Ey; injection Ey as <-|injection Ey as <-]; exact Pz.
    - destruct K as [K|[[_ K]|[[-> K]|K]]]; [now left|contradiction| |now right]. exfalso.
      destruct K as [(c & n & ad & kd & Hn & Fa & Fk & Hc & Hno)|(c & o & o' & d & d' & Ho & Ho' & Md & Md' & Hl)].
      + assert (Ne : ad ++ kd <> []). { intros E. apply app_eq_nil in E. destruct E as [-> ->]. apply Hc. unfold call_refs. inversion Fa as [E1|]; inversion Fk as [E2|]; subst. reflexivity. }
        apply (Hno 1). assert (All : forall d, In d (ad ++ kd) -> length d = 1).
        { intros d Hd. apply in_app_iff in Hd. destruct Hd as [Hd|Hd]; [destruct (Forall2_In_r _ _ _ _ Fa Hd) as (r & _ & Md)|destruct (Forall2_In_r _ _ _ _ Fk Hd) as (r & _ & Md)]; destruct (means_batch s f 1 agree g _ c Hf _ _ Md) as [[E|E] _]; exact E. }
        split; [intros d Hd; left; now apply All|]. destruct (ad ++ kd) as [|d ds]; [contradiction|]. exists d. split; [now left|apply All; now left].
      + destruct (means_batch s f 1 agree g _ c Hf _ _ Md) as [[A|A] _], (means_batch s f 1 agree g _ c Hf _ _ Md') as [[B|B] _]; congruence.
  Qed.
End Run.

(** ** The program kept *)
Section Kept.
  Context {X U : Type} (s : semantics X U).
  Variable text : string -> val X.
  Variable iterate : X -> list (string * val X) -> option (list (val X)).
  Variable order : list nat -> list nat.
  Definition current (m : gmodule X) : Prop := match m_program m with None => True | Some p => schedule s order (m_graph m) = Ok p end.
  Lemma current_forward m args kwargs w : current m -> snd (forward s text iterate order m args kwargs w) = snd (forward s text iterate order (mkGm (m_graph m) None) args kwargs w).
  Proof.
    intros C. unfold forward, current in *. cbn [m_graph m_program]. destruct (sanitize _ _ _ _ _ _) as [[a k]|e]; [|reflexivity]. destruct (m_program m) as [p|]; [now rewrite C|]. destruct (schedule s order (m_graph m)); reflexivity.
  Qed.
  Lemma step_current o m w : current m -> (changes_ends o -> m_program m = None) -> current (fst (step s text iterate order o m w)).
  Proof.
    intros C H. destruct o as [name id|l|n|fid name sub args kwargs original|args kwargs]; cbn [step fst].
    - destruct (add_input _ _ _); [|exact C]. unfold current. cbn [m_program]. now rewrite (H I).
    - unfold current. cbn [m_program]. now rewrite (H I).
    - destruct (add_node _ _); [exact I|exact C].
    - destruct (g_outputs sub) eqn:Eo; [|exact I]. unfold add_subgraph. rewrite Eo. cbn. destruct m; exact C.
    - destruct (forward s text iterate order m args kwargs w) as [m' [w' r]] eqn:E. cbn. unfold forward in E. destruct (sanitize _ _ _ _ _ _) as [[a k]|e]; [|injection E as <- <- <-; exact C]. destruct (m_program m) as [p|] eqn:Ep; [injection E as <- _; exact C|].
      destruct (schedule s order (m_graph m)) as [p|e] eqn:Es; injection E as <- _; [exact Es|exact C].
  Qed.
  Lemma step_no_program o m w : ~ is_call o -> m_program m = None -> m_program (fst (step s text iterate order o m w)) = None.
  Proof.
    intros N H. destruct o as [name id|l|n|fid name sub args kwargs original|args kwargs]; cbn [step fst]; [destruct (add_input _ _ _); [exact H|exact H]|exact H|destruct (add_node _ _); [reflexivity|exact H]|cbn; destruct (g_outputs sub); [exact H|reflexivity]|]. now destruct N.
  Qed.
  Lemma steps_current : forall l m w, current m -> (m_program m = None \/ forall o, In o l -> ~ changes_ends o) -> ends_first l -> current (fst (steps s text iterate order l m w)).
  Proof.
    induction l as [|o l IH]; intros m w C H E; cbn [steps]; [exact C|]. destruct (step s text iterate order o m w) as [m' w'] eqn:Es.
    assert (C' : current m'). { assert (K := step_current o m w C). rewrite Es in K. apply K. intros Ho. destruct H as [H|H]; [exact H|]. destruct (H o (or_introl eq_refl) Ho). }
    assert (E' : ends_first l). { intros l1 a l2 b l3 El Ha. apply (E (o :: l1) a l2 b l3); [now rewrite El|exact Ha]. }
    apply IH; [exact C'| |exact E']. destruct H as [H|H]; [|right; intros x Hx; apply H; now right].
    assert (D : is_call o \/ ~ is_call o) by (destruct o; cbn; auto). destruct D as [D|D].
    - right. intros x Hx. apply in_split in Hx. destruct Hx as (l1 & l2 & ->). apply (E [] o l1 x l2); [reflexivity|exact D].
    - left. assert (K := step_no_program o m w D H). now rewrite Es in K.
  Qed.
  Lemma steps_app l1 : forall l2 m w, steps s text iterate order (l1 ++ l2) m w = let '(m', w') := steps s text iterate order l1 m w in steps s text iterate order l2 m' w'.
  Proof. induction l1 as [|o l1 IH]; intros l2 m w; [reflexivity|]. cbn [app steps]. destruct (step s text iterate order o m w) as [m' w']. apply IH. Qed.
  Lemma history_forward l m w : m_program m = None -> ends_first l ->
    forall m' w', steps s text iterate order l m w = (m', w') -> forall args kwargs w, snd (forward s text iterate order m' args kwargs w) = snd (forward s text iterate order (mkGm (m_graph m') None) args kwargs w).
  Proof.
    intros H E m' w' Es args kwargs w0. apply current_forward. assert (K := steps_current l m w). rewrite Es in K. apply K; [unfold current; now rewrite H|now left|exact E].
  Qed.
  (** whatever was done before, a node or a subgraph that is added resets the program *)
  Lemma node_resets h n l m w : (forall m1 w1, steps s text iterate order h m w = (m1, w1) -> ~ In (n_id n) (ids_of (m_graph m1))) -> ends_first l ->
    forall m' w', steps s text iterate order (h ++ AddNode n :: l) m w = (m', w') -> forall args kwargs w, snd (forward s text iterate order m' args kwargs w) = snd (forward s text iterate order (mkGm (m_graph m') None) args kwargs w).
  Proof.
    intros Hn E m' w' Es args kwargs w0. rewrite steps_app in Es. destruct (steps s text iterate order h m w) as [m1 w1] eqn:Eh. cbn [steps step] in Es. unfold add_node in Es. assert (K := Hn m1 w1 eq_refl). destruct (has_id (m_graph m1) (n_id n)) eqn:Ei; [apply has_id_in in Ei; contradiction|].
    apply (history_forward l _ w1 (eq_refl : m_program (mkGm _ None) = None) E m' w' Es).
  Qed.
  Lemma subgraph_resets h fid name sub args kwargs original l m w : g_outputs sub <> [] -> ends_first l ->
    forall m' w', steps s text iterate order (h ++ AddSubgraph fid name sub args kwargs original :: l) m w = (m', w') -> forall args kwargs w, snd (forward s text iterate order m' args kwargs w) = snd (forward s text iterate order (mkGm (m_graph m') None) args kwargs w).
  Proof.
    intros Hn E m' w' Es a0 k0 w0. rewrite steps_app in Es. destruct (steps s text iterate order h m w) as [m1 w1] eqn:Eh. cbn [steps step] in Es. destruct (g_outputs sub) as [|o os]; [contradiction|].
    apply (history_forward l _ w1 (eq_refl : m_program (mkGm _ None) = None) E m' w' Es).
  Qed.
  (** calls do not change the graph *)
  Lemma forward_graph m args kwargs w : m_graph (fst (forward s text iterate order m args kwargs w)) = m_graph m.
  Proof. unfold forward. destruct (sanitize _ _ _ _ _ _) as [[a k]|e]; [|reflexivity]. destruct (m_program m); [reflexivity|]. destruct (schedule _ _ _); reflexivity. Qed.
End Kept.
