(** Proofs about binding graph inputs and about batches of activation streams. *)
From Coq Require Import String Ascii Permutation Relations.
From Verif Require Import Prelude GraphModel GraphSpec GraphProofs EngineModel EngineSpec EngineBaseProofs EngineLifeProofs EngineOptProofs.
Local Open Scope nat_scope.
Local Open Scope list_scope.

Section Bind.
  Context {X : Type}.
  Notation given := (given (X:=X)).
  Implicit Types (names : list string) (args : list given) (kwargs inputs : list (string * given)).

  Lemma has_key k inputs : existsb (fun e : string * given => String.eqb (fst e) k) inputs = true <-> In k (map fst inputs).
  Proof.
    rewrite existsb_exists, in_map_iff. split; intros (e & H).
    - exists e. destruct H as [H E]. apply String.eqb_eq in E. now split.
    - exists e. destruct H as [<- H]. split; [exact H|apply String.eqb_refl].
  Qed.
  Lemma has_name k names : existsb (String.eqb k) names = true <-> In k names.
  Proof.
    rewrite existsb_exists. split; [intros (e & H & E); apply String.eqb_eq in E; now subst|]. intros H. exists k. split; [exact H|apply String.eqb_refl].
  Qed.
  Lemma bind_keywords_ok names : forall kwargs inputs, NoDup (map fst kwargs) ->
    (forall k v, In (k, v) kwargs -> In k names /\ ~ In k (map fst inputs)) -> bind_keywords names kwargs inputs = Ok (inputs ++ kwargs).
  Proof.
    induction kwargs as [|[k v] kw IH]; intros inputs N H; [now rewrite app_nil_r|]. cbn [bind_keywords]. cbn in N. inversion N as [|? ? N1 N2]; subst.
    destruct (H k v (or_introl eq_refl)) as [H1 H2]. apply has_name in H1. rewrite H1. cbn [negb].
    destruct (existsb (fun e : string * given => String.eqb (fst e) k) inputs) eqn:E; [apply has_key in E; contradiction|].
    rewrite IH; [now rewrite <- app_assoc|exact N2|]. intros k' v' H'. destruct (H k' v' (or_intror H')) as [H3 H4]. split; [exact H3|].
    rewrite map_app, in_app_iff. cbn [map fst In]. intros [F|[<-|[]]]; [contradiction|]. apply N1. now apply (in_map fst kw (k, v')).
  Qed.
  Lemma bind_keywords_err names : forall kwargs inputs, (exists k v, In (k, v) kwargs /\ (~ In k names \/ In k (map fst inputs))) ->
    bind_keywords names kwargs inputs = Err TypeError.
  Proof.
    induction kwargs as [|[k v] kw IH]; intros inputs (k0 & v0 & H & B); [destruct H|]. cbn [bind_keywords].
    destruct (existsb (String.eqb k) names) eqn:E1; cbn [negb]; [|reflexivity]. destruct (existsb (fun e : string * given => String.eqb (fst e) k) inputs) eqn:E2; [reflexivity|].
    destruct H as [[= <- <-]|H].
    - destruct B as [B|B]; [apply has_name in E1; contradiction|]. apply has_key in B. congruence.
    - apply IH. exists k0, v0. split; [exact H|]. destruct B as [B|B]; [now left|]. right. rewrite map_app, in_app_iff. now left.
  Qed.

  Lemma keys_combine names args : length args <= length names -> map fst (combine (firstn (length args) names) args) = firstn (length args) names.
  Proof.
    revert names. induction args as [|a args IH]; intros [|n names] L; cbn in *; try lia; try reflexivity. f_equal. apply IH. lia.
  Qed.
  Lemma in_firstn_nth {A} (l : list A) n a : In a (firstn n l) <-> exists i, nth_error l i = Some a /\ i < n.
  Proof.
    revert n. induction l as [|b l IH]; intros [|n]; cbn [firstn In]; try (split; [tauto|intros (i & H & ?); destruct i; try discriminate; lia]).
    rewrite IH. split.
    - intros [->|(i & H & L)]; [exists 0; split; [reflexivity|lia]|exists (S i); split; [exact H|lia]].
    - intros ([|i] & H & L); [left; now injection H|right; exists i; split; [exact H|lia]].
  Qed.
  Lemma in_combine_nth names args n v : In (n, v) (combine (firstn (length args) names) args) <-> exists i, nth_error names i = Some n /\ nth_error args i = Some v.
  Proof.
    revert names. induction args as [|a args IH]; intros [|m names]; cbn [length firstn combine In].
    - split; [tauto|]. intros ([|i] & H & ?); discriminate.
    - split; [tauto|]. intros (i & _ & H); destruct i; discriminate.
    - split; [tauto|]. intros (i & H & _); destruct i; discriminate.
    - rewrite IH. split.
      + intros [[= -> ->]|(i & H)]; [now exists 0|now exists (S i)].
      + intros ([|i] & H1 & H2); [left; cbn in *; congruence|right; eauto].
  Qed.
  Lemma nth_nodup names i j n : NoDup names -> nth_error names i = Some n -> nth_error names j = Some n -> i = j.
  Proof. intros N H1 H2. apply (proj1 (NoDup_nth_error names) N i j); [now apply nth_error_Some_lt in H1|congruence]. Qed.

  Lemma bind_inputs_ok names args kwargs : NoDup names -> NoDup (map fst kwargs) -> call_ok names args kwargs ->
    exists inputs, bind_inputs names args kwargs = Ok inputs /\ NoDup (map fst inputs) /\ (forall n v, In (n, v) inputs <-> bound names args kwargs n v) /\
      (forall n, In n names <-> In n (map fst inputs)).
  Proof.
    intros Nn Nk (L & K & M). unfold bind_inputs. apply Nat.ltb_ge in L as L'. rewrite L'.
    assert (Kf : forall k v, In (k, v) kwargs -> In k names /\ ~ In k (map fst (combine (firstn (length args) names) args))).
    { intros k v H. destruct (K k v H) as (i & Hi & Li). split; [eapply nth_error_In; eassumption|]. rewrite keys_combine by exact L. rewrite in_firstn_nth.
      intros (j & Hj & Lj). rewrite (nth_nodup _ _ _ _ Nn Hi Hj) in Li. lia. }
    rewrite bind_keywords_ok; [|exact Nk|exact Kf]. cbn [rbind].
    set (inputs := combine (firstn (length args) names) args ++ kwargs).
    assert (B : forall n v, In (n, v) inputs <-> bound names args kwargs n v).
    { intros n v. unfold inputs, bound. rewrite in_app_iff, in_combine_nth. tauto. }
    assert (T : forall n, In n names <-> In n (map fst inputs)).
    { intros n. split.
      - intros H. apply In_nth_error in H. destruct H as [i Hi]. unfold inputs. rewrite map_app, in_app_iff, keys_combine by exact L.
        destruct (Nat.lt_ge_cases i (length args)) as [Li|Li]; [left; rewrite in_firstn_nth; eauto|]. right. destruct (M i n Hi Li) as [v Hv]. now apply (in_map fst kwargs (n, v)).
      - intros H. apply in_map_iff in H. destruct H as ([n' v] & E & H). cbn in E. subst n'. apply B in H. destruct H as [(i & Hi & _)|H]; [now apply nth_error_In in Hi|]. now apply (Kf n v). }
    destruct (forallb _ names) eqn:F.
    - exists inputs. split; [reflexivity|]. split; [|now split]. unfold inputs. rewrite map_app, keys_combine by exact L.
      assert (Nf : NoDup (firstn (length args) names)). { rewrite <- (firstn_skipn (length args) names) in Nn. revert Nn. generalize (firstn (length args) names). intros l Hl. clear -Hl. induction l; [constructor|]. cbn in Hl. inversion Hl as [|? ? H1 H2]; subst. constructor; [|now apply IHl]. intros H. apply H1. rewrite in_app_iff. now left. }
      clear -Nf Nk Kf L. rewrite keys_combine in Kf by exact L. revert Nf Kf. generalize (firstn (length args) names) as l. intros l Nl Hd. induction l as [|a l IH]; [exact Nk|]. cbn. inversion Nl as [|? ? H1 H2]; subst.
      constructor.
      + rewrite in_app_iff. intros [H|H]; [contradiction|]. apply in_map_iff in H. destruct H as ([k v] & E & H). cbn in E. subst k. apply (proj2 (Hd a v H)). now left.
      + apply IH; [exact H2|]. intros k v H. split; [exact (proj1 (Hd k v H))|]. intros F. apply (proj2 (Hd k v H)). now right.
    - exfalso. apply not_true_iff_false in F. apply F. apply forallb_forall. intros n Hn. apply has_key. now apply T.
  Qed.
  Lemma bind_inputs_err names args kwargs : NoDup names -> NoDup (map fst kwargs) -> ~ call_ok names args kwargs -> bind_inputs names args kwargs = Err TypeError.
  Proof.
    intros Nn Nk Bad. unfold bind_inputs. destruct (Nat.ltb_spec (length names) (length args)) as [L|L]; [reflexivity|].
    destruct (forallb (fun e : string * given => existsb (String.eqb (fst e)) names && negb (existsb (String.eqb (fst e)) (firstn (length args) names))) kwargs) eqn:F.
    - rewrite forallb_forall in F. assert (Kf : forall k v, In (k, v) kwargs -> In k names /\ ~ In k (firstn (length args) names)).
      { intros k v H. apply F in H. cbn [fst] in H. apply andb_true_iff in H. destruct H as [H1 H2]. split; [now apply has_name|]. intros H. apply has_name in H. rewrite H in H2. discriminate. }
      rewrite bind_keywords_ok; [|exact Nk|intros k v H; rewrite keys_combine by exact L; now apply (Kf k v)]. cbn [rbind].
      destruct (forallb _ names) eqn:G; [|reflexivity]. exfalso. apply Bad. split; [exact L|]. split.
      + intros k v H. destruct (Kf k v H) as [H1 H2]. apply In_nth_error in H1. destruct H1 as [i Hi]. exists i. split; [exact Hi|].
        destruct (Nat.lt_ge_cases i (length args)) as [Li|Li]; [|exact Li]. exfalso. apply H2. rewrite in_firstn_nth. eauto.
      + intros i n Hi Li. rewrite forallb_forall in G. pose proof (G n (nth_error_In _ _ Hi)) as H. apply has_key in H. rewrite map_app, in_app_iff, keys_combine in H by exact L.
        destruct H as [H|H].
        * rewrite in_firstn_nth in H. destruct H as (j & Hj & Lj). rewrite (nth_nodup _ _ _ _ Nn Hi Hj) in Li. lia.
        * apply in_map_iff in H. destruct H as ([n' v] & E & H). cbn in E. subst n'. eauto.
    - rewrite bind_keywords_err; [reflexivity|]. apply not_true_iff_false in F. rewrite forallb_forall in F.
      destruct (existsb (fun e : string * given => negb (existsb (String.eqb (fst e)) names && negb (existsb (String.eqb (fst e)) (firstn (length args) names)))) kwargs) eqn:G.
      + apply existsb_exists in G. destruct G as ([k v] & H & B). exists k, v. split; [exact H|]. cbn [fst] in B. apply negb_true_iff, andb_false_iff in B.
        destruct B as [B|B]; [left; intros Q; apply has_name in Q; congruence|]. right. rewrite keys_combine by exact L. apply negb_false_iff in B. now apply has_name.
      + exfalso. apply F. intros e He. destruct (_ && _) eqn:Q; [reflexivity|]. apply not_true_iff_false in G. exfalso. apply G. apply existsb_exists. exists e. split; [exact He|]. now rewrite Q.
  Qed.

  (** the register of inputs *)
  Notation put contexts id n v := (fun g : register X => fold_left (fun g c => store (RInput id n) c (Data (from_value v)) g) contexts g).
  Lemma fold_store_const (t : ref) (e : entry X) cs : forall g r,
    rget r (fold_left (fun g c => store t c e g) cs g) =
      if ref_eqb t r then match cs with [] => rget r g | _ => Some (fold_left (fun l c => aset Nat.eqb c e l) cs (streams r g)) end else rget r g.
  Proof.
    induction cs as [|c cs IH]; intros g r; [cbn; now destruct (ref_eqb t r)|]. cbn [fold_left]. rewrite IH, !rget_store. destruct (ref_eqb t r) eqn:Q; [|reflexivity].
    destruct cs as [|c' cs]; [reflexivity|]. unfold streams at 1. rewrite rget_store, Q. reflexivity.
  Qed.
  Lemma nget_fold_const {A} (e : A) cs : forall l k, aget Nat.eqb k (fold_left (fun l c => aset Nat.eqb c e l) cs l) = if nmem k cs then Some e else aget Nat.eqb k l.
  Proof.
    induction cs as [|c cs IH]; intros l k; [reflexivity|]. cbn [fold_left]. rewrite IH, nget_aset. unfold nmem. cbn [existsb]. rewrite (Nat.eqb_sym k c).
    destruct (c =? k); cbn [orb]; [now destruct (existsb _ cs)|reflexivity].
  Qed.
  Lemma fold_const_nodup {A} (e : A) cs : forall l, NoDup (map fst l) -> NoDup (map fst (fold_left (fun l c => aset Nat.eqb c e l) cs l)).
  Proof. induction cs as [|c cs IH]; intros l N; [exact N|]. cbn [fold_left]. apply IH. now apply aset_nodup. Qed.

  Lemma sget_in {A} k (l : list (string * A)) a : aget String.eqb k l = Some a -> In (k, a) l.
  Proof. intros H. apply (aget_in String.eqb (fun x => x) str_eqb_spec) in H. destruct H as (k' & H & ->). exact H. Qed.
  Lemma sget_nodup {A} k (l : list (string * A)) a : NoDup (map fst l) -> In (k, a) l -> aget String.eqb k l = Some a.
  Proof.
    induction l as [|[k' b] l IH]; intros N H; [destruct H|]. cbn in N. inversion N as [|? ? N1 N2]; subst. cbn [aget].
    destruct H as [[= -> ->]|H]; [now rewrite String.eqb_refl|]. destruct (String.eqb_spec k' k) as [->|]; [|now apply IH]. exfalso. apply N1. now apply (in_map fst l (k, a)).
  Qed.

  Lemma snd_inj (refs : list (string * nat)) a b i : NoDup (map snd refs) -> In (a, i) refs -> In (b, i) refs -> a = b.
  Proof.
    induction refs as [|[c j] refs IH]; intros N Ha Hb; [destruct Ha|]. cbn in N. inversion N as [|? ? M1 M2]; subst. destruct Ha as [Ha|Ha], Hb as [Hb|Hb].
    - congruence.
    - injection Ha as -> ->. exfalso. apply M1. now apply (in_map snd refs (b, i)).
    - injection Hb as -> ->. exfalso. apply M1. now apply (in_map snd refs (a, i)).
    - now apply IH.
  Qed.
  (** reads of the input register *)
  Definition input_streams contexts (v : given) : list (nat * entry X) := fold_left (fun l c => aset Nat.eqb c (Data (from_value v)) l) contexts [].
  Definition fill (refs : list (string * nat)) contexts (g : register X) (e : string * given) : result (register X) :=
    match aget String.eqb (fst e) refs with None => Err KeyError | Some id => Ok (fold_left (fun g c => store (RInput id (fst e)) c (Data (from_value (snd e))) g) contexts g) end.
  Lemma fill_ok (refs : list (string * nat)) contexts : NoDup (map fst refs) -> NoDup (map snd refs) ->
    forall inputs g, NoDup (map fst inputs) -> (forall n, In n (map fst inputs) -> In n (map fst refs)) ->
    (forall n id m, In n (map fst inputs) -> In (n, id) refs -> rget (RInput id m) g = None) ->
    exists g', rfold (fill refs contexts) inputs g = Ok g' /\
      (forall r, rget r g' = match r with
        | RInput id _ => match contexts, find (fun e => existsb (fun p => String.eqb (fst p) (fst e) && (snd p =? id)) refs) inputs with
            | _ :: _, Some e => Some (input_streams contexts (snd e)) | _, _ => rget r g end
        | _ => rget r g end).
  Proof.
    intros Nr Ni. induction inputs as [|[n v] inputs IH]; intros g N H F.
    - exists g. split; [reflexivity|]. intros r. destruct r; try reflexivity. cbn [find]. now destruct contexts.
    - cbn in N. inversion N as [|? ? N1 N2]; subst. cbn [rfold]. unfold fill at 1. cbn [fst snd].
      destruct (aget String.eqb n refs) as [id|] eqn:E.
      2:{ exfalso. specialize (H n (or_introl eq_refl)). rewrite (aget_none String.eqb (fun x => x) str_eqb_spec) in E. apply in_map_iff in H. destruct H as ([n' i] & Q & H). cbn in Q. subst n'. now apply (E n i). }
      apply sget_in in E. cbn [rbind].
      destruct (IH (fold_left (fun g c => store (RInput id n) c (Data (from_value v)) g) contexts g)) as (g' & Eg & R); [exact N2|intros k Hk; apply H; now right| |].
      + intros k i m Hk Hi. rewrite fold_store_const. cbn [ref_eqb]. destruct (Nat.eqb_spec id i) as [->|D]; [|apply (F k); [now right|exact Hi]].
        exfalso. apply N1. assert (k = n) as <-; [|exact Hk]. exact (snd_inj refs k n i Ni Hi E).
      + exists g'. split; [exact Eg|]. intros r. rewrite R. destruct r as [i m|i m|i|b a]; try now rewrite fold_store_const.
        cbn [find existsb fst snd]. rewrite fold_store_const. cbn [ref_eqb].
        assert (Q : existsb (fun p => String.eqb (fst p) n && (snd p =? i)) refs = (id =? i)).
        { destruct (Nat.eqb_spec id i) as [->|D].
          - apply existsb_exists. exists (n, i). split; [exact E|]. cbn. now rewrite String.eqb_refl, Nat.eqb_refl.
          - apply not_true_iff_false. rewrite existsb_exists. intros ([n' i'] & Hin & B). cbn in B. apply andb_true_iff in B. destruct B as [B1 B2]. apply String.eqb_eq in B1. apply Nat.eqb_eq in B2. subst n' i'.
            apply D. apply (sget_nodup n refs id Nr) in E. apply (sget_nodup n refs i Nr) in Hin. congruence. }
        rewrite Q. destruct (Nat.eqb_spec id i) as [->|D].
        * destruct contexts as [|c cs]; [reflexivity|].
          assert (Z : find (fun e : string * given => existsb (fun p => String.eqb (fst p) (fst e) && (snd p =? i)) refs) inputs = None).
          { destruct (find _ inputs) as [[k w]|] eqn:Fd; [|reflexivity]. exfalso. apply find_some in Fd. destruct Fd as [Hin B]. apply existsb_exists in B. destruct B as ([n' i'] & Hr & B). cbn in B.
            apply andb_true_iff in B. destruct B as [B1 B2]. apply String.eqb_eq in B1. apply Nat.eqb_eq in B2. subst n' i'. apply N1. assert (k = n) as <-; [|now apply (in_map fst inputs (k, w))]. exact (snd_inj refs k n i Ni Hr E). }
          rewrite Z. unfold input_streams, streams. rewrite (F n i m); [reflexivity|now left|exact E].
        * reflexivity.
  Qed.
End Bind.

Section Prepare.
  Context {X : Type}.
  Notation given := (given (X:=X)).
  Implicit Types (args : list given) (kwargs inputs : list (string * given)) (refs : list (string * nat)).

  Lemma fill_prepare refs args kwargs contexts : prepare_input_register refs args kwargs contexts =
    let? inputs := bind_inputs (map fst refs) args kwargs in rfold (fill refs contexts) inputs [].
  Proof. reflexivity. Qed.
  Lemma bound_unique names args kwargs n v v' : NoDup names -> NoDup (map fst kwargs) -> call_ok names args kwargs ->
    bound names args kwargs n v -> bound names args kwargs n v' -> v = v'.
  Proof.
    intros Nn Nk Ck H H'. destruct (bind_inputs_ok names args kwargs Nn Nk Ck) as (inputs & _ & N & B & _). apply B in H, H'.
    apply (sget_nodup n inputs v N) in H. apply (sget_nodup n inputs v' N) in H'. congruence.
  Qed.
  Lemma prepare_ok refs args kwargs contexts : NoDup (map fst refs) -> NoDup (map snd refs) -> NoDup (map fst kwargs) -> call_ok (map fst refs) args kwargs ->
    exists g, prepare_input_register refs args kwargs contexts = Ok g /\
      (forall n id m v, In (n, id) refs -> bound (map fst refs) args kwargs n v -> contexts <> [] -> rget (RInput id m) g = Some (input_streams contexts v)) /\
      (forall r l, rget r g = Some l -> exists n id m v, r = RInput id m /\ In (n, id) refs /\ bound (map fst refs) args kwargs n v /\ l = input_streams contexts v).
  Proof.
    intros Nn Ni Nk Ck. destruct (bind_inputs_ok (map fst refs) args kwargs Nn Nk Ck) as (inputs & E & N & B & T).
    rewrite fill_prepare, E. cbn [rbind]. destruct (fill_ok refs contexts Nn Ni inputs [] N) as (g & Eg & R); [intros n Hn; now apply T|reflexivity|].
    exists g. split; [exact Eg|]. split.
    - intros n id m v Hr Hb Hc. rewrite R. destruct contexts as [|c cs]; [contradiction|].
      destruct (find _ inputs) as [[n' v']|] eqn:F.
      + apply find_some in F. destruct F as [Hin Q]. apply existsb_exists in Q. destruct Q as ([n2 i2] & H2 & Q). cbn in Q. apply andb_true_iff in Q. destruct Q as [Q1 Q2].
        apply String.eqb_eq in Q1. apply Nat.eqb_eq in Q2. subst n2 i2. assert (n' = n) as -> by exact (snd_inj refs _ _ _ Ni H2 Hr). cbn [snd]. do 2 f_equal.
        apply B in Hin. exact (bound_unique _ _ _ _ _ _ Nn Nk Ck Hin Hb).
      + exfalso. apply B in Hb. apply (find_none _ _ F) in Hb. apply not_true_iff_false in Hb. apply Hb. apply existsb_exists. exists (n, id). split; [exact Hr|]. cbn. now rewrite String.eqb_refl, Nat.eqb_refl.
    - intros r l. rewrite R. destruct r as [i m|i m|i|b a]; try (cbn; discriminate). destruct contexts as [|c cs]; [discriminate|].
      destruct (find _ inputs) as [[n v]|] eqn:F; [|cbn; discriminate]. intros [= <-]. apply find_some in F. destruct F as [Hin Q]. apply existsb_exists in Q. destruct Q as ([n2 i2] & H2 & Q). cbn in Q.
      apply andb_true_iff in Q. destruct Q as [Q1 Q2]. apply String.eqb_eq in Q1. apply Nat.eqb_eq in Q2. subst n2 i2. exists n, i, m, v. repeat split; [exact H2|now apply B].
  Qed.
  Lemma prepare_err refs args kwargs contexts : NoDup (map fst refs) -> NoDup (map fst kwargs) -> ~ call_ok (map fst refs) args kwargs ->
    prepare_input_register refs args kwargs contexts = Err TypeError.
  Proof. intros Nn Nk B. rewrite fill_prepare, (bind_inputs_err _ _ _ Nn Nk B). reflexivity. Qed.
  Lemma input_streams_get contexts v c : aget Nat.eqb c (input_streams contexts v) = if nmem c contexts then Some (Data (X:=X) (from_value v)) else None.
  Proof. unfold input_streams. now rewrite nget_fold_const. Qed.
  Lemma input_streams_nodup contexts (v : given) : NoDup (map fst (input_streams contexts v)).
  Proof. apply fold_const_nodup. constructor. Qed.

  (** C51 *)
  Theorem inputs_bind refs args kwargs contexts : NoDup (map fst refs) -> NoDup (map snd refs) -> NoDup (map fst kwargs) ->
    (call_ok (map fst refs) args kwargs -> exists g, prepare_input_register refs args kwargs contexts = Ok g /\
       (forall n id v c, In (n, id) refs -> bound (map fst refs) args kwargs n v -> In c contexts -> load (RInput id n) c g = Ok (Data (from_value v))) /\
       (forall r c e, load r c g = Ok e -> exists n id v, same_ref r (RInput id n) /\ In (n, id) refs /\ bound (map fst refs) args kwargs n v /\ In c contexts /\ e = Data (from_value v))) /\
    (~ call_ok (map fst refs) args kwargs -> prepare_input_register refs args kwargs contexts = Err TypeError).
  Proof.
    intros Nn Ni Nk. split; [|now apply prepare_err]. intros Ck. destruct (prepare_ok refs args kwargs contexts Nn Ni Nk Ck) as (g & E & H1 & H2).
    exists g. split; [exact E|]. split.
    - intros n id v c Hr Hb Hc. unfold load. rewrite (H1 n id n v Hr Hb); [|intros ->; destruct Hc]. rewrite input_streams_get. apply nmem_in in Hc. now rewrite Hc.
    - intros r c e. unfold load. destruct (rget r g) as [l|] eqn:R; [|discriminate]. destruct (H2 r l R) as (n & id & m & v & -> & Hr & Hb & ->). rewrite input_streams_get.
      destruct (nmem c contexts) eqn:Q; [|discriminate]. intros [= <-]. exists n, id, v. repeat split; try assumption; [constructor|now apply nmem_in].
  Qed.

  Lemma call_ok_dec refs args kwargs : NoDup (map fst refs) -> NoDup (map fst kwargs) ->
    call_ok (map fst refs) args kwargs \/ ~ call_ok (map fst refs) args kwargs.
  Proof.
    intros Nn Nk. set (names := map fst refs) in *.
    assert (D1 : {length args <= length names} + {~ length args <= length names}) by (destruct (le_lt_dec (length args) (length names)); [now left|right; lia]).
    destruct D1 as [L|L]; [|right; intros (H & _); contradiction].
    destruct (existsb (fun e : string * given => existsb (String.eqb (fst e)) (firstn (length args) names) || negb (existsb (String.eqb (fst e)) names)) kwargs) eqn:E.
    - right. intros (_ & K & _). apply existsb_exists in E. destruct E as ([k v] & H & Q). cbn [fst] in Q. destruct (K k v H) as (i & Hi & Li).
      apply orb_true_iff in Q. destruct Q as [Q|Q].
      + apply has_name, in_firstn_nth in Q. destruct Q as (j & Hj & Lj). rewrite (nth_nodup _ _ _ _ Nn Hi Hj) in Li. lia.
      + apply negb_true_iff, not_true_iff_false in Q. apply Q, has_name. now apply nth_error_In in Hi.
    - assert (K : forall k v, In (k, v) kwargs -> exists i, nth_error names i = Some k /\ length args <= i).
      { intros k v H. destruct (existsb (String.eqb k) names) eqn:Q.
        - apply has_name, In_nth_error in Q. destruct Q as [i Hi]. exists i. split; [exact Hi|]. destruct (Nat.lt_ge_cases i (length args)) as [Li|Li]; [|exact Li]. exfalso.
          apply not_true_iff_false in E. apply E. apply existsb_exists. exists (k, v). split; [exact H|]. cbn [fst]. apply orb_true_iff. left. apply has_name, in_firstn_nth. eauto.
        - exfalso. apply not_true_iff_false in E. apply E. apply existsb_exists. exists (k, v). split; [exact H|]. cbn [fst]. rewrite Q. apply orb_true_r. }
      destruct (forallb (fun n => existsb (fun e : string * given => String.eqb (fst e) n) kwargs) (skipn (length args) names)) eqn:F.
      + left. split; [exact L|]. split; [exact K|]. intros i n Hi Li. rewrite forallb_forall in F. specialize (F n).
        assert (Q : In n (skipn (length args) names)).
        { apply nth_error_In with (n := i - length args). rewrite <- Hi. rewrite <- (firstn_skipn (length args) names) at 2. rewrite nth_error_app2; rewrite firstn_length_le by exact L; [reflexivity|exact Li]. }
        apply F, has_key, in_map_iff in Q. destruct Q as ([n' v] & Q & H). cbn in Q. subst n'. eauto.
      + right. intros (_ & _ & M). apply not_true_iff_false in F. apply F. apply forallb_forall. intros n Hn. apply has_key. apply In_nth_error in Hn. destruct Hn as [j Hj].
        destruct (M (length args + j) n) as [v Hv]; [|lia|now apply (in_map fst kwargs (n, v))]. rewrite <- Hj. rewrite <- (firstn_skipn (length args) names) at 1. rewrite nth_error_app2; rewrite firstn_length_le by exact L; [|lia].
        f_equal. lia.
  Qed.
End Prepare.

(** C48 for whole programs *)
Section OptRun.
  Context {X U : Type} (s : semantics X U).
  Implicit Types (p : program (X:=X)).

  Lemma optimization_kept (is : list (instr X)) : filter is_optimize (optimization_only_pass is) = filter is_optimize is.
  Proof.
    unfold optimization_only_pass. destruct (existsb is_optimize is) eqn:E; [|reflexivity]. fold (kept is). clear E. induction is as [|i is IH]; [reflexivity|].
    unfold kept. rewrite retain_cons. unfold retain. destruct (is_optimize i) eqn:O; cbn [orb].
    - cbn [snd filter]. rewrite O. now f_equal.
    - destruct (existsb _ (produces i)); cbn [snd filter]; rewrite O; exact IH.
  Qed.
  Theorem opt_only_run order p args kwargs w w' g o :
    (forall l, Permutation (order l) l) -> calls_pure s -> plain_program (p_instrs p) ->
    (forall m a k t cs, In (CallModule m a k t cs) (p_instrs p) -> NoDup cs) ->
    NoDup (map fst (p_inputs p)) -> NoDup (map snd (p_inputs p)) -> NoDup (map fst kwargs) ->
    (exists m a k d c, In (OptimizeModule m a k d) (p_instrs p) /\ In c (d_contexts d)) ->
    run s order p args kwargs w = (w', Ok (g, o)) ->
    exists g', run s order (mkProgram (optimization_only_pass (p_instrs p)) (p_inputs p)) args kwargs w = (w', Ok (g', None)).
  Proof.
    intros Po Pu Pl Nc Nn Ni Nk (m0 & a0 & k0 & d0 & c0 & Hopt & Hc0) E. unfold run in E |- *. cbn [p_inputs p_instrs].
    destruct (call_ok_dec (p_inputs p) args kwargs Nn Nk) as [Ck|Ck]; [|rewrite (prepare_err _ _ _ _ Nn Nk Ck) in E; discriminate].
    set (C1 := program_contexts order p) in *. set (p2 := mkProgram (optimization_only_pass (p_instrs p)) (p_inputs p)) in *. set (C2 := program_contexts order p2).
    destruct (prepare_ok (p_inputs p) args kwargs C1 Nn Ni Nk Ck) as (g1 & E1 & A1 & B1). rewrite E1 in E.
    destruct (prepare_ok (p_inputs p) args kwargs C2 Nn Ni Nk Ck) as (g2 & E2 & A2 & B2). rewrite E2.
    assert (Op : optimization_only_pass (p_instrs p) = kept (p_instrs p)).
    { unfold optimization_only_pass, kept. replace (existsb is_optimize (p_instrs p)) with true; [reflexivity|]. symmetry. apply existsb_exists. eexists. split; [exact Hopt|reflexivity]. }
    assert (I1 : forall c, In c C1 <-> exists i, In i (p_instrs p) /\ In c (contexts_of i)).
    { intros c. unfold C1, program_contexts. split.
      - intros H. apply (Permutation_in _ (Po _)) in H. rewrite union_in in H. destruct H as [H|[]]. now apply in_flat_map in H.
      - intros H. apply (Permutation_in _ (Permutation_sym (Po _))). rewrite union_in. left. now apply in_flat_map. }
    assert (I2 : forall c, In c C2 <-> exists i, In i (kept (p_instrs p)) /\ In c (contexts_of i)).
    { intros c. unfold C2, program_contexts, p2. cbn [p_instrs]. rewrite Op. split.
      - intros H. apply (Permutation_in _ (Po _)) in H. rewrite union_in in H. destruct H as [H|[]]. now apply in_flat_map in H.
      - intros H. apply (Permutation_in _ (Permutation_sym (Po _))). rewrite union_in. left. now apply in_flat_map. }
    assert (Sub : forall c, In c C2 -> In c C1). { intros c H. apply I2 in H. destruct H as (i & Hi & Hc). apply I1. exists i. split; [now apply kept_sub|exact Hc]. }
    assert (H0 : In c0 C2). { apply I2. exists (OptimizeModule m0 a0 k0 d0). split; [|exact Hc0]. pose proof (optimization_kept (p_instrs p)) as F. rewrite Op in F.
      assert (In (OptimizeModule m0 a0 k0 d0) (filter is_optimize (kept (p_instrs p)))) as H by (rewrite F; apply filter_In; now split). now apply filter_In in H. }
    assert (Z2 : C2 <> []) by (intros Q; rewrite Q in H0; destruct H0). assert (Z1 : C1 <> []) by (apply Sub in H0; intros Q; rewrite Q in H0; destruct H0).
    rewrite Op. apply (opt_only_sim s C2 (p_instrs p) w g1 g2 w' g o Pu Pl); [|exact Nc| |exact E].
    - intros c i Hi Hc. apply I2. eauto.
    - intros r _ _. destruct (rget r g1) as [l1|] eqn:R1.
      + destruct (B1 _ _ R1) as (n & id & m & v & -> & Hr & Hb & ->). rewrite (A2 n id m v Hr Hb Z2). split; [apply input_streams_nodup|]. split; [apply input_streams_nodup|]. split.
        * intros c. rewrite !input_streams_get. destruct (nmem c C2) eqn:Q; [|reflexivity]. apply nmem_in, Sub, nmem_in in Q. now rewrite Q.
        * intros Q. exfalso. pose proof (input_streams_get C2 v c0) as G. rewrite Q in G. apply nmem_in in H0. rewrite H0 in G. discriminate.
      + destruct (rget r g2) as [l2|] eqn:R2; [|exact I]. destruct (B2 _ _ R2) as (n & id & m & v & -> & Hr & Hb & ->). rewrite (A1 n id m v Hr Hb Z1) in R1. discriminate.
  Qed.
End OptRun.

(** C52 *)
Section Broadcast.
  Context {A : Type}.
  Implicit Types ds : list (list A).

  Lemma nodup_le1 (l : list nat) : length (nodup Nat.eq_dec l) <= 1 -> forall x y, In x l -> In y l -> x = y.
  Proof.
    intros H x y Hx Hy. apply (nodup_In Nat.eq_dec) in Hx, Hy. destruct (nodup Nat.eq_dec l) as [|a [|b r]]; cbn in *; [destruct Hx| |lia]. destruct Hx as [<-|[]], Hy as [<-|[]]. reflexivity.
  Qed.
  Lemma broadcast_ok ds N : (forall d, In d ds -> length d = 1 \/ length d = N) -> (exists d, In d ds /\ length d = N) ->
    exists ds', broadcast ds = Ok ds' /\ Forall2 (fun d d' => (length d = N /\ d' = d) \/ exists a, d = [a] /\ d' = repeat a N) ds ds'.
  Proof.
    intros H (d0 & H0 & L0). unfold broadcast. destruct ds as [|d1 ds1]; [destruct H0|]. set (ds := d1 :: ds1) in *.
    destruct (Nat.leb_spec (length (nodup Nat.eq_dec (map (@length A) ds))) 1) as [L|L].
    - exists ds. split; [reflexivity|]. assert (Al : forall d, In d ds -> length d = N).
      { intros d Hd. rewrite <- L0. apply (nodup_le1 _ L); now apply in_map. }
      clear -Al. induction ds as [|d ds IH]; constructor; [left; split; [apply Al; now left|reflexivity]|]. apply IH. intros d' Hd. apply Al. now right.
    - assert (N1 : N <> 1). { intros ->. assert (length (nodup Nat.eq_dec (map (@length A) ds)) <= 1); [|lia].
        assert (Q : forall x, In x (nodup Nat.eq_dec (map (@length A) ds)) -> x = 1). { intros x Hx. apply nodup_In, in_map_iff in Hx. destruct Hx as (d & <- & Hd). now destruct (H d Hd). }
        pose proof (NoDup_nodup Nat.eq_dec (map (@length A) ds)) as ND. destruct (nodup Nat.eq_dec (map (@length A) ds)) as [|a [|b r]]; cbn; try lia.
        exfalso. pose proof (Q a (or_introl eq_refl)). pose proof (Q b (or_intror (or_introl eq_refl))). subst a b. inversion ND as [|? ? M _]. apply M. now left. }
      assert (F : filter (fun n => negb (n =? 1)) (nodup Nat.eq_dec (map (@length A) ds)) = [N]).
      { pose proof (NoDup_nodup Nat.eq_dec (map (@length A) ds)) as ND. assert (Q : forall x, In x (nodup Nat.eq_dec (map (@length A) ds)) -> x = 1 \/ x = N).
        { intros x Hx. apply nodup_In, in_map_iff in Hx. destruct Hx as (d & <- & Hd). now apply H. }
        assert (HN : In N (nodup Nat.eq_dec (map (@length A) ds))) by (apply nodup_In; rewrite <- L0; now apply in_map).
        apply (NoDup_filter (fun n => negb (n =? 1))) in ND. assert (P : forall x, In x (filter (fun n => negb (n =? 1)) (nodup Nat.eq_dec (map (@length A) ds))) <-> x = N).
        { intros x. rewrite filter_In. split; [intros [Hx B]; destruct (Q x Hx) as [->|]; [discriminate|assumption]|]. intros ->. split; [exact HN|]. apply negb_true_iff. now apply Nat.eqb_neq. }
        revert ND P. generalize (filter (fun n => negb (n =? 1)) (nodup Nat.eq_dec (map (@length A) ds))) as l. intros l ND P. destruct l as [|a [|b l]].
        - exfalso. now apply (P N).
        - f_equal. apply P. now left.
        - exfalso. assert (a = N) by (apply P; now left). assert (b = N) by (apply P; right; now left). subst a b. inversion ND as [|? ? M _]. apply M. now left. }
      rewrite F. eexists. split; [reflexivity|]. clear -H N1. induction ds as [|d ds IH]; constructor; [|apply IH; intros d' Hd; apply H; now right].
      destruct (H d (or_introl eq_refl)) as [Hd|Hd]; destruct d as [|a [|b d]]; cbn in Hd; try lia; try (right; now exists a); left; split; try reflexivity; exact Hd.
  Qed.
  Lemma broadcast_err ds d1 d2 : In d1 ds -> In d2 ds -> length d1 <> length d2 -> length d1 <> 1 -> length d2 <> 1 -> broadcast ds = Err ValueError.
  Proof.
    intros H1 H2 N L1 L2. unfold broadcast. destruct ds as [|d0 ds0]; [destruct H1|]. set (ds := d0 :: ds0) in *.
    destruct (Nat.leb_spec (length (nodup Nat.eq_dec (map (@length A) ds))) 1) as [L|L].
    - exfalso. apply N. apply (nodup_le1 _ L); now apply in_map.
    - assert (F : forall d, In d ds -> length d <> 1 -> In (length d) (filter (fun n => negb (n =? 1)) (nodup Nat.eq_dec (map (@length A) ds)))).
      { intros d Hd Ld. apply filter_In. split; [apply nodup_In; now apply in_map|]. apply negb_true_iff. now apply Nat.eqb_neq. }
      pose proof (F d1 H1 L1) as F1. pose proof (F d2 H2 L2) as F2. destruct (filter _ (nodup Nat.eq_dec (map (@length A) ds))) as [|a [|b l]]; [reflexivity| |reflexivity].
      exfalso. destruct F1 as [F1|[]], F2 as [F2|[]]. congruence.
  Qed.
  Lemma broadcast_inv ds ds' : broadcast ds = Ok ds' -> exists N, (ds <> [] -> exists d, In d ds /\ length d = N) /\ Forall2 (fun d d' => length d' = N /\ (d' = d \/ exists a, d = [a] /\ d' = repeat a N)) ds ds'.
  Proof.
    unfold broadcast. destruct ds as [|d0 ds0]; [intros [= <-]; exists 0; split; [contradiction|constructor]|]. set (ds := d0 :: ds0) in *.
    destruct (Nat.leb_spec (length (nodup Nat.eq_dec (map (@length A) ds))) 1) as [L|L].
    - intros [= <-]. exists (length d0). split; [intros _; exists d0; split; [now left|reflexivity]|]. assert (Al : forall d, In d ds -> length d = length d0) by (intros d Hd; apply (nodup_le1 _ L); [now apply in_map|apply (in_map (@length A)); now left]).
      clear -Al. generalize dependent (length d0). intros n Al. induction ds as [|d ds IH]; constructor; [split; [apply Al; now left|now left]|]. apply IH. intros d' Hd. apply Al. now right.
    - destruct (filter _ _) as [|t [|? ?]] eqn:F; try discriminate.
      match goal with |- Ok ?m = Ok _ -> _ => intros H; assert (Hm : m = ds') by congruence; clear H; rewrite <- Hm; clear Hm end. exists t. split.
      { intros _. assert (H : In t (filter (fun n => negb (n =? 1)) (nodup Nat.eq_dec (map (@length A) ds)))) by (rewrite F; now left). apply filter_In in H. destruct H as [H _]. apply nodup_In, in_map_iff in H. destruct H as (d & H1 & H2). eauto. }
      assert (Al : forall d, In d ds -> length d = 1 \/ length d = t).
      { intros d Hd. destruct (Nat.eq_dec (length d) 1) as [|D]; [now left|]. right. assert (H : In (length d) (filter (fun n => negb (n =? 1)) (nodup Nat.eq_dec (map (@length A) ds)))).
        { apply filter_In. split; [apply nodup_In; now apply in_map|]. apply negb_true_iff. now apply Nat.eqb_neq. }
        rewrite F in H. destruct H as [<-|[]]. reflexivity. }
      assert (T1 : t <> 1). { intros ->. assert (H : In 1 (filter (fun n => negb (n =? 1)) (nodup Nat.eq_dec (map (@length A) ds)))) by (rewrite F; now left). apply filter_In in H. now destruct H. }
      clear -Al T1. induction ds as [|d ds IH]; constructor; [|apply IH; intros d' Hd; apply Al; now right].
      destruct (Al d (or_introl eq_refl)) as [Hd|Hd]; destruct d as [|a [|b d]]; cbn in Hd; try lia; try (split; [now rewrite repeat_length|right; now exists a]); split; try (now left); exact Hd.
  Qed.

  Lemma f2_app_l {B} (R : list A -> B -> Prop) : forall l1 l2 m, Forall2 R (l1 ++ l2) m -> Forall2 R l1 (firstn (length l1) m) /\ Forall2 R l2 (skipn (length l1) m).
  Proof.
    induction l1 as [|a l1 IH]; intros l2 m H; [split; [constructor|exact H]|]. cbn in H. inversion H as [|? b ? m' H1 H2]; subst. destruct (IH _ _ H2) as [I1 I2].
    cbn [length firstn skipn]. split; [now constructor|exact I2].
  Qed.
  Lemma nth_repeat_lt (a : A) n i : i < n -> nth_error (repeat a n) i = Some a.
  Proof. revert i. induction n as [|n IH]; intros i L; [lia|]. destruct i as [|i]; [reflexivity|]. cbn. apply IH. lia. Qed.
  Lemma at_ok N i ds ds' : i < N -> Forall2 (fun d d' => length d' = N /\ (d' = d \/ exists a, d = [a] /\ d' = repeat a N)) ds ds' ->
    exists xs, rmapM (fun d' => match nth_error d' i with Some a => Ok a | None => Err IndexError end) ds' = Ok xs /\ Forall2 (fun d x => element d i x) ds xs.
  Proof.
    intros Li. induction 1 as [|d d' ds ds' [L H] F IH]; [exists []; split; [reflexivity|constructor]|]. destruct IH as (xs & E & G).
    change (rmapM (fun d' => match nth_error d' i with Some a => Ok a | None => Err IndexError end) (d' :: ds')) with
      (let? y := match nth_error d' i with Some a => Ok a | None => Err IndexError end in let? ys := rmapM (fun d' => match nth_error d' i with Some a => Ok a | None => Err IndexError end) ds' in Ok (y :: ys)).
    destruct (nth_error_lt_some d' i) as [x Hx]; [lia|]. rewrite Hx, E. cbn [rbind]. exists (x :: xs). split; [reflexivity|]. constructor; [|exact G].
    destruct H as [->|(a & -> & ->)]; [now left|]. right. rewrite nth_repeat_lt in Hx by exact Li. congruence.
  Qed.
  Lemma at_ok_kw N i (ks : list string) : forall ds ds', length ks = length ds -> i < N -> Forall2 (fun d d' => length d' = N /\ (d' = d \/ exists a, d = [a] /\ d' = repeat a N)) ds ds' ->
    exists xs, rmapM (fun e : string * list A => let? v := match nth_error (snd e) i with Some a => Ok a | None => Err IndexError end in Ok (fst e, v)) (combine ks ds') = Ok (combine ks xs) /\ length xs = length ks /\
      Forall2 (fun d x => element d i x) ds xs.
  Proof.
    induction ks as [|k ks IH]; intros ds ds' Lk Li F.
    - destruct ds; [|discriminate]. inversion F; subst. exists []. repeat split; constructor.
    - destruct ds as [|d ds]; [discriminate|]. inversion F as [|? d' ? ds1 HH F']; subst. destruct HH as [L H]. cbn [combine]. destruct (IH ds ds1) as (xs & E & Lx & G); [cbn in Lk; lia|exact Li|exact F'|].
      destruct (nth_error_lt_some d' i) as [x Hx]; [lia|]. exists (x :: xs). split; [|split; [cbn; lia|]].
      + match goal with |- rmapM ?f (?a :: ?l) = _ => change (rmapM f (a :: l)) with (let? y := f a in let? ys := rmapM f l in Ok (y :: ys)) end. cbn [fst snd].
        rewrite Hx. cbn [rbind]. rewrite E. reflexivity.
      + constructor; [|exact G]. destruct H as [->|(a & -> & ->)]; [now left|]. right. rewrite nth_repeat_lt in Hx by exact Li. congruence.
  Qed.
  (** batches of a bundle *)
  Lemma batch_ok (a k : list (list A)) ks b i : length ks = length k -> broadcast (a ++ k) = Ok b ->
    let bd := mkBundle (firstn (length a) b) (combine ks (skipn (length a) b)) in
    i < bundle_len bd -> exists xs ys, batch bd i = Ok (xs, combine ks ys) /\ Forall2 (fun d x => element d i x) a xs /\ Forall2 (fun d x => element d i x) k ys.
  Proof.
    intros Lk E bd Li. apply broadcast_inv in E. destruct E as (N & _ & F). apply f2_app_l in F. destruct F as [Fa Fk].
    assert (LN : bundle_len bd = N \/ bundle_len bd = 0).
    { unfold bd, bundle_len. cbn [b_args b_kwargs]. remember (firstn (length a) b) as fa. remember (skipn (length a) b) as fk. clear -Fa Fk.
      destruct Fa as [|d d' ? ? HH _]; [|left; exact (proj1 HH)]. destruct Fk as [|d d' ? ? HH _]; [right; now destruct ks|]. destruct ks; [now right|left; exact (proj1 HH)]. }
    destruct LN as [LN|LN]; [|lia]. rewrite LN in Li. unfold batch, bd. cbn [b_args b_kwargs].
    destruct (at_ok N i a _ Li Fa) as (xs & E1 & G1). destruct (at_ok_kw N i ks k _ Lk Li Fk) as (ys & E2 & Ly & G2).
    exists xs, ys. split; [|now split]. rewrite E1. cbn [rbind]. rewrite E2. reflexivity.
  Qed.
End Broadcast.
