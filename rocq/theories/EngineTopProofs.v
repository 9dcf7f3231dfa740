(** Running a scheduled graph: the inputs, the program, what optimizers observe. *)
From Coq Require Import String Ascii Permutation Relations.
From Verif Require Import Prelude GraphModel GraphSpec GraphProofs EngineModel EngineSpec EngineBaseProofs EngineLifeProofs EngineOptProofs EngineInputProofs EngineContextProofs EngineSchedProofs.
Local Open Scope nat_scope.
Local Open Scope list_scope.

Lemma nodes_of_ids g : graph_ok g -> forall ids nodes, rmapM (fun i => match get_node g i with Some n => Ok n | None => Err KeyError end) ids = Ok nodes ->
  map n_id nodes = ids /\ forall n, In n nodes -> In n (g_nodes g).
Proof.
  intros G ids nodes H. apply rmapM_inv in H. induction H as [|i n ids nodes E F IH]; [split; [reflexivity|intros n []]|].
  destruct (get_node g i) as [n'|] eqn:Eg; [|discriminate]. injection E as ->. apply get_node_some in Eg. destruct Eg as [Hin <-]. destruct IH as [<- IH].
  split; [reflexivity|]. intros m [<-|Hm]; [exact Hin|now apply IH].
Qed.
Lemma schedule_ok {X U} (s : semantics X U) order g p : graph_ok g -> schedule s order g = Ok p ->
  exists nodes, p = mkProgram (schedule_nodes s order g nodes) (g_inputs g) /\ NoDup (map n_id nodes) /\
    (forall n, In n nodes <-> In n (g_nodes g) /\ is_leaf g (n_id n)) /\ forall a b, is_leaf g b -> feeds g a b -> before (map n_id nodes) a b.
Proof.
  intros G H. unfold schedule in H. destruct (topological_sort g None) as [ids|] eqn:T; [|discriminate]. cbn [rbind] in H.
  destruct (rmapM _ ids) as [nodes|] eqn:E; [|discriminate]. cbn [rbind] in H. injection H as <-. destruct (nodes_of_ids g G ids nodes E) as [Em In'].
  destruct (sort_order g ids G T) as (N & L & B). exists nodes. rewrite Em. split; [reflexivity|]. split; [exact N|]. split; [|exact B]. intros n. split.
  - intros H. split; [now apply In'|]. apply L. rewrite <- Em. now apply in_map.
  - intros [H1 H2]. apply L in H2. rewrite <- Em in H2. apply in_map_iff in H2. destruct H2 as (n' & E' & Hn'). assert (n' = n) as -> by exact (node_unique g n' n G (In' _ Hn') H1 E'). exact Hn'.
Qed.

(** order of a sublist *)
Lemma before_trans {A} (l : list A) x y z : NoDup l -> before l x y -> before l y z -> before l x z.
Proof.
  intros N H1 H2. destruct (before_lt l x y N H1) as (i & j & Hi & Hj & L1). destruct (before_lt l y z N H2) as (j' & k & Hj' & Hk & L2).
  assert (j = j') as <- by (apply (proj1 (NoDup_nth_error l) N); [now apply nth_error_Some_lt in Hj|congruence]).
  assert (Lk := nth_error_Some_lt _ _ _ Hk).
  destruct (nth_error_split l k Hk) as (l1 & l2 & -> & Ek). assert (In x l1). { rewrite nth_error_app1 in Hi by lia. now apply nth_error_In in Hi. }
  now apply before_of_split.
Qed.
Lemma before_filter {A} (key : A -> nat) (h : A -> bool) l a b : NoDup (map key l) -> before (map key l) (key a) (key b) -> In a l -> In b l -> h a = true -> h b = true ->
  before (map key (filter h l)) (key a) (key b).
Proof.
  intros N B Ha Hb Fa Fb. destruct (before_lt _ _ _ N B) as (i & j & Hi & Hj & L).
  apply In_nth_error in Ha. destruct Ha as (i' & Ha). apply In_nth_error in Hb. destruct Hb as (j' & Hb).
  assert (i' = i) as -> by (apply (proj1 (NoDup_nth_error _) N); [apply (map_nth_error key) in Ha; now apply nth_error_Some_lt in Ha|rewrite (map_nth_error key _ _ Ha); congruence]).
  assert (j' = j) as -> by (apply (proj1 (NoDup_nth_error _) N); [apply (map_nth_error key) in Hb; now apply nth_error_Some_lt in Hb|rewrite (map_nth_error key _ _ Hb); congruence]).
  destruct (nth_error_split l j Hb) as (l1 & l2 & -> & Ej). rewrite filter_app. cbn [filter]. rewrite Fb, map_app. cbn [map]. apply before_of_split. apply in_map, filter_In. split; [|exact Fa].
  rewrite nth_error_app1 in Ha by lia. now apply nth_error_In in Ha.
Qed.
Lemma leaves_chain g : refs_usable g -> forall a b, clos_trans_n1 nat (feeds g) a b -> forall l, is_leaf g b -> NoDup l -> (forall a b, is_leaf g b -> feeds g a b -> before l a b) -> before l a b.
Proof.
  intros R a b H l. induction H as [b F|y b F H IH]; intros Lb N O; [now apply O|].
  assert (Ly : is_leaf g y).
  { destruct F as (n & r & Hn & <- & Hr & Ab). destruct (proj1 R n r Hn Lb) as [(i & ->)|[Av _]]; [now apply call_refs_in|inversion Ab|]. unfold available in Av. apply about_unwrap in Ab. destruct Ab as (nm & Eu). now rewrite Eu in Av. }
  apply (before_trans l a y b N); [now apply IH|now apply O].
Qed.

Section TracedMeaning.
  Context {X U : Type} (b : bool) (s : semantics X U) (f : nat -> nat -> list (val X) -> list (string * val X) -> result (val X)) (g : graph) (inp : nat -> list (val X) -> Prop) (c : nat).
  Lemma means_traced : forall r d, means (traced b s) f g inp c r d -> means s f g inp c r d.
  Proof.
    fix IH 3. intros r d H. destruct H as [i n d H|i|r a d d' H H'|x nm a k outs Hx Fa Fk Ap].
    - now constructor.
    - apply (means_const s f g inp c i).
    - apply (means_attr s f g inp c r a d d'); [now apply IH|exact H'].
    - apply (means_node s f g inp c x nm a k outs Hx); [| |exact Ap].
      + clear Fk Ap. revert Fa. generalize (n_args x). intros l Fa. induction Fa as [|y z l l' H F IHF]; constructor; [now apply IH|exact IHF].
      + clear Fa Ap. revert Fk. generalize (map snd (n_kwargs x)). intros l Fk. induction Fk as [|y z l l' H F IHF]; constructor; [now apply IH|exact IHF].
  Qed.
  Lemma means_traced_all l l' : Forall2 (means (traced b s) f g inp c) l l' -> Forall2 (means s f g inp c) l l'.
  Proof. induction 1; constructor; [now apply means_traced|assumption]. Qed.
  Lemma bundle_traced n bd : bundle_means (traced b s) f g inp n c bd -> bundle_means s f g inp n c bd.
  Proof. intros (N & a & k & H1 & H2 & H). exists N, a, k. split; [now apply means_traced_all|]. split; [now apply means_traced_all|exact H]. Qed.
End TracedMeaning.
Lemma misfit_traced {X U} b (s : semantics X U) f g inp : misfit (traced b s) f g inp -> misfit s f g inp.
Proof.
  intros [(c & n & a & k & H1 & H2 & H3 & H)|(c & o & o' & d & d' & H1 & H2 & H3 & H4 & H5)].
  - left. exists c, n, a, k. split; [exact H1|]. split; [now apply (means_traced_all b)|]. split; [now apply (means_traced_all b)|exact H].
  - right. exists c, o, o', d, d'. repeat (split; [assumption || now apply (means_traced b)|]). exact H5.
Qed.

Section Top.
  Context {X U : Type} (s : semantics X U).
  Variable f : nat -> nat -> list (val X) -> list (string * val X) -> result (val X).
  Variable P : U -> Prop.
  Variable pl0 : nat -> nat.
  Hypothesis call_f : forall u c m a k, P u -> call s pl0 u c m a k = (f c m a k, u).
  Hypothesis opt_P : forall u fn m bs u', P u -> optimize s pl0 u fn m bs = (Ok tt, u') -> P u'.

  Definition opt_event g inp (n : gnode) (e : event X) : Prop :=
    exists d bs, n_delegate n = Some d /\ e = Optimized (d_fn d) (n_target n) bs /\ Forall2 (bundle_means s f g inp n) (d_contexts d) bs.

  Theorem graph_run order g p args kwargs u0 :
    (forall l, Permutation (order l) l) -> graph_ok g -> refs_usable g -> g_outputs g <> [] ->
    NoDup (map fst (g_inputs g)) -> NoDup (map snd (g_inputs g)) -> NoDup (map fst kwargs) -> P u0 ->
    schedule s order g = Ok p ->
    match run (traced false s) order p args kwargs (mkWorld pl0 (u0, [])) with
    | (w', Ok (_, Some out)) =>
        call_ok (map fst (g_inputs g)) args kwargs /\
        (exists ds o, Forall2 (means s f g (given_inputs g args kwargs) default_context) (g_outputs g) ds /\
                      aget Nat.eqb default_context out = Some o /\ returned_for ds o) /\
        exists ns, NoDup (map n_id ns) /\
          (forall n, In n ns <-> In n (g_nodes g) /\ is_leaf g (n_id n) /\ n_delegate n <> None /\ is_module s (n_target n) = true) /\
          (forall a b, In a ns -> In b ns -> clos_trans nat (feeds g) (n_id a) (n_id b) -> before (map n_id ns) (n_id a) (n_id b)) /\
          Forall2 (opt_event g (given_inputs g args kwargs)) ns (snd (w_user w'))
    | (_, Ok (_, None)) => False
    | (_, Err e) => (e = TypeError /\ ~ call_ok (map fst (g_inputs g)) args kwargs) \/ (e = ValueError /\ misfit s f g (given_inputs g args kwargs)) \/ user_error s f e
    end.
  Proof.
    intros Po G R One Nn Ni Nk P0 Sc. destruct (schedule_ok s order g p G Sc) as (nodes & -> & Nd & Hin & Ord).
    set (s' := traced false s). set (C := program_contexts order (mkProgram (schedule_nodes s order g nodes) (g_inputs g))).
    unfold run. cbn [p_inputs p_instrs]. fold C.
    destruct (call_ok_dec (g_inputs g) args kwargs Nn Nk) as [Ck|Ck]; [|rewrite (prepare_err _ _ _ _ Nn Nk Ck); left; now split].
    destruct (prepare_ok (g_inputs g) args kwargs C Nn Ni Nk Ck) as (rg & E & A & B). rewrite E.
    set (inp := given_inputs g args kwargs).
    set (Q := fun (ns : list gnode) (u : U * list (event X)) => P (fst u) /\ Forall2 (opt_event g inp) ns (snd u)).
    assert (Same : schedule_nodes s order g nodes = schedule_nodes s' order g nodes) by reflexivity.
    assert (Cbig : forall i c, In i (schedule_nodes s' order g nodes) -> In c (contexts_of i) -> In c C).
    { intros i c Hi Hc. unfold C, program_contexts. cbn [p_instrs]. apply (Permutation_in _ (Permutation_sym (Po _))). apply union_in. left. apply in_flat_map. rewrite Same. eauto. }
    assert (Cne : C <> []).
    { destruct (g_outputs g) as [|o os] eqn:Eo; [contradiction|]. destruct (proj2 R o) as (x & Ab & Lx); [rewrite Eo; now left|].
      assert (W : wanted g default_context x) by (apply (want_output g o); [rewrite Eo; now left|exact Ab]).
      destruct Lx as [L1 L2]. unfold node_in in L1. apply in_map_iff in L1. destruct L1 as (n & <- & Hn).
      assert (Hn' : In n nodes) by (apply Hin; split; [exact Hn|]; split; [now apply in_map|exact L2]).
      apply (contexts_wanted g nodes G Hin Nd Ord) in W. intros Z.
      assert (In default_context C); [|rewrite Z in H; exact H].
      apply (Cbig (CallModule (n_target n) (n_args n) (n_kwargs n) (node_ref_of n) (order (cx_of (propagate_contexts g nodes) (n_id n))))).
      - unfold schedule_nodes. rewrite in_app_iff. left. apply in_flat_map. exists n. split; [exact Hn'|]. unfold schedule_node. rewrite !in_app_iff. do 3 right. now left.
      - cbn. apply (Permutation_in _ (Permutation_sym (Po _))). exact W. }
    assert (cf : forall ns u c m a k, Q ns u -> call s' pl0 u c m a k = (f c m a k, u)).
    { intros ns [u l] c m a k [HP _]. cbn. cbn [fst] in HP. now rewrite (call_f u c m a k HP). }
    assert (oq : forall ns u n d bs u', Q ns u -> In n nodes -> n_delegate n = Some d -> is_module s' (n_target n) = true ->
      Forall2 (bundle_means s' f g inp n) (d_contexts d) bs -> optimize s' pl0 u (d_fn d) (n_target n) bs = (Ok tt, u') -> Q (ns ++ [n]) u').
    { intros ns [u l] n d bs u' [HP HF] Hn Dn Mm Hb. cbn. cbn [fst snd] in *. destruct (optimize s pl0 u (d_fn d) (n_target n) bs) as [r u2] eqn:Eo. intros [= -> <-]. split; cbn [fst snd].
      - exact (opt_P _ _ _ _ _ HP Eo).
      - apply Forall2_app; [exact HF|]. constructor; [|constructor]. exists d, bs. split; [exact Dn|]. split; [reflexivity|]. clear -Hb. induction Hb; constructor; [now apply (bundle_traced false s)|assumption]. }
    assert (I0 : Inv s' f g C inp pl0 Q [] [] (mkWorld pl0 (u0, [])) rg).
    { constructor; try reflexivity.
      - intros r l Hr Kc. destruct (B r l Hr) as (n & id & m & v & -> & Hr' & Hb & ->). split; [apply input_streams_nodup|]. split.
        + intros c. unfold keys. cbn [unwrap]. split.
          * intros H. apply in_map_iff in H. destruct H as ([c' e] & <- & H). apply (nget_nodup _ _ _ (input_streams_nodup C v)) in H. rewrite input_streams_get in H. cbn [fst]. destruct (nmem c' C) eqn:Qc; [|discriminate]. now apply nmem_in.
          * intros H. apply nmem_in in H. assert (Gt := input_streams_get C v c). rewrite H in Gt. apply nget_in in Gt. now apply (in_map fst) in Gt.
        + intros c e H. apply (nget_nodup _ _ _ (input_streams_nodup C v)) in H. rewrite input_streams_get in H. destruct (nmem c C); [|discriminate]. injection H as <-. exists (from_value v). split; [reflexivity|]. constructor. exists n, v. auto.
      - intros x m [].
      - intros i m Hi. apply in_map_iff in Hi. destruct Hi as ([n id] & <- & Hi). cbn [snd].
        assert (Hb : exists v, bound (map fst (g_inputs g)) args kwargs n v).
        { apply (in_map fst) in Hi as Hn. apply In_nth_error in Hn. destruct Hn as (j & Hj). destruct Ck as (C1 & C2 & C3). destruct (Nat.lt_ge_cases j (length args)) as [L|L].
          - destruct (nth_error_lt_some args j L) as [v Hv]. exists v. left. eauto.
          - destruct (C3 j n Hj L) as [v Hv]. exists v. now right. }
        destruct Hb as (v & Hb). rewrite (A n id m v Hi Hb Cne). discriminate.
      - split; [exact P0|constructor]. }
    pose proof (schedule_run s' f g nodes order C inp pl0 Q G Hin Nd Ord Po Cne Cbig R cf oq _ _ I0) as H. rewrite <- Same in H.
    destruct (run_instructions s' (schedule_nodes s order g nodes) (mkWorld pl0 (u0, [])) rg) as [w' [[rg' [out|]]|e]].
    - destruct H as (HQ & _ & ds & o & H1 & H2 & H3). split; [exact Ck|]. split; [exists ds, o; split; [now apply (means_traced_all false s)|now split]|]. exists (filter (optimized s') nodes). destruct HQ as [_ HF].
      assert (Nf : NoDup (map n_id (filter (optimized s') nodes))).
      { clear -Nd. induction nodes as [|n l IH]; [constructor|]. cbn in Nd. inversion Nd as [|? ? N1 N2]; subst. cbn [filter]. destruct (optimized s' n); [|now apply IH]. cbn. constructor; [|now apply IH].
        intros H. apply N1. apply in_map_iff in H. destruct H as (x & E & H). apply filter_In in H. rewrite <- E. now apply in_map. }
      assert (Of : forall n, optimized s' n = true <-> n_delegate n <> None /\ is_module s (n_target n) = true).
      { intros n. unfold optimized. destruct (n_delegate n); cbn; [|split; [discriminate|now intros [? _]]]. split; [intros H; split; [discriminate|exact H]|now intros [_ H]]. }
      split; [exact Nf|]. split; [|split; [|exact HF]].
      + intros n. rewrite filter_In, Hin, Of. tauto.
      + intros a b Ha Hb Tr. apply filter_In in Ha, Hb. destruct Ha as [Ha Fa], Hb as [Hb Fb]. apply before_filter; try assumption. apply (leaves_chain g R); try assumption; [now apply clos_trans_tn1|]. now apply Hin.
    - destruct H as [H _]. contradiction.
    - right. destruct H as [[-> H]|H]; [left; split; [reflexivity|now apply (misfit_traced false)]|right]. unfold user_error in *. destruct H as [H|[H|H]]; [now left| |right; now right].
      right. left. destruct H as (pl & [u l] & fn & m & bs & H). exists pl, u, fn, m, bs. cbn in H. destruct (optimize s pl u fn m bs). exact H.
  Qed.
End Top.
