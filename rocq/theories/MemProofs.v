(** Proofs about members of modules. *)
From Coq Require Import List Arith Bool Lia.
From Verif Require Import Prelude MemModel MemSpec.
Import ListNotations.

Lemma path_eqb_spec : forall a b, path_eqb a b = true <-> a = b.
Proof. intros a b. unfold path_eqb. destruct (list_eq_dec Nat.eq_dec a b); split; congruence. Qed.
Lemma get_app : forall p a b, get p (a ++ b) = match get p b with Some j => Some j | None => get p a end.
Proof.
  induction a as [|[q i] a IH]; intro b; cbn; [now destruct (get p b)|]. rewrite IH. now destruct (get p b).
Qed.
Lemma get_in : forall p d i, get p d = Some i -> In (p, i) d.
Proof.
  induction d as [|[q j] d IH]; cbn; intros i H; [discriminate|]. destruct (get p d) eqn:E; [injection H as ->; right; auto|].
  destruct (path_eqb p q) eqn:P; [|discriminate]. injection H as ->. apply path_eqb_spec in P. subst. now left.
Qed.

Section Ind.
  Variable P : stmt -> Prop.
  Hypothesis HD : forall n i b, P (Def n i b).
  Hypothesis HC : forall n i b, Forall P b -> P (Class n i b).
  Hypothesis HI : forall c a b, Forall P a -> Forall P b -> P (If c a b).
  Hypothesis HO : P Other.
  Fixpoint stmt_ind2 (s : stmt) : P s :=
    let fix all (l : list stmt) : Forall P l :=
      match l with [] => Forall_nil _ | x :: r => Forall_cons x (stmt_ind2 x) (all r) end in
    match s with
    | Def n i b => HD n i b
    | Class n i b => HC n i b (all b)
    | If c a b => HI c a b (all a) (all b)
    | Other => HO
    end.
End Ind.

Definition prefix (c : list nat) (d : list (list nat * nat)) : list (list nat * nat) := map (fun kv => (c ++ fst kv, snd kv)) d.
Lemma symbols_context : forall s c, symbols c s = prefix c (symbols [] s).
Proof.
  assert (L : forall l, Forall (fun s => forall c, symbols c s = prefix c (symbols [] s)) l ->
    forall c, concat (map (symbols c) l) = prefix c (concat (map (symbols []) l))).
  { induction 1 as [|s l H F IH]; intro c; cbn; [reflexivity|]. unfold prefix in *. rewrite map_app, H, IH. reflexivity. }
  induction s as [n i b|n i b IH|k a b IHa IHb|] using stmt_ind2; intro c; try reflexivity.
  - cbn. f_equal. rewrite (L b IH (c ++ [n])), (L b IH [n]). unfold prefix. rewrite map_map. apply map_ext. intros [p j]. cbn. now rewrite <- app_assoc.
  - cbn. rewrite (L a IHa c), (L b IHb c). unfold prefix. now rewrite map_app.
Qed.
Lemma symbols_list : forall l c, concat (map (symbols c) l) = prefix c (concat (map (symbols []) l)).
Proof. induction l as [|s l IH]; intro c; cbn; [reflexivity|]. unfold prefix in *. rewrite map_app, symbols_context, IH. reflexivity. Qed.
Lemma get_prefix : forall n p d, get (n :: p) (prefix [n] d) = get p d.
Proof.
  induction d as [|[q i] d IH]; [reflexivity|]. change (prefix [n] ((q, i) :: d)) with ((n :: q, i) :: prefix [n] d). cbn [get].
  rewrite IH. destruct (get p d); [reflexivity|].
  destruct (path_eqb p q) eqn:E; destruct (path_eqb (n :: p) (n :: q)) eqn:F; auto.
  - apply path_eqb_spec in E. subst. rewrite (proj2 (path_eqb_spec _ _) eq_refl) in F. discriminate.
  - apply path_eqb_spec in F. injection F as ->. rewrite (proj2 (path_eqb_spec _ _) eq_refl) in E. discriminate.
Qed.
Lemma get_prefix_other : forall n m p d, n <> m -> get (n :: p) (prefix [m] d) = None.
Proof.
  induction d as [|[q i] d IH]; intro H; [reflexivity|]. change (prefix [m] ((q, i) :: d)) with ((m :: q, i) :: prefix [m] d). cbn [get].
  rewrite IH by exact H.
  destruct (path_eqb (n :: p) (m :: q)) eqn:F; [|reflexivity]. apply path_eqb_spec in F. congruence.
Qed.
Lemma symbols_nonempty : forall s i, ~ In ([], i) (symbols [] s).
Proof.
  induction s as [n j b|n j b IH|k a b IHa IHb|] using stmt_ind2; intros i H; cbn in H.
  - destruct H as [H|[]]. discriminate.
  - destruct H as [H|H]; [discriminate|]. rewrite symbols_list in H. unfold prefix in H. apply in_map_iff in H as (x & E & _). discriminate.
  - rewrite Forall_forall in IHa, IHb. apply in_app_iff in H as [H|H]; apply in_concat in H as (x & Hx & H); apply in_map_iff in Hx as (s & <- & Hs); [now apply (IHa s Hs i)|now apply (IHb s Hs i)].
  - contradiction.
Qed.
Lemma list_nonempty : forall l, get [] (concat (map (symbols []) l)) = None.
Proof.
  intro l. destruct (get [] _) as [i|] eqn:E; [|reflexivity]. apply get_in in E. apply in_concat in E as (x & Hx & H).
  apply in_map_iff in Hx as (s & <- & _). now apply symbols_nonempty in H.
Qed.

Section Run.
  Variable taken : nat -> bool.
  Notation exec_all := (fold_left (fun d t => execute taken t d)).

  Definition follow (b : option binding) (q : list nat) : option nat :=
    match b with
    | None => None
    | Some (Function i) => match q with [] => Some i | _ => None end
    | Some (ClassObject i inner) => match q with [] => Some i | _ => refers inner q end
    end.

  Lemma plain_cons : forall s l, plain (s :: l) -> plain l /\ (forall n i body, s = Class n i body -> ~ In n (concat (map names_of l))).
  Proof.
    intros s l H. inversion H as [? N I C]; subst. split.
    - constructor.
      + intros bf n i body af ->. apply (N (s :: bf) n i body af). reflexivity.
      + intros c a b X. apply (I c a b). now right.
      + intros n i b X. apply (C n i b). now right.
    - intros n i body ->. apply (N [] n i body l). reflexivity.
  Qed.
  Lemma exec_step : forall s names n, (forall c a b, s <> If c a b) -> ~ In n (names_of s) ->
    lookup n (execute taken s names) = lookup n names.
  Proof.
    intros [k i b|k i b|c a b|] names n NI H; cbn in *; try reflexivity.
    - destruct (Nat.eqb_spec n k); [subst; tauto|reflexivity].
    - destruct (Nat.eqb_spec n k); [subst; tauto|reflexivity].
    - now destruct (NI c a b).
  Qed.
  Lemma exec_other : forall l names n, plain l -> ~ In n (concat (map names_of l)) -> lookup n (exec_all l names) = lookup n names.
  Proof.
    induction l as [|s l IH]; intros names n P H; cbn; [reflexivity|]. pose proof (plain_cons _ _ P) as [P' _].
    cbn in H. rewrite in_app_iff in H. rewrite IH; [|exact P'|tauto]. apply exec_step; [|tauto].
    inversion P as [? _ I _]; subst. intros c a b ->. apply (I c a b). now left.
  Qed.
  Lemma exec_start : forall l n, plain l -> In n (concat (map names_of l)) -> forall d e, lookup n (exec_all l d) = lookup n (exec_all l e).
  Proof.
    induction l as [|s l IH]; intros n P H d e; [contradiction|]. cbn in *. pose proof (plain_cons _ _ P) as [P' D].
    destruct (in_dec Nat.eq_dec n (concat (map names_of l))) as [Hl|Hl]; [now apply IH|].
    apply in_app_iff in H as [H|H]; [|contradiction].
    rewrite !exec_other; auto. destruct s as [k i b|k i b|c a b|]; cbn in *; try contradiction; destruct H as [<-|[]]; now rewrite Nat.eqb_refl.
  Qed.

  Lemma get_names : forall l n p, plain l -> ~ In n (concat (map names_of l)) -> get (n :: p) (concat (map (symbols []) l)) = None.
  Proof.
    induction l as [|s l IH]; intros n p P H; [reflexivity|]. cbn in *. rewrite in_app_iff in H. pose proof (plain_cons _ _ P) as [P' _].
    rewrite get_app, IH by (auto; tauto). inversion P as [? _ I _]; subst.
    destruct s as [k i b|k i b|c a b|]; cbn [symbols names_of app] in *; [| |exfalso; apply (I c a b); now left|reflexivity].
    - change ([([k], i)]) with (prefix [k] [([], i)]). apply get_prefix_other. intros ->. apply H. left. now left.
    - rewrite symbols_list. change (([k], i) :: prefix [k] (concat (map (symbols []) b))) with (prefix [k] (([], i) :: concat (map (symbols []) b))).
      apply get_prefix_other. intros ->. apply H. left. now left.
  Qed.

  Lemma exec_bound : forall l n d, plain l -> In n (concat (map names_of l)) -> lookup n (exec_all l d) <> None.
  Proof.
    induction l as [|s l IH]; intros n d P H; [contradiction|]. cbn in *. pose proof (plain_cons _ _ P) as [P' D].
    destruct (in_dec Nat.eq_dec n (concat (map names_of l))) as [Hl|Hl]; [now apply IH|].
    apply in_app_iff in H as [H|H]; [|contradiction]. rewrite exec_other; auto.
    destruct s as [k i b|k i b|c a b|]; cbn in *; try contradiction; destruct H as [<-|[]]; rewrite Nat.eqb_refl; discriminate.
  Qed.
  Lemma follow_nil : forall b, b <> None -> follow b [] <> None.
  Proof. intros [[i|i d]|] H; cbn; congruence. Qed.

  Lemma members_run : forall l, plain l -> forall p, get p (concat (map (symbols []) l)) = refers (exec_all l []) p.
  Proof.
    induction 1 as [l N I C IH]. intros [|n p]; [rewrite list_nonempty; reflexivity|].
    assert (P : plain l) by (constructor; auto).
    change (refers (exec_all l []) (n :: p)) with (follow (lookup n (exec_all l [])) p).
    revert N I C IH P. induction l as [|s l IHl]; intros N I C IH P; [reflexivity|].
    pose proof (plain_cons _ _ P) as [P' D]. cbn [map concat]. rewrite get_app.
    assert (REST : get (n :: p) (concat (map (symbols []) l)) = follow (lookup n (exec_all l [])) p).
    { apply IHl; auto; [intros bf k i body af ->; apply (N (s :: bf) k i body af); reflexivity|intros c a b X; apply (I c a b); now right|intros m i b X; apply (C m i b); now right|].
      intros m i b X. apply (IH m i b). now right. }
    cbn [fold_left].
    destruct (in_dec Nat.eq_dec n (concat (map names_of l))) as [Hl|Hl].
    { rewrite REST, (exec_start l n P' Hl (execute taken s []) []).
      destruct (follow (lookup n (exec_all l [])) p) eqn:F; [reflexivity|].
      destruct s as [k i b|k i b|c a b|]; [| |exfalso; apply (I c a b); now left|reflexivity].
      - change (symbols [] (Def k i b)) with (prefix [k] [([], i)]). destruct (Nat.eq_dec n k) as [->|Hk]; [|now apply get_prefix_other].
        rewrite get_prefix. destruct p as [|m q]; [|reflexivity]. exfalso. revert F. apply follow_nil. now apply exec_bound.
      - cbn [symbols app]. rewrite symbols_list. change (([k], i) :: prefix [k] (concat (map (symbols []) b))) with (prefix [k] (([], i) :: concat (map (symbols []) b))).
        apply get_prefix_other. intros ->. exact (D k i b eq_refl Hl). }
    destruct (in_dec Nat.eq_dec n (names_of s)) as [Hn|Hn].
    - rewrite (get_names l n p P' Hl). rewrite (exec_other l _ n P' Hl).
      destruct s as [k i b|k i b|c a b|]; cbn [names_of] in Hn; try contradiction; destruct Hn as [->|[]]; cbn [symbols execute lookup app]; rewrite Nat.eqb_refl; cbn [follow].
      + change ([([n], i)]) with (prefix [n] [([], i)]). rewrite get_prefix. cbn. destruct p; reflexivity.
      + rewrite symbols_list. change (([n], i) :: prefix [n] (concat (map (symbols []) b))) with (prefix [n] (([], i) :: concat (map (symbols []) b))).
        rewrite get_prefix. cbn [get]. destruct p as [|m q].
        * rewrite list_nonempty. reflexivity.
        * rewrite (IH n i b (or_introl eq_refl)). destruct (refers _ (m :: q)); reflexivity.
    - assert (SN : get (n :: p) (symbols [] s) = None).
      { assert (P1 : plain [s]).
        { constructor.
          - intros bf k i body af E. destruct bf as [|x [|y bf]]; try discriminate. injection E as _ <-. intros [].
          - intros c a b [X|[]]. apply (I c a b). now left.
          - intros m i b [X|[]]. apply (C m i b). now left. }
        pose proof (get_names [s] n p P1) as G. cbn in G. rewrite !app_nil_r in G. apply G. exact Hn. }
      rewrite SN, REST. rewrite !(exec_other l _ n P' Hl). rewrite exec_step; [reflexivity| |exact Hn]. intros c a b ->. apply (I c a b). now left.
  Qed.
End Run.
