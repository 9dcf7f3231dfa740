(** Proofs about warnings. *)
From Coq Require Import List Arith Bool Lia Permutation.
From Verif Require Import Prelude WrnModel WrnSpec.
Import ListNotations.

Section Wrn.
  Variable msg : Type.

  Section Ind.
    Variable P : node msg -> Prop.
    Hypothesis H : forall i l b cs a k, Forall P cs -> P (Node i l b cs a k).
    Fixpoint node_ind2 (n : node msg) : P n :=
      match n with
      | Node i l b cs a k => H i l b cs a k ((fix all (l : list (node msg)) : Forall P l :=
          match l with [] => Forall_nil _ | x :: r => Forall_cons x (node_ind2 x) (all r) end) cs)
      end.
  End Ind.

  Fixpoint visit_all (l : list (node msg)) (s : list (list msg)) : result (list (list msg) * list (nat * list msg)) :=
    match l with
    | [] => Ok (s, [])
    | c :: r => let? a := visit c s in let? b := visit_all r (fst a) in Ok (fst b, snd a ++ snd b)
    end.
  Lemma visit_eq : forall id lines before cs after keeps stack,
    visit (Node id lines before cs after keeps) stack =
    let? stack := warn_all (if lines then [] :: stack else stack) before in
    let? sc := visit_all cs stack in
    let? stack := warn_all (fst sc) after in
    if lines then
      match stack with
      | [] => Err RuntimeError
      | remaining :: rest =>
          if keeps then Ok (rest, snd sc ++ [(id, rev remaining)])
          else match rest with [] => Ok ([], snd sc) | w :: r => Ok ((w ++ remaining) :: r, snd sc) end
      end
    else Ok (stack, snd sc).
  Proof. reflexivity. Qed.

  Fixpoint comments (n : node msg) : list (nat * list msg) :=
    match n with
    | Node i l b cs a k => concat (map comments cs) ++ (if l && k then [(i, rev (belongs (Node i l b cs a k)))] else [])
    end.

  Lemma warn_all_top : forall (ms w : list msg) r, warn_all (w :: r) ms = Ok ((w ++ ms) :: r).
  Proof.
    induction ms as [|m ms IH]; intros w r; cbn; [now rewrite app_nil_r|]. rewrite IH, <- app_assoc. reflexivity.
  Qed.

  Definition up (n : node msg) : list msg := if holds n then [] else belongs n.

  Lemma visit_all_top : forall cs,
    Forall (fun n => forall w r, visit n (w :: r) = Ok ((w ++ up n) :: r, comments n)) cs ->
    forall w r, visit_all cs (w :: r) = Ok ((w ++ concat (map up cs)) :: r, concat (map comments cs)).
  Proof.
    induction 1 as [|c cs H F IH]; intros w r; cbn [visit_all map concat]; [now rewrite app_nil_r|].
    rewrite H. cbn [rbind fst snd]. rewrite IH. cbn [rbind fst snd]. now rewrite <- app_assoc.
  Qed.

  Lemma visit_top : forall n w r, visit n (w :: r) = Ok ((w ++ up n) :: r, comments n).
  Proof.
    induction n as [i l b cs a k IH] using node_ind2. intros w r. rewrite visit_eq. unfold up. cbn [holds]. destruct l.
    - rewrite warn_all_top. cbn [rbind app]. rewrite (visit_all_top cs IH). cbn [rbind fst snd].
      rewrite warn_all_top. cbn [rbind]. cbn [andb comments belongs].
      destruct k; cbn [andb]; [now rewrite app_nil_r, <- app_assoc|]. rewrite app_nil_r, <- app_assoc. reflexivity.
    - rewrite warn_all_top. cbn [rbind]. rewrite (visit_all_top cs IH). cbn [rbind fst snd]. rewrite warn_all_top. cbn [rbind andb comments belongs].
      rewrite app_nil_r, <- !app_assoc. reflexivity.
  Qed.

  Lemma visit_root : forall n, holds n = true -> visit n [] = Ok ([], comments n).
  Proof.
    intros [i l b cs a k] H. cbn in H. apply andb_prop in H as [-> ->]. rewrite visit_eq, warn_all_top. cbn [rbind app].
    rewrite (visit_all_top cs) by (apply Forall_forall; intros; apply visit_top). cbn [rbind fst snd]. rewrite warn_all_top.
    cbn [rbind comments belongs andb]. now rewrite <- app_assoc.
  Qed.

  Lemma given_split : forall n, Permutation (given n) (up n ++ concat (map snd (comments n))).
  Proof.
    induction n as [i l b cs a k IH] using node_ind2.
    assert (C : Permutation (concat (map given cs)) (concat (map up cs) ++ concat (map snd (concat (map comments cs))))).
    { induction IH as [|c cs H F IHF]; cbn; [constructor|]. rewrite H, IHF, map_app, concat_app.
      rewrite <- !app_assoc. apply Permutation_app_head. rewrite !app_assoc. apply Permutation_app_tail. apply Permutation_app_comm. }
    assert (G : Permutation (given (Node i l b cs a k)) (belongs (Node i l b cs a k) ++ concat (map snd (concat (map comments cs))))).
    { cbn [given belongs]. rewrite C. fold up. change (map (fun c => if holds c then [] else belongs c) cs) with (map up cs).
      rewrite <- !app_assoc. do 2 apply Permutation_app_head. apply Permutation_app_comm. }
    rewrite G. unfold up. cbn [holds comments]. destruct (l && k).
    - rewrite map_app, concat_app. cbn. rewrite app_nil_r. rewrite Permutation_app_comm. apply Permutation_app_head. apply Permutation_rev.
    - now rewrite app_nil_r.
  Qed.

  Lemma comments_in : forall n i ws, In (i, ws) (comments n) <-> exists m, below n m /\ holds m = true /\ i = id_of m /\ ws = rev (belongs m).
  Proof.
    induction n as [j l b cs a k IH] using node_ind2. intros i ws. cbn [comments]. rewrite in_app_iff, in_concat. rewrite Forall_forall in IH. split.
    - intros [(x & Hx & H)|H].
      + apply in_map_iff in Hx as (c & <- & Hc). apply (IH c Hc) in H as (m & B & R). exists m. split; [eapply below_child; eauto|exact R].
      + destruct (l && k) eqn:E; [|contradiction]. destruct H as [H|[]]. injection H as <- <-. eexists. split; [apply below_self|]. split; [exact E|]. split; reflexivity.
    - intros (m & B & E & -> & ->). inversion B as [n0 E0|i0 l0 b0 cs0 a0 k0 c m0 Hc Bc E0 E1]; subst.
      + right. cbn [holds] in E. rewrite E. now left.
      + left. exists (comments c). split; [now apply in_map|]. apply (IH c Hc). exists m. auto.
  Qed.
End Wrn.
