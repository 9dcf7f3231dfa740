(** Scopes, recording and resolving of non-local expressions. *)
From Coq Require Import List Arith Bool Lia Permutation.
From Verif Require Import Prelude NlbModel NlbSpec.
Import ListNotations.

(** ** Induction over syntax *)
Section Ind.
Variables (P : stmt -> Prop) (Pb : block -> Prop) (Po : orelse -> Prop).
Hypothesis Hdoc : P SDoc.
Hypothesis Hasg : forall x c, P (SAsg x c).
Hypothesis Hq : forall t q e, P (SQuant t q e).
Hypothesis Hif : forall c b o, Pb b -> Po o -> P (SIf c b o).
Hypothesis Hfor : forall x c b, Pb b -> P (SFor x c b).
Hypothesis Hblk : forall i l, Forall P l -> Pb (Blk i l).
Hypothesis Hnone : Po ONone.
Hypothesis Helse : forall b, Pb b -> Po (OElse b).
Hypothesis Helif : forall c b o, Pb b -> Po o -> Po (OElif c b o).

Fixpoint stmt_ind3 (s : stmt) : P s :=
  match s with
  | SDoc => Hdoc
  | SAsg x c => Hasg x c
  | SQuant t q e => Hq t q e
  | SIf c b o => Hif c b o (block_ind3 b) (orelse_ind3 o)
  | SFor x c b => Hfor x c b (block_ind3 b)
  end
with block_ind3 (b : block) : Pb b :=
  match b with
  | Blk i l => Hblk i l ((fix go (l : list stmt) : Forall P l :=
                            match l with
                            | [] => Forall_nil _
                            | s :: r => Forall_cons s (stmt_ind3 s) (go r)
                            end) l)
  end
with orelse_ind3 (o : orelse) : Po o :=
  match o with
  | ONone => Hnone
  | OElse b => Helse b (block_ind3 b)
  | OElif c b o' => Helif c b o' (block_ind3 b) (orelse_ind3 o')
  end.

Lemma syntax_ind : (forall s, P s) /\ (forall b, Pb b) /\ (forall o, Po o).
Proof. split; [exact stmt_ind3|split; [exact block_ind3|exact orelse_ind3]]. Qed.
End Ind.

Section ScopeInd.
Variable P : scope -> Prop.
Hypothesis H : forall b ch r, Forall P ch -> P (Scope b ch r).
Fixpoint scope_ind3 (s : scope) : P s :=
  match s with
  | Scope b ch r => H b ch r ((fix go (l : list scope) : Forall P l :=
                                 match l with
                                 | [] => Forall_nil _
                                 | k :: r => Forall_cons k (scope_ind3 k) (go r)
                                 end) ch)
  end.
End ScopeInd.

Lemma expr_eqb_iff : forall a b, expr_eqb a b = true <-> a = b.
Proof.
  intros [a1 a2] [b1 b2]. unfold expr_eqb. cbn. rewrite andb_true_iff, !Nat.eqb_eq.
  split; [intros [-> ->]; reflexivity|intros E; injection E; auto].
Qed.

Lemma expr_eqb_refl : forall a, expr_eqb a a = true.
Proof. intros a. apply expr_eqb_iff. reflexivity. Qed.

Lemma expr_dec : forall a b : expr, {a = b} + {a <> b}.
Proof.
  intros a b. destruct (expr_eqb a b) eqn:E.
  - left. apply expr_eqb_iff. exact E.
  - right. intros ->. rewrite expr_eqb_refl in E. discriminate.
Qed.

(** ** Recorded nodes *)
Definition InR (r : recorded) (e : expr) (u : nat) : Prop := exists us, In (e, us) r /\ In u us.

Lemma extend_InR : forall r e us e' u,
  InR (extend r e us) e' u <-> InR r e' u \/ (e' = e /\ In u us).
Proof.
  induction r as [|[e0 us0] r IH]; intros e us e' u; cbn.
  - split.
    + intros (us' & [E|[]] & Hu). injection E as -> ->. right. split; auto.
    + intros [(us' & [] & _)|[-> Hu]]. exists us. split; [left; reflexivity|exact Hu].
  - destruct (expr_eqb e0 e) eqn:E.
    + apply expr_eqb_iff in E. subst e0. split.
      * intros (us' & [E|Hin] & Hu).
        -- injection E as <- <-. apply in_app_or in Hu. destruct Hu as [Hu|Hu].
           ++ left. exists us0. split; [left; reflexivity|exact Hu].
           ++ right. split; auto.
        -- left. exists us'. split; [right; exact Hin|exact Hu].
      * intros [(us' & [E|Hin] & Hu)|[-> Hu]].
        -- injection E as <- <-. eexists. split; [left; reflexivity|]. apply in_or_app. left. exact Hu.
        -- exists us'. split; [right; exact Hin|exact Hu].
        -- eexists. split; [left; reflexivity|]. apply in_or_app. right. exact Hu.
    + split.
      * intros (us' & [E'|Hin] & Hu).
        -- injection E' as <- <-. left. eexists. split; [left; reflexivity|exact Hu].
        -- destruct (proj1 (IH e us e' u) (ex_intro _ us' (conj Hin Hu))) as [(us2 & H1 & H2)|K].
           ++ left. exists us2. split; [right; exact H1|exact H2].
           ++ right. exact K.
      * intros [(us' & [E'|Hin] & Hu)|K].
        -- injection E' as <- <-. eexists. split; [left; reflexivity|exact Hu].
        -- destruct (proj2 (IH e us e' u) (or_introl (ex_intro _ us' (conj Hin Hu))))
             as (us2 & H1 & H2). exists us2. split; [right; exact H1|exact H2].
        -- destruct (proj2 (IH e us e' u) (or_intror K)) as (us2 & H1 & H2).
           exists us2. split; [right; exact H1|exact H2].
Qed.

Lemma extend_keys : forall r e us k, In k (map fst (extend r e us)) <-> In k (map fst r) \/ k = e.
Proof.
  induction r as [|[e0 us0] r IH]; intros e us k; cbn.
  - split; [intros [->|[]]; auto|intros [[]| ->]; auto].
  - destruct (expr_eqb e0 e) eqn:E; cbn.
    + apply expr_eqb_iff in E. subst. split; [auto|intros [H| ->]; auto].
    + rewrite IH. tauto.
Qed.

Lemma extend_nodup : forall r e us, NoDup (map fst r) -> NoDup (map fst (extend r e us)).
Proof.
  induction r as [|[e0 us0] r IH]; intros e us N; cbn.
  - repeat constructor. intros [].
  - inversion N as [|? ? Hn N']; subst. destruct (expr_eqb e0 e) eqn:E; cbn; constructor; auto.
    rewrite extend_keys. intros [H| ->]; [auto|]. rewrite expr_eqb_refl in E. discriminate.
Qed.

Definition full (r : recorded) : Prop := forall e us, In (e, us) r -> us <> [].

Lemma extend_full : forall r e us, full r -> us <> [] -> full (extend r e us).
Proof.
  induction r as [|[e0 us0] r IH]; intros e us F Hus e' us' Hin; cbn in Hin.
  - destruct Hin as [E|[]]. injection E as <- <-. exact Hus.
  - destruct (expr_eqb e0 e).
    + destruct Hin as [E|Hin].
      * injection E as <- <-. intros K. apply app_eq_nil in K. tauto.
      * apply (F e'). right. exact Hin.
    + destruct Hin as [E|Hin].
      * injection E as <- <-. apply (F e0). left. reflexivity.
      * apply (IH e us) with (e := e'); auto. intros e2 us2 H2. apply (F e2). right. exact H2.
Qed.

Lemma has_iff : forall e r, has e r = true <-> In e (map fst r).
Proof.
  intros e r. unfold has. rewrite existsb_exists, in_map_iff. split.
  - intros ([e' us] & Hin & E). apply expr_eqb_iff in E. exists (e', us). split; auto.
  - intros ([e' us] & E & Hin). exists (e', us). split; [exact Hin|]. apply expr_eqb_iff. exact E.
Qed.

Lemma InR_key : forall r e u, InR r e u -> In e (map fst r).
Proof. intros r e u (us & Hin & _). apply in_map_iff. exists (e, us). split; auto. Qed.

(** ** The scope of a block *)
Definition own_step (r : recorded) (x : nat * expr) : recorded := extend r (snd x) [fst x].
Definition own_all (l : list (nat * expr)) (r : recorded) : recorded := fold_left own_step l r.

Lemma own_all_InR : forall l r e u, InR (own_all l r) e u <-> InR r e u \/ In (u, e) l.
Proof.
  induction l as [|[u0 e0] l IH]; intros r e u; cbn.
  - tauto.
  - unfold own_all in IH. rewrite IH. unfold own_step. cbn. rewrite extend_InR. cbn. split.
    + intros [[H|[-> [->|[]]]]|H]; auto.
    + intros [H|[E|H]]; auto. injection E as -> ->. left. right. split; auto.
Qed.

Lemma own_all_nodup : forall l r, NoDup (map fst r) -> NoDup (map fst (own_all l r)).
Proof.
  induction l as [|[u0 e0] l IH]; intros r N; cbn; auto. apply IH. apply extend_nodup. exact N.
Qed.

Lemma own_all_full : forall l r, full r -> full (own_all l r).
Proof.
  induction l as [|[u0 e0] l IH]; intros r N; cbn; auto. apply IH. apply extend_full; auto. discriminate.
Qed.

(** What is recorded in the scope itself, and the branches below it; loop bodies count twice. *)
Fixpoint own (st : stmt) : list (nat * expr) :=
  match st with
  | SDoc | SQuant _ _ _ => []
  | SAsg _ c => call_uses c
  | SIf c _ _ => call_uses c
  | SFor _ c (Blk _ l) => call_uses c ++ flat_map own l ++ flat_map own l
  end.
Definition own_block (b : block) : list (nat * expr) := flat_map own (block_body b).

Fixpoint kids (st : stmt) : list block :=
  match st with
  | SDoc | SQuant _ _ _ | SAsg _ _ => []
  | SIf _ b (OElse b') => [b; b']
  | SIf _ b _ => [b]
  | SFor _ _ (Blk _ l) => flat_map kids l ++ flat_map kids l
  end.
Definition kids_block (b : block) : list block := flat_map kids (block_body b).

Definition S_ (b : block) : scope := rec_block (fresh (block_id b)) b.

Definition grow (s : scope) (ks : list block) (us : list (nat * expr)) : scope :=
  let 'Scope b ch r := s in Scope b (ch ++ map S_ ks) (own_all us r).

Lemma grow_grow : forall s k1 u1 k2 u2,
  grow (grow s k1 u1) k2 u2 = grow s (k1 ++ k2) (u1 ++ u2).
Proof.
  intros [b ch r] k1 u1 k2 u2. cbn. rewrite map_app, app_assoc. unfold own_all.
  rewrite fold_left_app. reflexivity.
Qed.

Lemma rec_args_grow : forall l s, rec_args s l = grow s [] (flat_map arg_uses l).
Proof.
  induction l as [|a l IH]; intros [b ch r]; cbn.
  - rewrite app_nil_r. reflexivity.
  - destruct a as [x|e|u e]; cbn; try apply (IH (Scope b ch r)).
    rewrite IH. cbn. reflexivity.
Qed.

Definition rec_list : scope -> list stmt -> scope := fun s l => fold_left rec_stmt l s.

Lemma rec_block_eq : forall i l s, rec_block s (Blk i l) = rec_list s l.
Proof.
  intros i l. cbn [rec_block]. induction l as [|st l IH]; intros s; [reflexivity|]. cbn. apply IH.
Qed.

Lemma rec_grow :
  (forall st s, no_elif st = true -> rec_stmt s st = grow s (kids st) (own st))
  /\ (forall b s, no_elif_block b = true -> rec_block s b = grow s (kids_block b) (own_block b))
  /\ (forall o s, no_elif_orelse o = true ->
        rec_orelse s o = match o with OElse b => add_child s (S_ b) | _ => s end).
Proof.
  apply syntax_ind.
  - intros [b ch r] _. cbn. rewrite app_nil_r. reflexivity.
  - intros x c s _. cbn. apply rec_args_grow.
  - intros t q e [b ch r] _. cbn. rewrite app_nil_r. reflexivity.
  - intros c b o Hb Ho s E. cbn in E. apply andb_true_iff in E. destruct E as [E1 E2].
    cbn [rec_stmt]. rewrite Ho by exact E2. rewrite rec_args_grow.
    destruct s as [b0 ch r]. destruct o as [|b'|]; [| |discriminate]; cbn.
    + rewrite app_nil_r. reflexivity.
    + rewrite app_nil_r, <- app_assoc. reflexivity.
  - intros x c b Hb s E. cbn in E. cbn [rec_stmt]. rewrite !Hb by exact E. rewrite rec_args_grow.
    rewrite !grow_grow. destruct b as [i l]. reflexivity.
  - intros i l HF s E. cbn in E. rewrite rec_block_eq. unfold kids_block, own_block. cbn [block_body].
    revert s. induction l as [|st l IH]; intros s.
    + destruct s as [b ch r]. cbn. rewrite app_nil_r. reflexivity.
    + inversion HF as [|? ? H1 H2]; subst. cbn in E. apply andb_true_iff in E. destruct E as [E1 E2].
      unfold rec_list in *. cbn [fold_left]. rewrite IH by auto. rewrite H1 by exact E1. rewrite grow_grow.
      reflexivity.
  - intros s _. reflexivity.
  - intros b Hb s E. reflexivity.
  - intros c b o Hb Ho s E. discriminate.
Qed.

Lemma S_eq : forall b, no_elif_block b = true ->
  S_ b = Scope (block_id b) (map S_ (kids_block b)) (own_all (own_block b) []).
Proof. intros b E. unfold S_. rewrite (proj1 (proj2 rec_grow) b) by exact E. reflexivity. Qed.

(** ** Resolving as a list of annotations *)
Definition adds := list (nat * (expr * list nat)).
Definition add3 (c : ctx) (x : nat * (expr * list nat)) : ctx :=
  add_annotation c (fst x) (fst (snd x)) (snd (snd x)).

Definition kept (cm : expr -> bool) (r : recorded) (m : recorded) : recorded :=
  fold_left (fun r p => if cm (fst p) then extend r (fst p) (snd p) else r) m r.
Definition left_over (cm : expr -> bool) (blk : nat) (m : recorded) : adds :=
  map (fun p => (blk, p)) (filter (fun p => negb (cm (fst p))) m).

Lemma settle_child_eq : forall cm blk m r c,
  settle_child cm blk m (r, c) = (kept cm r m, fold_left add3 (left_over cm blk m) c).
Proof.
  intros cm blk. unfold settle_child, kept, left_over.
  induction m as [|[e us] m IH]; intros r c; [reflexivity|].
  cbn [fold_left fst snd filter]. destruct (cm e); cbn [negb]; rewrite IH; reflexivity.
Qed.

Lemma settle_eq : forall cm l r c,
  settle cm l (r, c) = (fold_left (kept cm) (map snd l) r,
                        fold_left add3 (flat_map (fun p => left_over cm (fst p) (snd p)) l) c).
Proof.
  intros cm. unfold settle. induction l as [|[b m] l IH]; intros r c; [reflexivity|].
  cbn [fold_left fst snd map flat_map]. rewrite settle_child_eq, IH, fold_left_app. reflexivity.
Qed.

(** The nodes a scope hands up, and the annotations it makes. *)
Fixpoint up (s : scope) : recorded :=
  match s with
  | Scope _ [] r => r
  | Scope _ ch r => fold_left (kept (common (map up ch))) (map up ch) r
  end.

Fixpoint down (s : scope) : adds :=
  match s with
  | Scope _ ch r =>
      flat_map down ch
      ++ flat_map (fun p => left_over (common (map up ch)) (fst p) (snd p))
           (map (fun k => (scope_block k, up k)) ch)
  end.

Lemma hoist_eq : forall s c, hoist s c = (up s, fold_left add3 (down s) c).
Proof.
  apply (scope_ind3 (fun s => forall c, hoist s c = (up s, fold_left add3 (down s) c))).
  intros b ch r HF c. cbn [hoist].
  set (go := (fix go (l : list scope) (c : ctx) {struct l} : list (nat * recorded) * ctx :=
    match l with
    | [] => ([], c)
    | k :: l' => let '(m, c1) := hoist k c in let '(ms, c2) := go l' c1 in ((scope_block k, m) :: ms, c2)
    end)).
  assert (G : go ch c = (map (fun k => (scope_block k, up k)) ch,
                         fold_left add3 (flat_map down ch) c)).
  { clear r. revert c. induction ch as [|k ch IH]; intros c; [reflexivity|].
    inversion HF as [|? ? H1 H2]; subst. cbn [go map flat_map]. rewrite H1.
    fold go. rewrite IH by exact H2. rewrite fold_left_app. reflexivity. }
  rewrite G. destruct ch as [|k ch].
  - cbn. reflexivity.
  - assert (E : forall l : list scope, map snd (map (fun k => (scope_block k, up k)) l) = map up l)
      by (intros l; rewrite map_map; reflexivity).
    rewrite settle_eq. cbn [down]. rewrite !E, fold_left_app. reflexivity.
Qed.

Definition all_adds (s : scope) : adds := down s ++ map (fun p => (scope_block s, p)) (up s).

Lemma add_all_eq : forall r blk c, add_all c blk r = fold_left add3 (map (fun p => (blk, p)) r) c.
Proof.
  induction r as [|p r IH]; intros blk c; [reflexivity|]. unfold add_all in *. cbn. apply IH.
Qed.

Lemma resolve_eq : forall s, resolve s = fold_left add3 (all_adds s) (mkCtx [] []).
Proof.
  intros s. unfold resolve, all_adds. rewrite hoist_eq, add_all_eq, fold_left_app. reflexivity.
Qed.

(** ** Quantizer ids *)
Lemma pos_some : forall e l q, pos e l = Some q -> nth_error l q = Some e.
Proof.
  intros e. induction l as [|e0 l IH]; intros q; cbn; [discriminate|].
  destruct (expr_eqb e0 e) eqn:E.
  - intros K. injection K as <-. apply expr_eqb_iff in E. subst. reflexivity.
  - destruct (pos e l) as [k|]; [|discriminate]. intros K. injection K as <-. cbn. apply IH. reflexivity.
Qed.

Lemma pos_none : forall e l, pos e l = None -> ~ In e l.
Proof.
  intros e. induction l as [|e0 l IH]; cbn; [intros _ []|].
  destruct (expr_eqb e0 e) eqn:E; [discriminate|]. destruct (pos e l); [discriminate|].
  intros _ [->|H]; [rewrite expr_eqb_refl in E; discriminate|exact (IH eq_refl H)].
Qed.

Lemma nth_error_ext : forall {A} (l m : list A) i x, nth_error l i = Some x -> nth_error (l ++ m) i = Some x.
Proof. intros A l m i x H. rewrite nth_error_app1; auto. apply nth_error_Some. congruence. Qed.

Record ids_ok (c : ctx) : Prop := {
  io_nodup : NoDup (c_ids c);
  io_nth : forall b a, In (b, a) (c_anns c) -> nth_error (c_ids c) (an_id a) = Some (an_expr a);
  io_used : forall e, In e (c_ids c) -> exists b a, In (b, a) (c_anns c) /\ an_expr a = e }.

Definition strip (x : nat * annotation) : nat * (expr * list nat) :=
  (fst x, (an_expr (snd x), an_uses (snd x))).
Definition nonempty (x : nat * (expr * list nat)) : bool :=
  match snd (snd x) with [] => false | _ => true end.

Lemma add3_ok : forall c x, ids_ok c ->
  ids_ok (add3 c x)
  /\ map strip (c_anns (add3 c x)) = map strip (c_anns c) ++ filter nonempty [x].
Proof.
  intros c [b [e us]] [I1 I2 I3]. unfold add3, add_annotation, nonempty. cbn [fst snd filter].
  destruct us as [|u us].
  - rewrite app_nil_r. split; [constructor; auto|reflexivity].
  - destruct (pos e (c_ids c)) as [q|] eqn:E; cbn [c_ids c_anns].
    + split; [|rewrite map_app; reflexivity]. constructor; cbn [c_ids c_anns]; auto.
      * intros b' a Hin. apply in_app_or in Hin. destruct Hin as [Hin|[Hin|[]]]; [eauto|].
        injection Hin as <- <-. cbn. apply pos_some. exact E.
      * intros e' Hin. destruct (I3 e' Hin) as (b' & a & H1 & H2). exists b', a.
        split; [apply in_or_app; auto|exact H2].
    + split; [|rewrite map_app; reflexivity]. apply pos_none in E. constructor; cbn [c_ids c_anns].
      * apply NoDup_rev in I1. rewrite <- (rev_involutive (c_ids c ++ [e])). apply NoDup_rev.
        rewrite rev_app_distr. cbn. constructor; [rewrite <- in_rev; exact E|exact I1].
      * intros b' a Hin. apply in_app_or in Hin. destruct Hin as [Hin|[Hin|[]]].
        -- apply nth_error_ext. eauto.
        -- injection Hin as <- <-. cbn. rewrite nth_error_app2 by lia. rewrite Nat.sub_diag. reflexivity.
      * intros e' Hin. apply in_app_or in Hin. destruct Hin as [Hin|[<-|[]]].
        -- destruct (I3 e' Hin) as (b' & a & H1 & H2). exists b', a.
           split; [apply in_or_app; auto|exact H2].
        -- eexists _, _. split; [apply in_or_app; right; left; reflexivity|reflexivity].
Qed.

Lemma fold_ok : forall l c, ids_ok c ->
  ids_ok (fold_left add3 l c)
  /\ map strip (c_anns (fold_left add3 l c)) = map strip (c_anns c) ++ filter nonempty l.
Proof.
  induction l as [|x l IH]; intros c H.
  - cbn. rewrite app_nil_r. auto.
  - destruct (add3_ok c x H) as [H1 H2]. destruct (IH _ H1) as [H3 H4]. cbn [fold_left].
    split; [exact H3|]. rewrite H4, H2, <- app_assoc. f_equal. cbn [filter].
    destruct (nonempty x); reflexivity.
Qed.

Lemma ids_start : ids_ok (mkCtx [] []).
Proof. constructor; cbn; [constructor|intros b a []|intros e []]. Qed.

Lemma resolve_ok : forall s,
  ids_ok (resolve s)
  /\ map strip (c_anns (resolve s)) = filter nonempty (all_adds s).
Proof.
  intros s. rewrite resolve_eq. destruct (fold_ok (all_adds s) _ ids_start) as [H1 H2].
  split; [exact H1|]. rewrite H2. reflexivity.
Qed.

(** ** What is handed up *)
Lemma kept_InR : forall cm m r e u,
  InR (kept cm r m) e u <-> InR r e u \/ (cm e = true /\ InR m e u).
Proof.
  intros cm. unfold kept. induction m as [|[e0 us] m IH]; intros r e u; cbn [fold_left fst snd].
  - split; [auto|intros [H|[_ (us & [] & _)]]; exact H].
  - assert (K : InR ((e0, us) :: m) e u <-> (e = e0 /\ In u us) \/ InR m e u).
    { split.
      - intros (us' & [E|Hin] & Hu); [injection E as <- <-; auto|right; exists us'; auto].
      - intros [[-> Hu]|(us' & Hin & Hu)]; [exists us; split; [left; reflexivity|exact Hu]|].
        exists us'. split; [right; exact Hin|exact Hu]. }
    rewrite K, IH. destruct (cm e0) eqn:E.
    + rewrite extend_InR. split.
      * intros [[H|[-> H]]|[H1 H2]]; auto.
      * intros [H|[H1 [[-> H2]|H2]]]; auto.
    + split.
      * intros [H|[H1 H2]]; auto.
      * intros [H|[H1 [[-> H2]|H2]]]; auto. congruence.
Qed.

Lemma kept_all_InR : forall cm ms r e u,
  InR (fold_left (kept cm) ms r) e u
  <-> InR r e u \/ (cm e = true /\ exists m, In m ms /\ InR m e u).
Proof.
  intros cm. induction ms as [|m ms IH]; intros r e u; cbn [fold_left].
  - split; [auto|intros [H|[_ (m & [] & _)]]; exact H].
  - rewrite IH, kept_InR. split.
    + intros [[H|[H1 H2]]|[H1 (m' & H2 & H3)]]; auto.
      * right. split; auto. exists m. split; [left; reflexivity|exact H2].
      * right. split; auto. exists m'. split; [right; exact H2|exact H3].
    + intros [H|[H1 (m' & [->|H2] & H3)]]; auto. right. split; auto. exists m'. auto.
Qed.

Lemma kept_nodup : forall cm m r, NoDup (map fst r) -> NoDup (map fst (kept cm r m)).
Proof.
  intros cm. unfold kept. induction m as [|[e us] m IH]; intros r N; cbn [fold_left fst snd]; auto.
  apply IH. destruct (cm e); auto. apply extend_nodup. exact N.
Qed.
Lemma kept_full : forall cm m r, full r -> full m -> full (kept cm r m).
Proof.
  intros cm. unfold kept. induction m as [|[e us] m IH]; intros r N F; cbn [fold_left fst snd]; auto.
  apply IH.
  - destruct (cm e); auto. apply extend_full; auto. apply (F e). left. reflexivity.
  - intros e' us' Hin. apply (F e'). right. exact Hin.
Qed.

Lemma up_eq : forall b ch r, ch <> [] ->
  up (Scope b ch r) = fold_left (kept (common (map up ch))) (map up ch) r.
Proof. intros b [|k ch] r H; [congruence|reflexivity]. Qed.

Lemma up_InR : forall b ch r e u,
  InR (up (Scope b ch r)) e u
  <-> InR r e u \/ (common (map up ch) e = true /\ exists k, In k ch /\ InR (up k) e u).
Proof.
  intros b ch r e u. destruct ch as [|k0 ch].
  - cbn. split; [auto|intros [H|[_ (k & [] & _)]]; exact H].
  - rewrite up_eq by discriminate. rewrite kept_all_InR. split; (intros [H|[H1 (m & H2 & H3)]]; [auto|right; split; auto]).
    + apply in_map_iff in H2. destruct H2 as (k & <- & H2). exists k. auto.
    + exists (up m). split; [apply in_map; exact H2|exact H3].
Qed.

Lemma down_In : forall b ch r i e us,
  In (i, (e, us)) (down (Scope b ch r))
  <-> (exists k, In k ch /\ In (i, (e, us)) (down k))
      \/ (common (map up ch) e = false
          /\ exists k, In k ch /\ scope_block k = i /\ In (e, us) (up k)).
Proof.
  intros b ch r i e us. cbn [down]. rewrite in_app_iff, !in_flat_map. split.
  - intros [(k & H1 & H2)|((i' & m) & H1 & H2)]; [left; eauto|right].
    apply in_map_iff in H1. destruct H1 as (k & E & H1). injection E as <- <-.
    unfold left_over in H2. apply in_map_iff in H2. destruct H2 as ((e' & us') & E & H2).
    cbn in E. injection E as <- <- <-. apply filter_In in H2. destruct H2 as [H2 H3]. cbn in H3.
    apply negb_true_iff in H3. split; [exact H3|]. exists k. auto.
  - intros [(k & H1 & H2)|(H0 & k & H1 & <- & H2)]; [left; eauto|right].
    exists (scope_block k, up k). split; [apply in_map_iff; exists k; auto|].
    unfold left_over. apply in_map_iff. exists (e, us). split; [reflexivity|].
    apply filter_In. split; [exact H2|]. cbn. rewrite H0. reflexivity.
Qed.

(** ** Blocks *)
Lemma own_in_uses :
  (forall st x, In x (own st) -> In x (uses st))
  /\ (forall b x, In x (own_block b) -> In x (uses_block b))
  /\ (forall o : orelse, True).
Proof.
  apply syntax_ind; cbn; auto.
  - intros c b o _ _ x H. apply in_or_app. left. exact H.
  - intros x c [i l] Hb y H. cbn in Hb. apply in_app_or in H. apply in_or_app.
    destruct H as [H|H]; [left; exact H|right]. apply Hb. apply in_app_or in H.
    unfold own_block. cbn. tauto.
  - intros i l HF x H. unfold own_block in H. cbn in H. apply in_flat_map in H.
    destruct H as (st & H1 & H2). apply in_flat_map. exists st. split; auto.
    rewrite Forall_forall in HF. auto.
Qed.

Lemma kids_in :
  (forall st k, In k (kids st) -> In k (blocks_stmt st)
      /\ (forall x, In x (uses_block k) -> In x (uses st))
      /\ (no_elif st = true -> no_elif_block k = true))
  /\ (forall b k, In k (kids_block b) ->
        (exists st, In st (block_body b) /\ In k (blocks_stmt st))
      /\ (forall x, In x (uses_block k) -> In x (uses_block b))
      /\ (no_elif_block b = true -> no_elif_block k = true))
  /\ (forall o : orelse, True).
Proof.
  apply syntax_ind; try (cbn; tauto).
  - intros c b o _ _ k H. cbn in H.
    assert (Hb : In b (blocks b)) by (destruct b; left; reflexivity).
    destruct o as [|b'|c' b' o']; cbn.
    + destruct H as [<-|[]]. split; [apply in_or_app; left; exact Hb|].
      split; [intros x Hx; rewrite !in_app_iff; auto|]. rewrite andb_true_iff. tauto.
    + assert (Hb' : In b' (blocks b')) by (destruct b'; left; reflexivity).
      destruct H as [<-|[<-|[]]].
      * split; [apply in_or_app; left; exact Hb|].
        split; [intros x Hx; rewrite !in_app_iff; auto|]. rewrite andb_true_iff. tauto.
      * split; [apply in_or_app; right; exact Hb'|].
        split; [intros x Hx; rewrite !in_app_iff; auto|]. rewrite andb_true_iff. tauto.
    + destruct H as [<-|[]]. split; [apply in_or_app; left; exact Hb|].
      split; [intros x Hx; rewrite !in_app_iff; auto|]. rewrite andb_true_iff. intros [_ K]. discriminate.
  - intros x c [i l] Hb k H. cbn in H.
    assert (H' : In k (kids_block (Blk i l))).
    { unfold kids_block. cbn. apply in_app_or in H. tauto. }
    destruct (Hb k H') as ((st & H1 & H2) & H3 & H4). cbn in H1. cbn [blocks_stmt blocks uses no_elif].
    split; [right; apply in_flat_map; exists st; auto|].
    split; [intros y Hy; apply in_or_app; right; auto|exact H4].
  - intros i l HF k H. unfold kids_block in H. cbn in H. apply in_flat_map in H.
    destruct H as (st & H1 & H2). rewrite Forall_forall in HF. destruct (HF st H1 k H2) as (K1 & K2 & K3).
    split; [exists st; auto|]. split.
    + intros x Hx. cbn. apply in_flat_map. exists st. auto.
    + intros E. cbn in E. apply K3. rewrite forallb_forall in E. auto.
Qed.

Lemma uses_split :
  (forall st, no_elif st = true -> forall x, In x (uses st) ->
     In x (own st) \/ exists k, In k (kids st) /\ In x (uses_block k))
  /\ (forall b, no_elif_block b = true -> forall x, In x (uses_block b) ->
     In x (own_block b) \/ exists k, In k (kids_block b) /\ In x (uses_block k))
  /\ (forall o : orelse, True).
Proof.
  apply syntax_ind; try (cbn; tauto).
  - intros c b o _ _ E x H. cbn in E, H. apply andb_true_iff in E. destruct E as [E1 E2].
    apply in_app_or in H. destruct H as [H|H]; [left; exact H|right]. apply in_app_or in H.
    destruct o as [|b'|]; [| |discriminate]; cbn.
    + destruct H as [H|[]]. exists b. auto.
    + destruct H as [H|H]; [exists b|exists b']; auto.
  - intros x c [i l] Hb E y H. cbn in E, H. apply in_app_or in H.
    destruct H as [H|H]; [left; cbn; apply in_or_app; auto|].
    destruct (Hb E y H) as [K|(k & K1 & K2)].
    + left. cbn. unfold own_block in K. cbn in K. rewrite !in_app_iff. auto.
    + right. exists k. split; [|exact K2]. cbn. unfold kids_block in K1. cbn in K1.
      rewrite in_app_iff. auto.
  - intros i l HF E x H. cbn in E, H. apply in_flat_map in H. destruct H as (st & H1 & H2).
    rewrite Forall_forall in HF. rewrite forallb_forall in E.
    destruct (HF st H1 (E st H1) x H2) as [K|(k & K1 & K2)].
    + left. unfold own_block. cbn. apply in_flat_map. exists st. auto.
    + right. exists k. split; [|exact K2]. unfold kids_block. cbn. apply in_flat_map. exists st. auto.
Qed.

(** Induction over the branches below a block. *)
Fixpoint ssize (st : stmt) : nat :=
  match st with
  | SDoc | SAsg _ _ | SQuant _ _ _ => 1
  | SIf _ b o => 1 + bsize b + osize o
  | SFor _ _ b => 1 + bsize b
  end
with bsize (b : block) : nat :=
  match b with Blk _ l => 1 + list_sum (map ssize l) end
with osize (o : orelse) : nat :=
  match o with ONone => 1 | OElse b => 1 + bsize b | OElif _ b o' => 1 + bsize b + osize o' end.

Lemma list_sum_in : forall {A} (f : A -> nat) l x, In x l -> f x <= list_sum (map f l).
Proof.
  intros A f. induction l as [|y l IH]; intros x [].
  - subst. cbn. lia.
  - cbn. specialize (IH x H). unfold list_sum in IH. lia.
Qed.

Lemma kids_size :
  (forall st k, In k (kids st) -> bsize k < ssize st)
  /\ (forall b k, In k (kids_block b) -> bsize k < bsize b)
  /\ (forall o : orelse, True).
Proof.
  apply syntax_ind; try (cbn; tauto).
  - intros c b o _ _ k H. cbn in H. cbn [ssize]. destruct o as [|b'|]; cbn in H; cbn [osize].
    + destruct H as [<-|[]]. lia.
    + destruct H as [<-|[<-|[]]]; lia.
    + destruct H as [<-|[]]. lia.
  - intros x c [i l] Hb k H. cbn in H. cbn [ssize].
    assert (H' : In k (kids_block (Blk i l))) by (unfold kids_block; cbn; apply in_app_or in H; tauto).
    specialize (Hb k H'). lia.
  - intros i l HF k H. unfold kids_block in H. cbn in H. apply in_flat_map in H.
    destruct H as (st & H1 & H2). rewrite Forall_forall in HF. specialize (HF st H1 k H2).
    pose proof (list_sum_in ssize l st H1). cbn [bsize]. lia.
Qed.

Lemma block_kids_ind : forall P : block -> Prop,
  (forall b, (forall k, In k (kids_block b) -> P k) -> P b) -> forall b, P b.
Proof.
  intros P H b. remember (bsize b) as n eqn:E. revert b E.
  induction n as [n IH] using lt_wf_ind. intros b E. apply H. intros k Hk.
  apply (IH (bsize k)); auto. subst. apply (proj1 (proj2 kids_size)). exact Hk.
Qed.

(** What a block hands up, in terms of blocks. *)
Lemma S_block : forall b, scope_block (S_ b) = block_id b.
Proof.
  assert (G : forall l s, scope_block (rec_args s l) = scope_block s).
  { induction l as [|a l IH]; intros [b ch r]; [reflexivity|]. destruct a; cbn; rewrite IH; reflexivity. }
  assert (K : (forall st s, scope_block (rec_stmt s st) = scope_block s)
    /\ (forall b s, scope_block (rec_block s b) = scope_block s)
    /\ (forall o s, scope_block (rec_orelse s o) = scope_block s)).
  { assert (AC : forall s c, scope_block (add_child s c) = scope_block s) by (intros [b ch r] c; reflexivity).
    apply syntax_ind; cbn [rec_stmt rec_orelse]; intros; auto.
    - rewrite H0, AC. auto.
    - rewrite !H. auto.
    - rewrite rec_block_eq. revert s. induction l as [|st l IH]; intros s; [reflexivity|].
      inversion H as [|? ? H1 H2]; subst. unfold rec_list in *. cbn [fold_left]. rewrite IH by auto. apply H1. }
  intros b. unfold S_. rewrite (proj1 (proj2 K)). reflexivity.
Qed.

Lemma up_S : forall b, no_elif_block b = true -> forall e u,
  InR (up (S_ b)) e u
  <-> In (u, e) (own_block b)
      \/ (common (map (fun k => up (S_ k)) (kids_block b)) e = true
          /\ exists k, In k (kids_block b) /\ InR (up (S_ k)) e u).
Proof.
  intros b E e u. rewrite S_eq by exact E. rewrite up_InR, own_all_InR, map_map. split.
  - intros [[(us & [] & _)|H]|[H1 (k & H2 & H3)]]; auto. right. split; [exact H1|].
    apply in_map_iff in H2. destruct H2 as (k' & <- & H2). exists k'. auto.
  - intros [H|[H1 (k & H2 & H3)]]; auto. right. split; [exact H1|]. exists (S_ k).
    split; [apply in_map; exact H2|exact H3].
Qed.

Lemma down_S : forall b, no_elif_block b = true -> forall i e us,
  In (i, (e, us)) (down (S_ b))
  <-> (exists k, In k (kids_block b) /\ In (i, (e, us)) (down (S_ k)))
      \/ (common (map (fun k => up (S_ k)) (kids_block b)) e = false
          /\ exists k, In k (kids_block b) /\ block_id k = i /\ In (e, us) (up (S_ k))).
Proof.
  intros b E i e us. rewrite S_eq by exact E. rewrite down_In, map_map. split.
  - intros [(k & H1 & H2)|(H0 & k & H1 & H2 & H3)]; apply in_map_iff in H1; destruct H1 as (k' & <- & H1).
    + left. exists k'. auto.
    + right. split; [exact H0|]. rewrite S_block in H2. exists k'. auto.
  - intros [(k & H1 & H2)|(H0 & k & H1 & H2 & H3)].
    + left. exists (S_ k). split; [apply in_map; exact H1|exact H2].
    + right. split; [exact H0|]. exists (S_ k). split; [apply in_map; exact H1|]. rewrite S_block. auto.
Qed.

Lemma up_S_tidy : forall b, no_elif_block b = true ->
  NoDup (map fst (up (S_ b))) /\ full (up (S_ b)).
Proof.
  intros b. induction b as [b IH] using block_kids_ind. intros E.
  rewrite S_eq by exact E.
  assert (N0 : NoDup (map fst (own_all (own_block b) []))) by (apply own_all_nodup; constructor).
  assert (F0 : full (own_all (own_block b) [])) by (apply own_all_full; intros e us []).
  set (r := own_all (own_block b) []) in *. clearbody r.
  destruct (map S_ (kids_block b)) as [|k0 ch0] eqn:M; [cbn; auto|].
  rewrite up_eq by discriminate. rewrite <- M. generalize (common (map up (map S_ (kids_block b)))) as cm.
  intros cm. clear M k0 ch0.
  assert (HK : forall k, In k (kids_block b) -> NoDup (map fst (up (S_ k))) /\ full (up (S_ k))).
  { intros k Hk. apply IH; auto. apply (proj1 (proj2 kids_in) b k Hk). exact E. }
  clear IH. induction (kids_block b) as [|k ks IHk] in r, N0, F0, HK |- *; cbn [map fold_left]; auto.
  apply IHk.
  - apply kept_nodup. exact N0.
  - apply kept_full; auto. apply HK. left. reflexivity.
  - intros k' Hk'. apply HK. right. exact Hk'.
Qed.

Lemma up_S_uses : forall b, no_elif_block b = true -> forall e u,
  InR (up (S_ b)) e u -> In (u, e) (uses_block b).
Proof.
  intros b. induction b as [b IH] using block_kids_ind. intros E e u H.
  apply up_S in H; [|exact E]. destruct H as [H|(_ & k & Hk & H)].
  - apply (proj1 (proj2 own_in_uses)). exact H.
  - destruct (proj1 (proj2 kids_in) b k Hk) as (_ & H1 & H2). apply H1. apply IH; auto.
Qed.

Lemma blocks_kid : forall b k B, In k (kids_block b) -> In B (blocks k) -> In B (blocks b).
Proof.
  assert (G : (forall st B, In B (blocks_stmt st) -> forall C, In C (blocks B) -> In C (blocks_stmt st))
    /\ (forall b B, In B (blocks b) -> forall C, In C (blocks B) -> In C (blocks b))
    /\ (forall o B, In B (blocks_orelse o) -> forall C, In C (blocks B) -> In C (blocks_orelse o))).
  { apply syntax_ind; cbn [blocks_stmt blocks_orelse]; try (intros; tauto).
    - intros c b o Hb Ho B HB C HC. apply in_app_or in HB. apply in_or_app.
      destruct HB as [HB|HB]; [left; eapply Hb; eauto|right; eapply Ho; eauto].
    - intros x c b Hb B HB C HC. eapply Hb; eauto.
    - intros i l HF B HB C HC. cbn [blocks] in HB. destruct HB as [<-|HB]; [exact HC|].
      cbn [blocks]. right. apply in_flat_map in HB. destruct HB as (st & H1 & H2).
      rewrite Forall_forall in HF. apply in_flat_map. exists st. split; auto. eapply HF; eauto.
    - intros b Hb B HB C HC. eapply Hb; eauto.
    - intros c b o Hb Ho B HB C HC. apply in_app_or in HB. apply in_or_app.
      destruct HB as [HB|HB]; [left; eapply Hb; eauto|right; eapply Ho; eauto]. }
  intros b k B Hk HB. destruct (proj1 (proj2 kids_in) b k Hk) as ((st & H1 & H2) & _).
  destruct b as [i l]. cbn in H1. cbn [blocks]. right. apply in_flat_map. exists st. split; auto.
  eapply (proj1 G); eauto.
Qed.

Lemma self_block : forall b, In b (blocks b).
Proof. intros [i l]. left. reflexivity. Qed.

Lemma down_S_char : forall b, no_elif_block b = true -> forall i e us,
  In (i, (e, us)) (down (S_ b)) ->
  exists B, In B (blocks b) /\ no_elif_block B = true /\ block_id B = i /\ In (e, us) (up (S_ B)).
Proof.
  intros b. induction b as [b IH] using block_kids_ind. intros E i e us H.
  apply down_S in H; [|exact E].
  destruct H as [(k & Hk & H)|(_ & k & Hk & H1 & H2)].
  - assert (Ek : no_elif_block k = true) by (apply (proj1 (proj2 kids_in) b k Hk); exact E).
    destruct (IH k Hk Ek i e us H) as (B & K1 & K2). exists B. split; [|exact K2].
    eapply blocks_kid; eauto.
  - exists k. split; [eapply blocks_kid; eauto; apply self_block|].
    split; [apply (proj1 (proj2 kids_in) b k Hk); exact E|auto].
Qed.

(** Every use is handed up or annotated at an enclosing block. *)
Lemma cover_S : forall b, no_elif_block b = true -> forall e u, In (u, e) (uses_block b) ->
  InR (up (S_ b)) e u
  \/ exists B us, In B (blocks b) /\ In (u, e) (uses_block B)
       /\ In (block_id B, (e, us)) (down (S_ b)) /\ In u us.
Proof.
  intros b. induction b as [b IH] using block_kids_ind. intros E e u H.
  destruct (proj1 (proj2 uses_split) b E (u, e) H) as [H1|(k & Hk & H1)].
  - left. apply up_S; auto.
  - assert (Ek : no_elif_block k = true) by (apply (proj1 (proj2 kids_in) b k Hk); exact E).
    destruct (IH k Hk Ek e u H1) as [(us & Hin & Hu)|(B & us & K1 & K2 & K3 & K4)].
    + destruct (common (map (fun k => up (S_ k)) (kids_block b)) e) eqn:C.
      * left. apply up_S; auto. right. split; auto. exists k. split; auto. exists us. auto.
      * right. exists k, us. split; [eapply blocks_kid; eauto; apply self_block|].
        split; [exact H1|]. split; [|exact Hu]. apply down_S; auto. right. split; auto. exists k. auto.
    + right. exists B, us. split; [eapply blocks_kid; eauto|]. split; [exact K2|]. split; [|exact K4].
      apply down_S; auto. left. exists k. auto.
Qed.
