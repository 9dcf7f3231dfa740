(** Proofs for C90-C93, first part: what is the same for all passes, and the passes before isolation. *)
From Coq Require Import String Ascii.
From Verif Require Import Prelude AqModel AqSpec.
Local Open Scope nat_scope.
Local Open Scope list_scope.

(** ** Induction *)
Section Ind.
  Variable P : expr -> Prop.
  Hypotheses (Hn : forall x, P (Name x)) (Hl : forall c, P (Lit c)) (HN : forall k l, Forall P l -> P (Node k l))
    (HB : forall o a b, P a -> P b -> P (Boolean o a b)) (HI : forall t a b, P t -> P a -> P b -> P (IfExp t a b))
    (HC : forall f l, Forall P l -> P (Comp f l)) (HL : forall ps b, P b -> P (Lambda ps b))
    (HW : forall x e, P e -> P (Walrus x e)) (HD : forall e, P e -> P (Cand e)).
  Fixpoint expr_ind' (e : expr) : P e :=
    let all := fix all (l : list expr) : Forall P l := match l with [] => Forall_nil _ | e :: l' => Forall_cons e (expr_ind' e) (all l') end in
    match e with
    | Name x => Hn x | Lit c => Hl c | Node k l => HN k l (all l)
    | Boolean o a b => HB o a b (expr_ind' a) (expr_ind' b)
    | IfExp t a b => HI t a b (expr_ind' t) (expr_ind' a) (expr_ind' b)
    | Comp f l => HC f l (all l) | Lambda ps b => HL ps b (expr_ind' b)
    | Walrus x e => HW x e (expr_ind' e) | Cand e => HD e (expr_ind' e)
    end.
End Ind.
Section SInd.
  Variable P : stmt -> Prop.
  Hypotheses (HL : forall l, P (Line l)) (HS : forall l, P (Suite l)) (HI : forall t b o, Forall P b -> Forall P o -> P (If t b o))
    (HW : forall t b, Forall P b -> P (While t b)) (HF : forall t it b, Forall P b -> P (For t it b)).
  Fixpoint stmt_ind' (p : stmt) : P p :=
    let all := fix all (l : list stmt) : Forall P l := match l with [] => Forall_nil _ | e :: l' => Forall_cons e (stmt_ind' e) (all l') end in
    match p with
    | Line l => HL l | Suite l => HS l | If t b o => HI t b o (all b) (all o)
    | While t b => HW t b (all b) | For t it b => HF t it b (all b)
    end.
End SInd.

(** ** Marks *)
Lemma erase_mark : forall e, erase (mark e) = erase e.
Proof.
  induction e using expr_ind'; cbn; try congruence.
  - assert (E : map erase (map mark l) = map erase l).
    { rewrite map_map. induction H as [|e l He _ IH]; cbn; [reflexivity | rewrite He, IH; reflexivity]. }
    destruct k; cbn; try (rewrite E; reflexivity); try (destruct (forallb simple_literal (map mark l)); cbn; rewrite E; reflexivity).
    destruct l as [|f l]; [reflexivity|]. destruct (is_super f || bypassed f); cbn; f_equal; exact E.
  - f_equal. rewrite map_map. induction H as [|e l He _ IH]; cbn; [reflexivity | rewrite He, IH; reflexivity].
Qed.
Lemma names_mark : forall e, names (mark e) = names e.
Proof.
  induction e using expr_ind'; cbn; try congruence.
  - assert (E : flat_map names (map mark l) = flat_map names l).
    { induction H as [|e l He _ IH]; cbn; [reflexivity | rewrite He, IH; reflexivity]. }
    destruct k; cbn; try exact E; try (destruct (forallb simple_literal (map mark l)); exact E).
    destruct l as [|f l]; [reflexivity|]. destruct (is_super f || bypassed f); exact E.
  - induction H as [|e l He _ IH]; cbn; [reflexivity | rewrite He, IH; reflexivity].
Qed.
Lemma literal_mark : forall e, source e = true -> simple_literal (mark e) = of_literals e.
Proof.
  induction e using expr_ind'; cbn; intros S; try reflexivity; try discriminate.
  rewrite forallb_forall in S.
  assert (E : forallb simple_literal (map mark l) = forallb of_literals l).
  { clear k. induction H as [|e l He _ IH]; cbn; [reflexivity|]. rewrite He by (apply S; left; reflexivity).
    rewrite IH; [reflexivity | intros; apply S; right; assumption]. }
  destruct k; cbn; try reflexivity.
  - destruct l as [|f l]; [reflexivity|]. destruct (is_super f || bypassed f); reflexivity.
  - rewrite E. destruct (forallb of_literals l) eqn:O; cbn; [exact E | reflexivity].
  - rewrite E. destruct (forallb of_literals l) eqn:O; cbn; [exact E | reflexivity].
Qed.
Lemma full_name_called : forall e n, full_name e = Some n <-> called e n.
Proof.
  intros e n. split.
  - revert n. induction e using expr_ind'; intros n E; cbn in E; try discriminate; [injection E as <-; constructor|].
    destruct k; try discriminate; try (injection E as <-; constructor); destruct l as [|v l]; try discriminate; inversion H as [|? ? Hv _]; subst.
    + constructor. apply Hv. exact E.
    + destruct (full_name v) as [m|]; [|discriminate]. injection E as <-. constructor. apply Hv. reflexivity.
    + constructor. apply Hv. exact E.
  - intros C. induction C; cbn; try reflexivity; try assumption. rewrite IHC. reflexivity.
Qed.
Lemma binary_meant : forall o, binary_of o = meant o.
Proof. intros []; reflexivity. Qed.
Lemma left_alone_iff : forall f, is_super f || bypassed f = true <-> left_alone f.
Proof.
  intros f. rewrite orb_true_iff. unfold left_alone. split.
  - intros [H|H].
    + destruct f; cbn in H; try discriminate.
      * left. apply String.eqb_eq in H. subst. reflexivity.
      * destruct k; try discriminate. right. left. apply String.eqb_eq in H. subst. eexists. reflexivity.
    + right. right. unfold bypassed in H. destruct (full_name f) as [n|] eqn:N; [|discriminate]. apply full_name_called in N.
      exists n. split; [exact N|]. apply existsb_exists in H. destruct H as (m & I & E). apply String.eqb_eq in E. subst. exact I.
  - intros [-> | [[l ->] | (n & E & I)]]; [left; reflexivity | left; reflexivity |].
    right. unfold bypassed. apply full_name_called in E. rewrite E. apply existsb_exists. exists n. split; [exact I | apply String.eqb_refl].
Qed.
Lemma mark_marked : forall e, source e = true -> marked e (mark e).
Proof.
  induction e using expr_ind'; cbn [source]; intros S; try (constructor; auto; fail); try discriminate.
  - rewrite forallb_forall in S.
    assert (F : Forall2 marked l (map mark l)).
    { clear k. induction H as [|e l He _ IH]; cbn; constructor; [apply He, S; left; reflexivity | apply IH; intros; apply S; right; assumption]. }
    assert (O : forallb simple_literal (map mark l) = forallb of_literals l).
    { clear - S. induction l as [|e l IH]; cbn; [reflexivity|]. rewrite literal_mark by (apply S; left; reflexivity).
      rewrite IH; [reflexivity | intros; apply S; right; assumption]. }
    cbn [mark]. destruct k; try (apply m_node; [intros [] | exact F]).
    + destruct l as [|f l].
      * apply m_cand; [|exact F]. intros (f & l' & E & _). discriminate.
      * destruct (is_super f || bypassed f) eqn:B.
        -- apply m_node; [|exact F]. intros C. apply C. exists f, l. split; [reflexivity | apply left_alone_iff; exact B].
        -- apply m_cand; [|exact F]. intros (f' & l' & E & A). injection E as <- <-. apply left_alone_iff in A. congruence.
    + rewrite O. destruct (forallb of_literals l) eqn:B.
      * apply m_node; [|exact F]. intros (e & I & N). rewrite forallb_forall in B. rewrite (B e I) in N. discriminate.
      * apply m_cand; [|exact F]. clear - B. induction l as [|e l IH]; [discriminate|]. cbn in B. apply andb_false_iff in B.
        destruct (of_literals e) eqn:X; [|exists e; split; [left; reflexivity | exact X]].
        destruct B as [B|B]; [discriminate|]. destruct (IH B) as (e' & I & N). exists e'. split; [right; exact I | exact N].
    + rewrite O. destruct (forallb of_literals l) eqn:B.
      * apply m_node; [|exact F]. intros (e & I & N). rewrite forallb_forall in B. rewrite (B e I) in N. discriminate.
      * apply m_cand; [|exact F]. clear - B. induction l as [|e l IH]; [discriminate|]. cbn in B. apply andb_false_iff in B.
        destruct (of_literals e) eqn:X; [|exists e; split; [left; reflexivity | exact X]].
        destruct B as [B|B]; [discriminate|]. destruct (IH B) as (e' & I & N). exists e'. split; [right; exact I | exact N].
  - apply andb_true_iff in S. destruct S. constructor; auto.
  - apply andb_true_iff in S. destruct S as [S ?]. apply andb_true_iff in S. destruct S. constructor; auto.
  - rewrite forallb_forall in S. cbn [mark]. constructor.
    clear f. induction H as [|e l He _ IH]; cbn; constructor; [apply He, S; left; reflexivity | apply IH; intros; apply S; right; assumption].
Qed.
Lemma mark_source : forall e, source e = true -> erase (mark e) = e.
Proof.
  intros e S. rewrite erase_mark. revert S. induction e using expr_ind'; cbn; intros S; try reflexivity; try discriminate.
  - f_equal. rewrite forallb_forall in S. clear k. induction H as [|e l He _ IH]; cbn; [reflexivity|].
    rewrite He by (apply S; left; reflexivity). rewrite IH; [reflexivity | intros; apply S; right; assumption].
  - apply andb_true_iff in S. destruct S. rewrite IHe1, IHe2; auto.
  - apply andb_true_iff in S. destruct S as [S ?]. apply andb_true_iff in S. destruct S. rewrite IHe1, IHe2, IHe3; auto.
  - f_equal. rewrite forallb_forall in S. clear f. induction H as [|e l He _ IH]; cbn; [reflexivity|].
    rewrite He by (apply S; left; reflexivity). rewrite IH; [reflexivity | intros; apply S; right; assumption].
  - rewrite IHe; auto.
  - rewrite IHe; auto.
Qed.

Section Meaning.
  Context {V U : Type} (s : semantics V U).
  Notation eval := (eval s). Notation evals := (evals s). Notation assign := (assign s). Notation assigns := (assigns s).
  Notation exec_small := (exec_small s). Notation exec_smalls := (exec_smalls s).

  Lemma eval_node : forall k l st, eval (Node k l) st = bind (evals l st) (fun vs st => lift (apply s k vs) st).
  Proof. reflexivity. Qed.
  Fixpoint each (l : list expr) (vs : list V) (st : state V U) : result unit * state V U :=
    match l, vs with
    | [], _ | _, [] => (Ok tt, st)
    | t :: l', v :: vs' => bind (assign t v st) (fun _ st => each l' vs' st)
    end.
  Lemma assign_tuple : forall l v st, assign (Node Tuple l) v st = bind (lift (unpack s (length l) v) st) (fun vs st => each l vs st).
  Proof. reflexivity. Qed.
  Lemma assign_list : forall l v st, assign (Node ListDisplay l) v st = bind (lift (unpack s (length l) v) st) (fun vs st => each l vs st).
  Proof. reflexivity. Qed.
  Lemma exec_if : forall fuel t b o st, exec s fuel (If t b o) st
    = on (bind (eval t st) (fun v st => lift (truth s v) st)) (fun c st => run s fuel (if c then b else o) st).
  Proof. reflexivity. Qed.
  Lemma exec_while : forall fuel t b st, exec s fuel (While t b) st = loop fuel (while_round s (eval t) (run s fuel b)) st.
  Proof. reflexivity. Qed.
  Lemma exec_for : forall fuel t it b st, exec s fuel (For t it b) st
    = on (bind (eval it st) (fun v st => lift (iterator s v) st)) (fun i st => loop fuel (for_round s (assign t) i (run s fuel b)) st).
  Proof. reflexivity. Qed.

  Lemma bind_ext : forall {A B} (m : result A * state V U) (k k' : A -> state V U -> result B * state V U),
    (forall a st, k a st = k' a st) -> bind m k = bind m k'.
  Proof. intros A B [[a|e] st] k k' H; cbn; auto. Qed.
  Lemma on_ext : forall {A} (m : result A * state V U) (k k' : A -> state V U -> out V U),
    (forall a st, k a st = k' a st) -> on m k = on m k'.
  Proof. intros A [[a|e] st] k k' H; cbn; auto. Qed.
  Lemma andthen_ext : forall (o : out V U) k k', (forall st, k st = k' st) -> andthen o k = andthen o k'.
  Proof. intros [] k k' H; cbn; auto. Qed.
  Lemma loop_ext : forall fuel (r r' : state V U -> option (out V U) * state V U) st, (forall st, r st = r' st) -> loop fuel r st = loop fuel r' st.
  Proof.
    induction fuel as [|n IH]; cbn; intros r r' st H; [reflexivity|]. rewrite H.
    destruct (r' st) as [[[]|] ?]; auto.
  Qed.
  Lemma andthen_assoc : forall (o : out V U) k k', andthen (andthen o k) k' = andthen o (fun st => andthen (k st) k').
  Proof. intros [] k k'; reflexivity. Qed.
  Lemma run_app : forall fuel l l' st, run s fuel (l ++ l') st = andthen (run s fuel l st) (run s fuel l').
  Proof.
    induction l as [|p l IH]; cbn; intros l' st; [reflexivity|]. rewrite andthen_assoc. apply andthen_ext. auto.
  Qed.
  Lemma run_lines : forall fuel l st, run s fuel (map (fun m => Line [m]) l) st = exec_smalls l st.
  Proof.
    induction l as [|m l IH]; cbn; intros st; [reflexivity|]. rewrite andthen_assoc. apply andthen_ext. intros. cbn. apply IH.
  Qed.
  Lemma run_one : forall fuel p st, run s fuel [p] st = exec s fuel p st.
  Proof. intros. cbn [run]. destruct (exec s fuel p st); reflexivity. Qed.

  (** *** splitting lines *)
  Lemma split_same : forall fuel p st, run s fuel (split_stmt p) st = exec s fuel p st.
  Proof.
    intros fuel. induction p using stmt_ind'; intros st.
    - destruct l as [|m [|m' l]]; [reflexivity | cbn; destruct (exec_small m st); reflexivity |].
      cbn [split_stmt]. rewrite run_lines. reflexivity.
    - cbn [split_stmt]. apply run_lines.
    - cbn [split_stmt]. rewrite run_one, !exec_if. apply on_ext. intros c st'.
      assert (R : forall l, Forall (fun p => forall st, run s fuel (split_stmt p) st = exec s fuel p st) l ->
                  forall st, run s fuel (flat_map split_stmt l) st = run s fuel l st).
      { clear. induction 1 as [|p l Hp _ IH]; intros st; [reflexivity|]. cbn [flat_map run]. rewrite run_app, Hp. apply andthen_ext. exact IH. }
      destruct c; apply R; assumption.
    - cbn [split_stmt]. rewrite run_one, !exec_while. apply loop_ext. intros st'. unfold while_round.
      destruct (bind (eval t st') (fun v st => lift (truth s v) st)) as [[[]|] st2]; try reflexivity. f_equal. f_equal. clear st st'.
      revert st2. induction H as [|p l Hp _ IH]; intros st; [reflexivity|]. cbn [flat_map run]. rewrite run_app, Hp. apply andthen_ext. exact IH.
    - cbn [split_stmt]. rewrite run_one, !exec_for. apply on_ext. intros i st'. apply loop_ext. intros st2. unfold for_round.
      destruct (lift (next s i) st2) as [[[v|]|] st3]; try reflexivity. destruct (assign t v st3) as [[]st4]; try reflexivity. f_equal. f_equal. clear st st' st2 st3.
      revert st4. induction H as [|p l Hp _ IH]; intros st; [reflexivity|]. cbn [flat_map run]. rewrite run_app, Hp. apply andthen_ext. exact IH.
  Qed.
  Lemma split_all_same : forall fuel l st, run s fuel (split l) st = run s fuel l st.
  Proof.
    intros fuel. unfold split. induction l as [|p l IH]; intros st; [reflexivity|]. cbn [flat_map run]. rewrite run_app, split_same. apply andthen_ext. exact IH.
  Qed.

  (** *** marks *)
  Lemma eval_mark : forall e st, eval (mark e) st = eval e st.
  Proof.
    induction e using expr_ind'; intros st; try reflexivity.
    - assert (E : forall st, evals (map mark l) st = evals l st).
      { clear k st. induction H as [|e l He _ IH]; intros st; [reflexivity|]. cbn [map evals AqModel.evals]. rewrite He.
        apply bind_ext. intros. rewrite IH. reflexivity. }
      assert (N : eval (Node k (map mark l)) st = eval (Node k l) st) by (rewrite !eval_node, E; reflexivity).
      cbn [mark]. destruct k; try exact N; try (destruct (forallb simple_literal (map mark l)); exact N).
      destruct l as [|f l]; [exact N|]. destruct (is_super f || bypassed f); exact N.
    - cbn. rewrite IHe1. apply bind_ext. intros. apply bind_ext. intros t ?. destruct (Bool.eqb t o); auto.
    - cbn. rewrite IHe1. apply bind_ext. intros. apply bind_ext. intros t ?. destruct t; auto.
    - cbn. f_equal. f_equal.
      + rewrite map_map. apply map_ext. exact erase_mark.
      + f_equal. clear. induction l as [|e l IH]; cbn; [reflexivity|]. rewrite names_mark, IH. reflexivity.
    - cbn. rewrite erase_mark, names_mark. reflexivity.
    - cbn. rewrite IHe. reflexivity.
    - cbn. rewrite IHe. reflexivity.
  Qed.
  Lemma evals_mark : forall l st, evals (map mark l) st = evals l st.
  Proof.
    induction l as [|e l IH]; intros st; [reflexivity|]. cbn [map evals AqModel.evals]. rewrite eval_mark. apply bind_ext. intros. rewrite IH. reflexivity.
  Qed.
  Lemma assign_mark : forall t v st, assign (mark t) v st = assign t v st.
  Proof.
    induction t using expr_ind'; intros v st; try reflexivity.
    assert (E : forall vs st, each (map mark l) vs st = each l vs st).
    { clear k st v. induction H as [|t l Ht _ IH]; intros vs st; [destruct vs; reflexivity|]. destruct vs as [|v vs]; [reflexivity|].
      cbn [map each]. rewrite Ht. apply bind_ext. intros. apply IH. }
    cbn [mark]. destruct k; try reflexivity.
    - destruct l as [|f l]; [reflexivity|]. destruct (is_super f || bypassed f); reflexivity.
    - destruct (forallb simple_literal (map mark l)); reflexivity.
    - destruct (forallb simple_literal (map mark l)); reflexivity.
    - cbn [assign AqModel.assign]. rewrite evals_mark. reflexivity.
    - cbn [assign AqModel.assign]. rewrite evals_mark. reflexivity.
    - rewrite !assign_tuple, map_length. apply bind_ext. intros. apply E.
    - rewrite !assign_list, map_length. apply bind_ext. intros. apply E.
  Qed.
  Lemma assigns_mark : forall l v st, assigns (map mark l) v st = assigns l v st.
  Proof. induction l as [|t l IH]; intros v st; [reflexivity|]. cbn. rewrite assign_mark. apply bind_ext. intros. apply IH. Qed.
  Lemma augment_mark : forall t o v st, augment s (mark t) o (mark v) st = augment s t o v st.
  Proof.
    intros t o v st. destruct t; try reflexivity.
    - cbn [mark augment]. apply bind_ext. intros. rewrite eval_mark. reflexivity.
    - cbn [mark]. destruct k; try reflexivity.
      + destruct l as [|f l]; [reflexivity|]. destruct (is_super f || bypassed f); reflexivity.
      + destruct (forallb simple_literal (map mark l)); reflexivity.
      + destruct (forallb simple_literal (map mark l)); reflexivity.
      + cbn [augment]. rewrite evals_mark. apply bind_ext. intros. apply bind_ext. intros. rewrite eval_mark. reflexivity.
      + cbn [augment]. rewrite evals_mark. apply bind_ext. intros. apply bind_ext. intros. rewrite eval_mark. reflexivity.
  Qed.
  Lemma exec_mark_small : forall m st, exec_small (mark_small m) st = exec_small m st.
  Proof.
    intros [ts v|t o v|e|[e|]|t [m|]|e [c|]| | |] st; cbn [mark_small exec_small AqModel.exec_small option_map]; try reflexivity; try (rewrite eval_mark; reflexivity).
    - rewrite eval_mark. apply on_ext. intros. rewrite assigns_mark. reflexivity.
    - rewrite augment_mark. reflexivity.
    - rewrite eval_mark. apply on_ext. intros. apply on_ext. intros []; [reflexivity|]. intros. rewrite eval_mark. reflexivity.
    - rewrite eval_mark. apply on_ext. intros. rewrite eval_mark. reflexivity.
  Qed.

  (** *** passes that rewrite small statements and expressions *)
  Section Rewriting.
    Variables (f : small -> small) (g : expr -> expr) (ok : small -> bool).
    Hypotheses (Hf : forall m st, ok m = true -> exec_small (f m) st = exec_small m st)
      (Hg : forall e st, eval (g e) st = eval e st) (Ht : forall t v st, assign (g t) v st = assign t v st).
    Lemma smalls_same : forall l st, forallb ok l = true -> exec_smalls (map f l) st = exec_smalls l st.
    Proof.
      induction l as [|m l IH]; intros st H; [reflexivity|]. cbn in H. apply andb_true_iff in H. destruct H as [H1 H2].
      cbn. rewrite Hf by exact H1. apply andthen_ext. intros. apply IH. exact H2.
    Qed.
    Lemma stmt_same : forall fuel p st, every ok p = true -> exec s fuel (map_stmt f g p) st = exec s fuel p st.
    Proof.
      intros fuel.
      assert (R : forall l, Forall (fun p => forall st, every ok p = true -> exec s fuel (map_stmt f g p) st = exec s fuel p st) l ->
                forall st, forallb (every ok) l = true -> run s fuel (map (map_stmt f g) l) st = run s fuel l st).
      { induction 1 as [|p l Hp _ IH]; intros st E; [reflexivity|]. cbn in E. apply andb_true_iff in E. destruct E as [E1 E2].
        cbn [map run]. rewrite Hp by exact E1. apply andthen_ext. intros. apply IH. exact E2. }
      induction p using stmt_ind'; intros st E; cbn [every] in E.
      - cbn. apply smalls_same. exact E.
      - cbn. apply smalls_same. exact E.
      - apply andb_true_iff in E. destruct E as [E1 E2]. cbn [map_stmt]. rewrite !exec_if, Hg. apply on_ext. intros [] ?; apply R; assumption.
      - cbn [map_stmt]. rewrite !exec_while. apply loop_ext. intros st'. unfold while_round. rewrite Hg.
        destruct (bind (eval t st') (fun v st => lift (truth s v) st)) as [[[]|] st2]; try reflexivity. rewrite R by assumption. reflexivity.
      - cbn [map_stmt]. rewrite !exec_for, Hg. apply on_ext. intros i st'. apply loop_ext. intros st2. unfold for_round.
        destruct (lift (next s i) st2) as [[[v|]|] st3]; try reflexivity. rewrite Ht. destruct (assign t v st3) as [[]st4]; try reflexivity.
        rewrite R by assumption. reflexivity.
    Qed.
    Lemma rewriting_same : forall fuel l st, forallb (every ok) l = true -> run s fuel (map (map_stmt f g) l) st = run s fuel l st.
    Proof.
      intros fuel. induction l as [|p l IH]; intros st E; [reflexivity|]. cbn in E. apply andb_true_iff in E. destruct E as [E1 E2].
      cbn [map run]. rewrite stmt_same by exact E1. apply andthen_ext. intros. apply IH. exact E2.
    Qed.
  End Rewriting.
  Lemma every_true : forall p, every (fun _ => true) p = true.
  Proof.
    assert (A : forall (l : list small), forallb (fun _ => true) l = true) by (induction l; auto).
    assert (R : forall l, Forall (fun p => every (fun _ => true) p = true) l -> forallb (every (fun _ => true)) l = true).
    { induction 1 as [|p l H _ IH]; cbn; [reflexivity | rewrite H; exact IH]. }
    induction p using stmt_ind'; cbn; auto. rewrite !R by assumption. reflexivity.
  Qed.
  Lemma mark_all_same : forall fuel l st, run s fuel (mark_all l) st = run s fuel l st.
  Proof.
    intros. apply rewriting_same with (ok := fun _ => true).
    - intros. apply exec_mark_small.
    - apply eval_mark.
    - apply assign_mark.
    - apply forallb_forall. intros. apply every_true.
  Qed.

  (** *** stable expressions *)
  Variable stable : kind -> bool.
  Hypothesis Hstable : forall k, stable k = true -> stable_kind s k.

  Lemma no_walrus_env : forall e, no_walrus e = true -> forall st, fst (snd (eval e st)) = fst st.
  Proof.
    induction e using expr_ind'; cbn [no_walrus]; intros W st; try reflexivity; try discriminate.
    - rewrite eval_node. assert (E : forall st, fst (snd (evals l st)) = fst st).
      { clear k st. induction H as [|e l He _ IH]; intros st; [reflexivity|]. cbn in W. apply andb_true_iff in W. destruct W as [W1 W2].
        specialize (He W1 st). cbn. destruct (eval e st) as [[v|x] st']; cbn in *; [|exact He].
        specialize (IH W2 st'). destruct (evals l st') as [[vs|x] st2]; cbn in *; congruence. }
      specialize (E st). destruct (evals l st) as [[vs|x] st']; cbn in *; [|exact E]. unfold lift. destruct (apply s k vs (snd st')) as [? ?]. exact E.
    - apply andb_true_iff in W. destruct W as [W1 W2]. specialize (IHe1 W1 st). cbn. destruct (eval e1 st) as [[v|x] st']; cbn in *; [|exact IHe1].
      unfold lift. destruct (truth s v (snd st')) as [[t|] u]; cbn; [|exact IHe1]. destruct (Bool.eqb t o); [|exact IHe1].
      rewrite IHe2 by exact W2. exact IHe1.
    - apply andb_true_iff in W. destruct W as [W W3]. apply andb_true_iff in W. destruct W as [W1 W2]. specialize (IHe1 W1 st). cbn. destruct (eval e1 st) as [[v|x] st']; cbn in *; [|exact IHe1].
      unfold lift. destruct (truth s v (snd st')) as [[t|] u]; cbn; [|exact IHe1]. destruct t; [rewrite IHe2 by exact W2 | rewrite IHe3 by exact W3]; exact IHe1.
    - cbn. unfold lift. destruct (comprehend s f (map erase l) (map (fst st) (flat_map names l)) (snd st)). reflexivity.
    - cbn. apply IHe. exact W.
  Qed.
  Lemma calm_eval : forall e, calm stable e = true -> forall rho, exists r, forall u, eval e (rho, u) = (r, (rho, u)).
  Proof.
    induction e using expr_ind'; cbn [calm]; intros C rho; try discriminate.
    - eexists. intros. cbn. reflexivity.
    - eexists. intros. cbn. reflexivity.
    - apply andb_true_iff in C. destruct C as [C1 C2].
      assert (E : exists r, forall u, evals l (rho, u) = (r, (rho, u))).
      { clear k C1. induction H as [|e l He _ IH]; [exists (Ok []); reflexivity|]. cbn in C2. apply andb_true_iff in C2. destruct C2 as [C1 C2].
        destruct (He C1 rho) as [r Hr], (IH C2) as [rs Hrs].
        exists (match r with Ok v => match rs with Ok vs => Ok (v :: vs) | Err x => Err x end | Err x => Err x end).
        intros u. cbn. rewrite Hr. destruct r; cbn; [|reflexivity]. rewrite Hrs. destruct rs; reflexivity. }
      destruct E as [[vs|x] E].
      + destruct (Hstable k C1 vs) as [r Hr]. exists r. intros u. rewrite eval_node, E. cbn. unfold lift. cbn. rewrite Hr. reflexivity.
      + exists (Err x). intros u. rewrite eval_node, E. reflexivity.
    - eexists. intros. cbn. reflexivity.
    - cbn. apply IHe. exact C.
  Qed.
  Lemma calm_evals : forall l, forallb (calm stable) l = true -> forall rho, exists r, forall u, evals l (rho, u) = (r, (rho, u)).
  Proof.
    induction l as [|e l IH]; intros C rho; [exists (Ok []); reflexivity|]. cbn in C. apply andb_true_iff in C. destruct C as [C1 C2].
    destruct (calm_eval e C1 rho) as [r Hr], (IH C2 rho) as [rs Hrs].
    exists (match r with Ok v => match rs with Ok vs => Ok (v :: vs) | Err x => Err x end | Err x => Err x end).
    intros u. cbn. rewrite Hr. destruct r; cbn; [|reflexivity]. rewrite Hrs. destruct rs; reflexivity.
  Qed.

  (** *** augmented assignments *)
  Lemma expand_item : forall k l o v st, (k = Subscript \/ exists a, k = Attribute a) ->
    (forall a b u, inplace s o a b u = apply s (Binary (binary_of o)) [a; b] u) ->
    forallb (calm stable) l && no_walrus v = true ->
    exec_small (Assign [Node k l] (Node (Binary (binary_of o)) [Node k l; v])) st = exec_small (AugAssign (Node k l) o v) st.
  Proof.
    intros k l o v [rho u] K I C. apply andb_true_iff in C. destruct C as [C W].
    destruct (calm_evals l C rho) as [r Hr].
    assert (A : exec_small (AugAssign (Node k l) o v) (rho, u)
      = ends (bind (evals l (rho, u)) (fun vs st => bind (lift (apply s k vs) st) (fun a st => bind (eval v st) (fun b st =>
          bind (lift (inplace s o a b) st) (fun r st => lift (store s k vs r) st)))))).
    { destruct K as [->|[a ->]]; reflexivity. }
    rewrite A. clear A.
    assert (B : forall w st, assigns [Node k l] w st = bind (bind (evals l st) (fun vs st => lift (store s k vs w) st)) (fun _ st => (Ok tt, st))).
    { intros. destruct K as [->|[a ->]]; reflexivity. }
    cbn [exec_small AqModel.exec_small]. rewrite eval_node. cbn [evals AqModel.evals]. rewrite eval_node, Hr.
    destruct r as [vs|x]; [|reflexivity]. cbn [bind].
    unfold lift. cbn [fst snd]. destruct (apply s k vs u) as [[a|x] u1]; [|reflexivity]. cbn [bind].
    pose proof (no_walrus_env v W (rho, u1)) as N. destruct (eval v (rho, u1)) as [[b|x] [rho2 u2]]; [|reflexivity]. cbn in N. subst rho2. cbn [bind].
    cbn [fst snd]. rewrite I. destruct (apply s (Binary (binary_of o)) [a; b] u2) as [[w|x] u3]; [|reflexivity]. cbn [on bind].
    rewrite B, Hr. unfold lift. cbn [bind fst snd]. destruct (store s k vs w u3) as [[[]|x] u4]; reflexivity.
  Qed.
  Lemma exec_expand_small : (forall o a b u, inplace s o a b u = apply s (Binary (binary_of o)) [a; b] u) ->
    forall m st, simple_augment stable m = true -> exec_small (expand_small m) st = exec_small m st.
  Proof.
    intros I m st H. destruct m as [|t o v| | | | | | |]; try reflexivity.
    destruct t as [x| |k l| | | | | |]; try discriminate.
    - destruct st as [rho u]. cbn [expand_small exec_small AqModel.exec_small augment]. rewrite eval_node. cbn. destruct (rho x) as [a|]; [|reflexivity]. cbn.
      destruct (eval v (rho, u)) as [[b|e] [rho2 u2]]; [|reflexivity]. cbn. unfold lift. cbn. rewrite I. destruct (apply s (Binary (binary_of o)) [a; b] u2) as [[w|e] u3]; reflexivity.
    - destruct k; try discriminate; cbn [expand_small]; apply expand_item; auto; right; eexists; reflexivity.
  Qed.
  Lemma expand_same : (forall o a b u, inplace s o a b u = apply s (Binary (binary_of o)) [a; b] u) ->
    forall fuel l st, forallb (every (simple_augment stable)) l = true -> run s fuel (expand l) st = run s fuel l st.
  Proof.
    intros I fuel l st H. unfold expand. apply rewriting_same with (ok := simple_augment stable); try reflexivity; [|exact H].
    intros. apply exec_expand_small; assumption.
  Qed.
End Meaning.
