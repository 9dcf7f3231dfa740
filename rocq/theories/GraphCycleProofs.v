(** Proofs about [find_cycle]. *)
From Coq Require Import String Ascii Permutation Relations.
From Verif Require Import Prelude GraphModel GraphSpec GraphProofs.
Local Open Scope nat_scope.
Local Open Scope list_scope.

Lemma paint_keys st x c : map fst (paint st x c) = map fst st.
Proof. unfold paint. rewrite map_map. apply map_ext. intros [k v]. cbn. destruct (Nat.eqb_spec k x); cbn; congruence. Qed.
Lemma colour_paint st x c y : In x (map fst st) -> colour_of (paint st x c) y = if y =? x then Ok c else colour_of st y.
Proof.
  unfold colour_of, paint. induction st as [|[k v] st IH]; [intros []|]. cbn [map fst find]. intros H.
  destruct (Nat.eqb_spec k x) as [->|Ne]; cbn [fst find snd].
  - destruct (Nat.eqb_spec x y) as [<-|Ny].
    + now rewrite Nat.eqb_refl.
    + destruct (Nat.eqb_spec y x) as [Ey|_]; [congruence|]. clear IH H. induction st as [|[k v'] st IH]; [reflexivity|].
      cbn [map fst find]. destruct (Nat.eqb_spec k x) as [Ek|Nk]; cbn [fst find].
      * subst k. destruct (Nat.eqb_spec x y); [congruence|exact IH].
      * destruct (k =? y); [reflexivity|exact IH].
  - destruct (Nat.eqb_spec k y) as [<-|Ny]; cbn [snd].
    + destruct (Nat.eqb_spec k x); [congruence|reflexivity].
    + apply IH. destruct H as [->|H]; [congruence|exact H].
Qed.
Lemma succs_arrow e x : edges_ok e -> In x (map fst e) -> exists ss, succs e x = Ok ss /\ forall y, In y ss <-> arrow e x y.
Proof.
  intros [N _] H. apply in_map_iff in H. destruct H as ([k l] & E & H). cbn in E. subst k. exists l. split.
  - unfold succs. clear -N H. induction e as [|[k l'] e IH]; [destruct H|]. cbn in N. inversion N as [|? ? N1 N2]; subst. cbn [find fst].
    destruct H as [E|H]; [injection E as -> ->; now rewrite Nat.eqb_refl|]. destruct (Nat.eqb_spec k x) as [->|]; [|now apply IH].
    exfalso. apply N1. now apply (in_map fst e (x, l)).
  - intros y. split; [intros Hy; exists l; auto|]. intros (l' & H' & Hy).
    assert (l' = l); [|congruence]. clear -N H H'. induction e as [|[k l0] e IH]; [destruct H|]. cbn in N. inversion N as [|? ? N1 N2]; subst.
    destruct H as [E|H], H' as [E'|H'].
    + congruence.
    + injection E as -> ->. exfalso. apply N1. now apply (in_map fst e (x, l')).
    + injection E' as -> ->. exfalso. apply N1. now apply (in_map fst e (x, l)).
    + now apply IH.
Qed.

(** the colours of a state with visiting nodes [g] and finished nodes [f] *)
Definition shade (g f : list nat) (x : nat) : colour :=
  if existsb (Nat.eqb x) g then Visiting else if existsb (Nat.eqb x) f then Visited else Unvisited.
Definition coloured (e : edge_map) (st : list (nat * colour)) (g f : list nat) : Prop :=
  map fst st = map fst e /\ forall x, In x (map fst e) -> colour_of st x = Ok (shade g f x).

Lemma scan_spec st path ss : forall stack, (forall s, In s ss -> exists c, colour_of st s = Ok c) ->
  (exists s, In s ss /\ colour_of st s = Ok Visiting /\ scan st path ss stack = Ok (inl (from_first s path ++ [s]))) \/
  ((forall s, In s ss -> colour_of st s <> Ok Visiting) /\ exists un, scan st path ss stack = Ok (inr (map (fun v => (v, path ++ [v])) un ++ stack)) /\
     length un <= length ss /\ forall v, In v un <-> In v ss /\ colour_of st v = Ok Unvisited).
Proof.
  induction ss as [|s ss IH]; intros stack H.
  - right. split; [intros s []|]. exists []. split; [reflexivity|]. split; [apply le_n|]. intros v. split; [intros []|intros [[] _]].
  - destruct (H s) as (c & E); [now left|]. cbn [scan]. rewrite E. cbn [rbind].
    assert (H' : forall t, In t ss -> exists c, colour_of st t = Ok c) by (intros t Ht; apply H; now right).
    destruct c.
    + destruct (IH ((s, path ++ [s]) :: stack) H') as [(t & Ht & Et & R)|(A & un & R & L & U)].
      * left. exists t. repeat split; try assumption. now right.
      * right. split; [intros t [<-|Ht]; [congruence|now apply A]|]. exists (un ++ [s]). split; [|split].
        -- rewrite R. rewrite map_app, <- app_assoc. reflexivity.
        -- rewrite app_length. cbn [length]. lia.
        -- intros v. rewrite in_app_iff, U. cbn [In]. split.
           ++ intros [[? ?]|[<-|[]]]; [split; [now right|assumption]|split; [now left|exact E]].
           ++ intros [[<-|Hv] Ev]; [right; now left|left; now split].
    + left. exists s. split; [now left|]. now split.
    + destruct (IH stack H') as [(t & Ht & Et & R)|(A & un & R & L & U)].
      * left. exists t. repeat split; try assumption. now right.
      * right. split; [intros t [<-|Ht]; [congruence|now apply A]|]. exists un. split; [exact R|]. split; [cbn [length]; lia|].
        intros v. rewrite U. cbn [In]. split; [intros [? ?]; split; [now right|assumption]|]. intros [[<-|Hv] Ev]; [congruence|now split].
Qed.

(** the stack: for every node being visited, innermost first, the nodes waiting above it *)
Definition frames := list (nat * list nat).
Definition gray (fs : frames) : list nat := map fst fs.
Fixpoint flat (fs : frames) (base : list nat) : list (nat * list nat) :=
  match fs with
  | [] => map (fun v => (v, [v])) base
  | (n, pend) :: fs' => map (fun v => (v, rev (n :: gray fs') ++ [v])) pend ++ (n, rev (n :: gray fs')) :: flat fs' base
  end.
(** [above] is the node visited from the first frame, if any *)
Fixpoint framed (e : edge_map) (fin : list nat) (above : option nat) (fs : frames) : Prop :=
  match fs with
  | [] => True
  | (n, pend) :: fs' =>
      (match above with Some a => arrow e n a | None => True end) /\
      ~ In n (gray fs') /\ ~ In n fin /\ In n (map fst e) /\
      (forall v, In v pend -> arrow e n v /\ ~ In v (n :: gray fs')) /\
      (forall v, arrow e n v -> In v fin \/ In v pend \/ Some v = above) /\
      framed e fin (Some n) fs'
  end.
Definition sorted_fin (e : edge_map) (fin : list nat) : Prop :=
  NoDup fin /\ incl fin (map fst e) /\ forall f1 x f2 v, fin = f1 ++ x :: f2 -> arrow e x v -> In v f2.
Definition DInv (e : edge_map) (st : list (nat * colour)) (fs : frames) (base fin : list nat) : Prop :=
  coloured e st (gray fs) fin /\ framed e fin None fs /\ sorted_fin e fin /\ incl base (map fst e).

Definition load (e : edge_map) (g f : list nat) : nat :=
  list_sum (map (fun u => if existsb (Nat.eqb (fst u)) g || existsb (Nat.eqb (fst u)) f then 0 else 2 * length (snd u) + 2) e).
Definition pending (fs : frames) : nat := list_sum (map (fun f => length (snd f)) fs).
Definition effort (e : edge_map) (fs : frames) (base fin : list nat) : nat :=
  load e (gray fs) fin + length fs + 2 * (pending fs + length base).

Definition closed_walk (e : edge_map) (c : list nat) : Prop := walk e c /\ exists x p, c = x :: p ++ [x].

Lemma walk_snoc e p x y : walk e (p ++ [x]) -> arrow e x y -> walk e (p ++ [x; y]).
Proof.
  induction p as [|a p IH]; intros W A; cbn [app] in *; [constructor; [exact A|constructor]|].
  destruct p as [|b p]; cbn [app] in *.
  - inversion W; subst. constructor; [assumption|]. now apply IH.
  - inversion W; subst. constructor; [assumption|]. now apply IH.
Qed.
Lemma framed_walk e fin n pend fs : forall above, framed e fin above ((n, pend) :: fs) -> walk e (rev (n :: gray fs)).
Proof.
  revert n pend. induction fs as [|[m pd] fs IH]; intros n pend above F; [constructor|].
  destruct F as (_ & _ & _ & _ & _ & _ & F). pose proof (IH m pd (Some n) F) as W. destruct F as (A & _).
  cbn [gray map fst rev] in *. rewrite <- app_assoc. cbn [app]. now apply walk_snoc.
Qed.
Lemma from_first_split s p : In s p -> exists p1 p2, p = p1 ++ s :: p2 /\ from_first s p = s :: p2.
Proof.
  induction p as [|y p IH]; intros H; [destruct H|]. cbn [from_first]. destruct (Nat.eqb_spec y s) as [->|Ne].
  - exists [], p. auto.
  - destruct H as [->|H]; [congruence|]. destruct (IH H) as (p1 & p2 & -> & E). exists (y :: p1), p2. auto.
Qed.
Lemma walk_suffix e p1 x p2 : walk e (p1 ++ x :: p2) -> walk e (x :: p2).
Proof.
  induction p1 as [|a p1 IH]; intros W; [exact W|]. apply IH. destruct p1 as [|b p1]; cbn [app] in *; now inversion W.
Qed.
Lemma cycle_found e s x l : walk e (rev (x :: l)) -> In s (x :: l) -> arrow e x s -> closed_walk e (from_first s (rev (x :: l)) ++ [s]).
Proof.
  intros W H A. apply in_rev in H. destruct (from_first_split s _ H) as (p1 & p2 & E & ->). split.
  - rewrite E in W. apply walk_suffix in W. destruct p2 as [|y p2] using rev_ind.
    + assert (x = s); [|subst; constructor; [exact A|constructor]]. cbn [rev] in E. apply app_inj_tail in E. now destruct E.
    + clear IHp2. assert (y = x); [|subst]. { cbn [rev] in E. change (p1 ++ s :: p2 ++ [y]) with (p1 ++ (s :: p2) ++ [y]) in E. rewrite app_assoc in E. apply app_inj_tail in E. now destruct E. }
      change ((s :: p2 ++ [x]) ++ [s]) with (s :: ((p2 ++ [x]) ++ [s])). rewrite <- app_assoc. cbn [app].
      change (s :: p2 ++ [x; s]) with ((s :: p2) ++ [x; s]). now apply walk_snoc.
  - exists s, p2. reflexivity.
Qed.

Lemma framed_mono e fin fin' : forall fs above, incl fin fin' -> (forall x, In x fin' -> In x fin \/ ~ In x (gray fs)) -> framed e fin above fs -> framed e fin' above fs.
Proof.
  induction fs as [|[n pend] fs IH]; intros above I D F; [exact F|]. cbn [framed] in *. destruct F as (A & N1 & N2 & K & P & C & F).
  split; [exact A|]. split; [exact N1|]. split; [|split; [exact K|split; [exact P|split]]].
  - intros H. destruct (D n H) as [H'|H']; [contradiction|]. apply H'. now left.
  - intros v Hv. destruct (C v Hv) as [H|H]; [left; now apply I|now right].
  - apply IH; try assumption. intros x Hx. destruct (D x Hx) as [?|H]; [now left|right]. intros G. apply H. now right.
Qed.

Lemma lsum_cons a l : list_sum (a :: l) = a + list_sum l.
Proof. reflexivity. Qed.
Lemma load_gray e x g f ss : edges_ok e -> In x (map fst e) -> succs e x = Ok ss -> ~ In x g -> ~ In x f ->
  load e (x :: g) f + 2 * length ss + 2 <= load e g f.
Proof.
  intros [N _] H E G F. unfold load. clear -N H E G F.
  assert (Le : forall e : edge_map, list_sum (map (fun u => if existsb (Nat.eqb (fst u)) (x :: g) || existsb (Nat.eqb (fst u)) f then 0 else 2 * length (snd u) + 2) e)
             <= list_sum (map (fun u => if existsb (Nat.eqb (fst u)) g || existsb (Nat.eqb (fst u)) f then 0 else 2 * length (snd u) + 2) e)).
  { induction e0 as [|[k l] e0 IH]; [apply le_n|]. cbn [map fst snd existsb] in *. rewrite !lsum_cons. destruct (k =? x); cbn [orb]; destruct (existsb (Nat.eqb k) g || existsb (Nat.eqb k) f); lia. }
  induction e as [|[k l] e IH]; [destruct H|]. cbn in N. inversion N as [|? ? N1 N2]; subst. cbn [map fst snd existsb] in *.
  rewrite !lsum_cons. unfold succs in *. cbn [find fst snd] in E.
  destruct (Nat.eqb_spec k x) as [->|Ne].
  - injection E as ->. cbn [orb]. apply mem_notin in G, F. rewrite G, F. cbn [orb]. specialize (Le e). lia.
  - cbn [orb]. destruct H as [->|H]; [congruence|]. specialize (IH N2 H E). destruct (existsb (Nat.eqb k) g || existsb (Nat.eqb k) f); lia.
Qed.
Lemma load_ext e g f g' f' : (forall x, In x (map fst e) -> existsb (Nat.eqb x) g || existsb (Nat.eqb x) f = existsb (Nat.eqb x) g' || existsb (Nat.eqb x) f') ->
  load e g f = load e g' f'.
Proof. intros H. unfold load. f_equal. apply map_ext_in. intros [k l] Hk. cbn. rewrite (H k); [reflexivity|]. now apply (in_map fst e (k, l)). Qed.

Lemma shade_unvisited g f x : shade g f x = Unvisited <-> ~ In x g /\ ~ In x f.
Proof. unfold shade. rewrite <- !mem_notin. destruct (existsb (Nat.eqb x) g), (existsb (Nat.eqb x) f); intuition discriminate. Qed.
Lemma shade_visiting g f x : shade g f x = Visiting <-> In x g.
Proof. unfold shade. rewrite <- mem_in. destruct (existsb (Nat.eqb x) g), (existsb (Nat.eqb x) f); intuition discriminate. Qed.


Section Dig.
  Variable e : edge_map.
  Hypothesis E : edges_ok e.

  Lemma paint_coloured st g fin v : coloured e st g fin -> In v (map fst e) -> coloured e (paint st v Visiting) (v :: g) fin.
  Proof.
    intros [K C] H. split; [now rewrite paint_keys|]. intros x Hx. rewrite colour_paint by now rewrite K.
    unfold shade. cbn [existsb]. destruct (x =? v); [reflexivity|]. now apply C.
  Qed.
  Lemma arrow_key x y : arrow e x y -> In y (map fst e).
  Proof. apply E. Qed.

  Lemma expand st g fin v stack : coloured e st g fin -> In v (map fst e) -> ~ In v g -> ~ In v fin -> walk e (rev (v :: g)) ->
    (exists c, (forall k, dig (S k) e st ((v, rev (v :: g)) :: stack) = Ok (inl c)) /\ closed_walk e c) \/
    (exists un ss, (forall k, dig (S k) e st ((v, rev (v :: g)) :: stack) =
         dig k e (paint st v Visiting) (map (fun w => (w, rev (v :: g) ++ [w])) un ++ (v, rev (v :: g)) :: stack)) /\
       coloured e (paint st v Visiting) (v :: g) fin /\
       (forall w, In w un -> arrow e v w /\ ~ In w (v :: g)) /\
       (forall w, arrow e v w -> In w fin \/ In w un) /\ succs e v = Ok ss /\ length un <= length ss).
  Proof.
    intros C Hv Ng Nf W. pose proof (paint_coloured st g fin v C Hv) as C1. destruct (succs_arrow e v E Hv) as (ss & Es & As).
    assert (D : forall k, dig (S k) e st ((v, rev (v :: g)) :: stack) =
      let? r := scan (paint st v Visiting) (rev (v :: g)) ss ((v, rev (v :: g)) :: stack) in
      match r with inl cyc => Ok (inl cyc) | inr s' => dig k e (paint st v Visiting) s' end).
    { intros k. cbn [dig]. rewrite (proj2 C v Hv). cbn [rbind]. assert (shade g fin v = Unvisited) as -> by now apply shade_unvisited.
      cbn [colour_eqb]. rewrite Es. reflexivity. }
    destruct (scan_spec (paint st v Visiting) (rev (v :: g)) ss ((v, rev (v :: g)) :: stack)) as [(s & Hs & Cs & R)|(A & un & R & L & U)].
    - intros s Hs. eexists. apply (proj2 C1). apply As in Hs. now apply arrow_key in Hs.
    - left. eexists. split; [intros k; rewrite D, R; reflexivity|]. apply As in Hs as Ar. apply cycle_found; [exact W| |exact Ar].
      rewrite (proj2 C1) in Cs by now apply arrow_key in Ar. injection Cs as Cs. now apply shade_visiting in Cs.
    - right. exists un, ss. split; [intros k; rewrite D, R; reflexivity|]. split; [exact C1|]. split; [|split; [|split; [exact Es|exact L]]].
      + intros w Hw. apply U in Hw. destruct Hw as [Hw Cw]. apply As in Hw. split; [exact Hw|].
        rewrite (proj2 C1) in Cw by now apply arrow_key in Hw. injection Cw as Cw. now apply shade_unvisited in Cw.
      + intros w Hw. apply As in Hw as Hs. specialize (A w Hs). rewrite (proj2 C1) in A by now apply arrow_key in Hw.
        destruct (in_dec Nat.eq_dec w fin) as [?|Nw]; [now left|]. right. apply U. split; [exact Hs|].
        rewrite (proj2 C1) by now apply arrow_key in Hw. f_equal. apply shade_unvisited. split; [|exact Nw].
        intros G. apply A. f_equal. now apply shade_visiting.
  Qed.

  Lemma revisit st g fin v pa stack : coloured e st g fin -> sorted_fin e fin -> (forall x, In x g -> ~ In x fin) -> In v fin -> 
    exists st', (forall k, dig (S (S k)) e st ((v, pa) :: stack) = dig k e st' stack) /\ coloured e st' g fin.
  Proof.
    intros C (Nf & If & Sf) Dj Hf. assert (Hv : In v (map fst e)) by now apply If.
    assert (Ng : ~ In v g) by (intros G; now apply (Dj v G)).
    pose proof (paint_coloured st g fin v C Hv) as C1. destruct (succs_arrow e v E Hv) as (ss & Es & As).
    assert (Vs : forall s, In s ss -> colour_of (paint st v Visiting) s = Ok Visited).
    { intros s Hs. apply As in Hs. apply in_split in Hf. destruct Hf as (f1 & f2 & Ef). pose proof (Sf f1 v f2 s Ef Hs) as H2.
      assert (s <> v). { intros ->. rewrite Ef in Nf. apply NoDup_remove_2 in Nf. apply Nf. rewrite in_app_iff. now right. }
      assert (Hsf : In s fin) by (rewrite Ef, in_app_iff; right; now right).
      rewrite (proj2 C1) by now apply If. f_equal. unfold shade. cbn [existsb]. destruct (Nat.eqb_spec s v); [congruence|]. cbn [orb].
      assert (existsb (Nat.eqb s) g = false) as -> by (apply mem_notin; intros G; now apply (Dj s G)).
      now apply mem_in in Hsf as ->. }
    exists (paint (paint st v Visiting) v Visited). split.
    - intros k. cbn [dig]. rewrite (proj2 C v Hv). cbn [rbind].
      assert (shade g fin v = Visited) as ->. { unfold shade. apply mem_notin in Ng as ->. now apply mem_in in Hf as ->. }
      cbn [colour_eqb]. rewrite Es. cbn [rbind].
      destruct (scan_spec (paint st v Visiting) pa ss ((v, pa) :: stack)) as [(s & Hs & Cs & R)|(A & un & R & L & U)].
      + intros s Hs. eexists. now apply Vs.
      + rewrite Vs in Cs by exact Hs. discriminate.
      + assert (un = []) as ->. { destruct un as [|u un]; [reflexivity|]. destruct (proj1 (U u)) as [Hu Cu]; [now left|]. rewrite Vs in Cu by exact Hu. discriminate. }
        rewrite R. cbn [rbind map app]. rewrite (proj2 C1 v Hv). cbn [rbind].
        assert (shade (v :: g) fin v = Visiting) as -> by (apply shade_visiting; now left). reflexivity.
    - destruct C1 as [K1 C1]. split; [now rewrite paint_keys|]. intros x Hx. rewrite colour_paint by now rewrite K1.
      destruct (Nat.eqb_spec x v) as [->|Ne].
      + f_equal. unfold shade. apply mem_notin in Ng as ->. now apply mem_in in Hf as ->.
      + rewrite (C1 x Hx). f_equal. unfold shade. cbn [existsb]. destruct (Nat.eqb_spec x v); [congruence|reflexivity].
  Qed.

  Lemma framed_disjoint fin fs : forall above, framed e fin above fs -> forall x, In x (gray fs) -> ~ In x fin.
  Proof.
    induction fs as [|[n p] fs IH]; intros above F x H; [destruct H|]. destruct F as (_ & _ & N & _ & _ & _ & F).
    destruct H as [<-|H]; [exact N|]. now apply (IH (Some n)).
  Qed.
  Lemma framed_nodup fin fs : forall above, framed e fin above fs -> NoDup (gray fs).
  Proof.
    induction fs as [|[n p] fs IH]; intros above F; [constructor|]. destruct F as (_ & N & _ & _ & _ & _ & F). constructor; [exact N|now apply (IH (Some n))].
  Qed.

  Lemma framed_done fin n fs : ~ In n (gray fs) -> framed e fin (Some n) fs -> framed e (n :: fin) None fs.
  Proof.
    destruct fs as [|[m p] fs]; intros Ng F; [exact I|]. cbn [framed] in *. destruct F as (A & N1 & N2 & K & P & Q & F). split; [exact I|].
    split; [exact N1|]. split; [|split; [exact K|split; [exact P|split]]].
    - intros [->|H]; [apply Ng; now left|contradiction].
    - intros v Hv. destruct (Q v Hv) as [H|[H|H]]; [left; now right|now (right; left)|]. injection H as ->. left. now left.
    - apply (framed_mono e fin); [now apply incl_tl, incl_refl| |exact F].
      intros x [<-|Hx]; [right|now left]. intros G. apply Ng. now right.
  Qed.
  Lemma framed_pop fin n v pend fs above : framed e fin above ((n, v :: pend) :: fs) -> In v fin -> framed e fin above ((n, pend) :: fs).
  Proof.
    cbn [framed]. intros (A & N1 & N2 & K & P & Q & F) H. split; [exact A|]. split; [exact N1|]. split; [exact N2|]. split; [exact K|].
    split; [intros w Hw; apply P; now right|]. split; [|exact F]. intros w Hw. destruct (Q w Hw) as [G|[[<-|G]|G]]; auto.
  Qed.
  Lemma framed_push fin n v pend fs : framed e fin None ((n, v :: pend) :: fs) -> framed e fin (Some v) ((n, pend) :: fs).
  Proof.
    cbn [framed]. intros (A & N1 & N2 & K & P & Q & F). split; [apply P; now left|]. split; [exact N1|]. split; [exact N2|]. split; [exact K|].
    split; [intros w Hw; apply P; now right|]. split; [|exact F]. intros w Hw. destruct (Q w Hw) as [G|[[<-|G]|G]]; auto. discriminate.
  Qed.
  Lemma sorted_fin_cons fin n : sorted_fin e fin -> ~ In n fin -> In n (map fst e) -> (forall v, arrow e n v -> In v fin) -> sorted_fin e (n :: fin).
  Proof.
    intros (N & K & A) Nn Hn Q. split; [now constructor|]. split; [intros x [<-|Hx]; [exact Hn|now apply K]|].
    intros [|y f1] x f2 v Eq Hv; cbn [app] in Eq; injection Eq as -> Eq; subst.
    - now apply Q.
    - now apply (A f1 x f2 v).
  Qed.
  Lemma pending_cons n p fs : pending ((n, p) :: fs) = length p + pending fs.
  Proof. reflexivity. Qed.
  Lemma gray_cons n (p : list nat) fs : gray ((n, p) :: fs) = n :: gray fs.
  Proof. reflexivity. Qed.

  Definition outcome (must : list nat) (r : list nat + list (nat * colour)) : Prop :=
    match r with
    | inl c => closed_walk e c
    | inr st' => exists fin', DInv e st' [] [] fin' /\ incl must fin'
    end.

  Lemma dig_spec must : forall m st fs base fin, effort e fs base fin <= m -> DInv e st fs base fin ->
    (forall x, In x must -> In x base \/ In x fin \/ In x (gray fs)) ->
    exists r, (forall fuel, m <= fuel -> dig fuel e st (flat fs base) = Ok r) /\ outcome must r.
  Proof.
    induction m as [m IH] using lt_wf_ind. intros st fs base fin Le (C & F & Sf & Ib) Mu.
    destruct fs as [|[n pend] fs].
    - destruct base as [|v base].
      + exists (inr st). split; [intros [|k] _; reflexivity|]. exists fin. split; [split; [exact C|split; [exact F|split; [exact Sf|exact Ib]]]|].
        intros x Hx. destruct (Mu x Hx) as [[]|[?|[]]]; assumption.
      + assert (Hv : In v (map fst e)) by (apply Ib; now left).
        assert (Ib' : incl base (map fst e)) by (intros x Hx; apply Ib; now right).
        destruct (in_dec Nat.eq_dec v fin) as [Hf|Nf].
        * destruct (revisit st [] fin v [v] (flat [] base) C Sf ltac:(intros ? []) Hf) as (st' & D & C').
          unfold effort in Le. cbn [length] in Le. destruct m as [|[|m]]; [lia|lia|].
          destruct (IH m ltac:(lia) st' [] base fin) as (r & R & O).
          -- unfold effort. cbn [length] in *. lia.
          -- split; [exact C'|]. split; [exact F|]. split; [exact Sf|exact Ib'].
          -- intros x Hx. destruct (Mu x Hx) as [[<-|?]|[?|[]]]; auto.
          -- exists r. split; [|exact O]. intros [|[|k]] Hk; [lia|lia|]. cbn [flat map] in *. rewrite D. apply R. lia.
        * destruct (expand st [] fin v (flat [] base) C Hv ltac:(intros []) Nf) as [(c & D & W)|(un & ss & D & C' & U1 & U2 & Es & Lu)].
          -- constructor.
          -- exists (inl c). split; [|exact W]. unfold effort in Le. cbn [length] in Le. intros [|k] Hk; [lia|]. cbn [flat map]. apply D.
          -- pose proof (load_gray e v [] fin ss E Hv Es ltac:(intros []) Nf) as Ll.
             unfold effort in Le. cbn [length gray map] in Le. destruct m as [|m]; [lia|].
             destruct (IH m ltac:(lia) (paint st v Visiting) [(v, un)] base fin) as (r & R & O).
             ++ unfold effort. rewrite pending_cons, gray_cons. cbn [length gray map fst]. change (pending []) with 0 in *. lia.
             ++ split; [exact C'|]. split; [|split; [exact Sf|exact Ib']]. cbn [framed gray map]. split; [exact I|]. split; [intros []|]. split; [exact Nf|]. split; [exact Hv|].
                split; [exact U1|]. split; [|exact I]. intros w Hw. destruct (U2 w Hw); auto.
             ++ intros x Hx. destruct (Mu x Hx) as [[<-|?]|[?|[]]]; auto. right. right. now left.
             ++ exists r. split; [|exact O]. intros [|k] Hk; [lia|]. cbn [flat map] in *. rewrite D. apply R. lia.
    - pose proof (framed_disjoint _ _ _ F) as Dj. pose proof F as F0. pose proof (framed_walk e fin n pend fs None F) as W.
      cbn [framed] in F. destruct F as (_ & Ng & Nn & Hn & P & Q & F). destruct pend as [|v pend].
      + (* the node itself is finished *)
        set (st' := paint st n Visited). unfold effort in Le. rewrite pending_cons, gray_cons in Le. cbn [length] in Le. destruct m as [|m]; [lia|].
        assert (Ef : load e (n :: gray fs) fin = load e (gray fs) (n :: fin)).
        { apply load_ext. intros x _. cbn [existsb]. destruct (x =? n), (existsb (Nat.eqb x) (gray fs)), (existsb (Nat.eqb x) fin); reflexivity. }
        assert (Hg : In n (map fst st)) by (now rewrite (proj1 C)).
        destruct (IH m ltac:(lia) st' fs base (n :: fin)) as (r & R & O).
        * unfold effort. lia.
        * split; [|split; [|split; [|exact Ib]]].
          -- split; [unfold st'; rewrite paint_keys; apply C|]. intros x Hx. unfold st'. rewrite colour_paint by exact Hg.
             destruct (Nat.eqb_spec x n) as [->|Ne].
             ++ f_equal. unfold shade. apply mem_notin in Ng as ->. cbn [existsb]. now rewrite Nat.eqb_refl.
             ++ rewrite (proj2 C x Hx). f_equal. unfold shade. cbn [gray map fst existsb]. apply Nat.eqb_neq in Ne. rewrite Ne. reflexivity.
          -- now apply framed_done.
          -- apply sorted_fin_cons; try assumption. intros v Hv. destruct (Q v Hv) as [?|[[]|?]]; [assumption|discriminate].
        * intros x Hx. destruct (Mu x Hx) as [?|[?|[<-|?]]]; cbn [In]; auto.
        * exists r. split; [|exact O]. intros [|k] Hk; [lia|]. cbn [flat map app dig]. rewrite (proj2 C n Hn). cbn [rbind].
          assert (shade (gray ((n, []) :: fs)) fin n = Visiting) as -> by (apply shade_visiting; now left). cbn [colour_eqb]. apply R. lia.
      + destruct (P v) as [Av Nv]; [now left|]. pose proof (arrow_key _ _ Av) as Hv.
        destruct (in_dec Nat.eq_dec v fin) as [Hf|Nf].
        * destruct (revisit st (gray ((n, v :: pend) :: fs)) fin v (rev (n :: gray fs) ++ [v]) (flat ((n, pend) :: fs) base) C Sf Dj Hf) as (st' & D & C').
          unfold effort in Le. rewrite pending_cons in Le. cbn [length] in Le. destruct m as [|[|m]]; [lia|lia|].
          destruct (IH m ltac:(lia) st' ((n, pend) :: fs) base fin) as (r & R & O).
          -- unfold effort. rewrite pending_cons. rewrite gray_cons in *. cbn [length] in *. lia.
          -- split; [exact C'|]. split; [now apply framed_pop with v|]. split; [exact Sf|exact Ib].
          -- exact Mu.
          -- exists r. split; [|exact O]. intros [|[|k]] Hk; [lia|lia|]. cbn [flat map app] in *. rewrite D. apply R. lia.
        * destruct (expand st (gray ((n, v :: pend) :: fs)) fin v (flat ((n, pend) :: fs) base) C Hv Nv Nf) as [(c & D & Wc)|(un & ss & D & C' & U1 & U2 & Es & Lu)].
          -- rewrite gray_cons. cbn [rev] in W |- *. rewrite <- app_assoc. now apply walk_snoc.
          -- exists (inl c). split; [|exact Wc]. unfold effort in Le. cbn [length] in Le. intros [|k] Hk; [lia|]. cbn [flat map app]. apply D.
          -- pose proof (load_gray e v (n :: gray fs) fin ss E Hv Es Nv Nf) as Ll.
             unfold effort in Le. rewrite pending_cons, gray_cons in Le. cbn [length] in Le. destruct m as [|m]; [lia|].
             destruct (IH m ltac:(lia) (paint st v Visiting) ((v, un) :: (n, pend) :: fs) base fin) as (r & R & O).
             ++ unfold effort. rewrite !pending_cons, !gray_cons. cbn [length]. lia.
             ++ split; [exact C'|]. split; [|split; [exact Sf|exact Ib]]. split; [exact I|]. split; [exact Nv|]. split; [exact Nf|]. split; [exact Hv|].
                split; [exact U1|]. split; [|now apply framed_push]. intros w Hw. destruct (U2 w Hw); auto.
             ++ intros x Hx. destruct (Mu x Hx) as [?|[?|?]]; auto. right. right. now right.
             ++ exists r. split; [|exact O]. intros [|k] Hk; [lia|]. cbn [flat map app] in *. rewrite D. apply R. lia.
  Qed.

  Lemma from_roots_spec : forall roots st fin, DInv e st [] [] fin -> incl roots (map fst e) ->
    exists N r, (forall fuel, N <= fuel -> from_roots fuel e st roots = Ok r) /\
      match r with Some c => closed_walk e c | None => exists fin', sorted_fin e fin' /\ incl fin fin' /\ incl roots fin' end.
  Proof.
    induction roots as [|x roots IH]; intros st fin D Ir.
    - exists 0, None. split; [reflexivity|]. exists fin. split; [apply D|]. split; [apply incl_refl|intros ? []].
    - assert (Hx : In x (map fst e)) by (apply Ir; now left). assert (Ir' : incl roots (map fst e)) by (intros y Hy; apply Ir; now right).
      cbn [from_roots]. destruct D as (C & F & Sf & _). rewrite (proj2 C x Hx). cbn [rbind gray map].
      destruct (in_dec Nat.eq_dec x fin) as [Hf|Nf].
      + assert (shade [] fin x = Visited) as ->. { unfold shade. cbn [existsb]. now apply mem_in in Hf as ->. }
        cbn [colour_eqb]. destruct (IH st fin) as (N & r & R & O); [split; [exact C|split; [exact F|split; [exact Sf|intros ? []]]]|exact Ir'|].
        exists N, r. split; [exact R|]. destruct r; [exact O|]. destruct O as (f' & S' & I1 & I2). exists f'. split; [exact S'|]. split; [exact I1|].
        intros y [<-|Hy]; auto.
      + assert (shade [] fin x = Unvisited) as -> by (apply shade_unvisited; split; [intros []|exact Nf]). cbn [colour_eqb].
        destruct (dig_spec (x :: fin) (effort e [] [x] fin) st [] [x] fin) as (r & R & O); [apply le_n| | |].
        * split; [exact C|split; [exact F|split; [exact Sf|]]]. intros y [<-|[]]. exact Hx.
        * intros y [<-|Hy]; [left; now left|right; now left].
        * cbn [flat map] in R. destruct r as [c|st']; cbn [outcome] in O.
          -- exists (effort e [] [x] fin), (Some c). split; [|exact O]. intros fuel Hf. rewrite R by exact Hf. reflexivity.
          -- destruct O as (f' & D' & Im). destruct (IH st' f' D' Ir') as (N & r & R' & O'). exists (Nat.max (effort e [] [x] fin) N), r. split.
             ++ intros fuel Hf. rewrite R by lia. cbn [rbind]. apply R'. lia.
             ++ destruct r; [exact O'|]. destruct O' as (f2 & S2 & I1 & I2). exists f2. split; [exact S2|]. split.
                ** intros y Hy. apply I1, Im. now right.
                ** intros y [<-|Hy]; [apply I1, Im; now left|now apply I2].
  Qed.
  Lemma sorted_fin_acyclic fin : sorted_fin e fin -> incl (map fst e) fin -> forall x, ~ clos_trans nat (arrow e) x x.
  Proof.
    intros (N & K & A) I0 x H.
    assert (T : forall a b, clos_trans nat (arrow e) a b -> forall f1 f2, fin = f1 ++ a :: f2 -> In b f2).
    { intros a b Hab. apply clos_trans_tn1 in Hab. induction Hab as [b Hb|b c Hb _ IH]; intros f1 f2 Ef; [now apply (A f1 a f2)|].
      specialize (IH _ _ Ef). apply in_split in IH. destruct IH as (g1 & g2 & ->). 
      assert (In c g2). { apply (A (f1 ++ a :: g1) b g2 c); [|exact Hb]. rewrite Ef, <- app_assoc. reflexivity. }
      rewrite in_app_iff. right. now right. }
    assert (Hx : In x fin). { apply I0. assert (G : forall a b, clos_trans nat (arrow e) a b -> In a (map fst e)) by (clear; induction 1 as [a b (l & Hl & _)| ]; [now apply (in_map fst e (a, l))|assumption]). exact (G x x H). }
    apply in_split in Hx. destruct Hx as (f1 & f2 & Ef). pose proof (T x x H f1 f2 Ef) as Hx. rewrite Ef in N. apply NoDup_remove_2 in N.
    apply N. rewrite in_app_iff. now right.
  Qed.
  Lemma initial : DInv e (map (fun u => (fst u, Unvisited)) e) [] [] [].
  Proof.
    split; [split|split; [exact I|split; [|intros ? []]]].
    - now rewrite map_map.
    - intros x Hx. unfold shade. cbn [gray map existsb]. clear E. unfold colour_of. induction e as [|[k l] e' IH]; [destruct Hx|]. cbn [map fst find].
      destruct (Nat.eqb_spec k x); [reflexivity|]. apply IH. destruct Hx as [Hx|Hx]; [cbn in Hx; congruence|exact Hx].
    - split; [constructor|]. split; [intros ? []|]. intros [|? ?] ? ? ?; discriminate.
  Qed.

  Lemma find_cycle_correct : exists N r, (forall fuel, N <= fuel -> find_cycle fuel e = Ok r) /\
    match r with
    | Some c => walk e c /\ exists x p, c = x :: p ++ [x]
    | None => forall x, ~ clos_trans nat (arrow e) x x
    end.
  Proof.
    destruct (from_roots_spec (map fst e) _ _ initial (incl_refl _)) as (N & r & R & O). exists N, r. split; [exact R|].
    destruct r as [c|]; [exact O|]. destruct O as (f & S' & _ & I2). now apply sorted_fin_acyclic with f.
  Qed.
End Dig.
Lemma closed_walk_cycle e x : forall p, walk e (x :: p ++ [x]) -> clos_trans nat (arrow e) x x.
Proof.
  assert (T : forall p x y, walk e (x :: p ++ [y]) -> clos_trans nat (arrow e) x y).
  { induction p as [|a p IH]; intros u v W; cbn [app] in W; inversion W; subst; [now apply t_step|].
    eapply t_trans; [apply t_step; eassumption|now apply IH]. }
  intros p. apply T.
Qed.
Lemma find_cycle_exactly e : edges_ok e -> exists N r, (forall fuel, N <= fuel -> find_cycle fuel e = Ok r) /\
  (r <> None <-> exists x, clos_trans nat (arrow e) x x).
Proof.
  intros E. destruct (find_cycle_correct e E) as (N & r & R & O). exists N, r. split; [exact R|]. destruct r as [c|].
  - split; [intros _|discriminate]. destruct O as (W & x & p & ->). exists x. now apply closed_walk_cycle with p.
  - split; [congruence|]. intros [x H]. now apply O in H.
Qed.
