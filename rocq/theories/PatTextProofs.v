(** The text of rewritten expressions. *)
From Coq Require Import String ZArith Lia.
From Verif Require Import Prelude PatModel PatSpec PatProofs.
Local Open Scope nat_scope.
Local Open Scope list_scope.

Section ReadsInd.
  Variable P : level -> list token -> node -> Prop.
  Hypothesis Hname : forall x, P Atom [TId x] (Name 0 x).
  Hypothesis Hcall : forall k ls cs, k <> "+"%string -> k <> "*"%string -> Forall2 (reads Sum) ls cs -> Forall2 (P Sum) ls cs ->
    P Atom (TId (Id k) :: TOpen :: commas ls ++ [TClose]) (Node 0 k cs).
  Hypothesis Hpn : forall ts par x, reads Sum ts (Name par x) -> P Sum ts (Name par x) -> P Atom (TOpen :: ts ++ [TClose]) (Name (S par) x).
  Hypothesis Hp : forall ts par k cs, reads Sum ts (Node par k cs) -> P Sum ts (Node par k cs) -> P Atom (TOpen :: ts ++ [TClose]) (Node (S par) k cs).
  Hypothesis Hatom : forall ts n, reads Atom ts n -> P Atom ts n -> P Term ts n.
  Hypothesis Htimes : forall a b x y, reads Term a x -> P Term a x -> reads Atom b y -> P Atom b y -> P Term (a ++ TTimes :: b) (Node 0 "*" [x; y]).
  Hypothesis Hterm : forall ts n, reads Term ts n -> P Term ts n -> P Sum ts n.
  Hypothesis Hplus : forall a b x y, reads Sum a x -> P Sum a x -> reads Term b y -> P Term b y -> P Sum (a ++ TPlus :: b) (Node 0 "+" [x; y]).
  Fixpoint reads_ind2 l ts n (H : reads l ts n) : P l ts n :=
    match H in reads l ts n return P l ts n with
    | read_name x => Hname x
    | read_call k ls cs h1 h2 F => Hcall k ls cs h1 h2 F
        ((fix go ls cs (F : Forall2 (reads Sum) ls cs) : Forall2 (P Sum) ls cs :=
            match F with
            | Forall2_nil _ => Forall2_nil _
            | @Forall2_cons _ _ _ x y l l' h F' => Forall2_cons x y (reads_ind2 _ _ _ h) (go l l' F')
            end) ls cs F)
    | read_paren_name ts par x h => Hpn ts par x h (reads_ind2 _ _ _ h)
    | read_paren ts par k cs h => Hp ts par k cs h (reads_ind2 _ _ _ h)
    | read_atom ts n h => Hatom ts n h (reads_ind2 _ _ _ h)
    | read_times a b x y h1 h2 => Htimes a b x y h1 (reads_ind2 _ _ _ h1) h2 (reads_ind2 _ _ _ h2)
    | read_term ts n h => Hterm ts n h (reads_ind2 _ _ _ h)
    | read_plus a b x y h1 h2 => Hplus a b x y h1 (reads_ind2 _ _ _ h1) h2 (reads_ind2 _ _ _ h2)
    end.
End ReadsInd.

Lemma text_call k cs : k <> "+"%string -> k <> "*"%string -> text (Node 0 k cs) = TId (Id k) :: TOpen :: commas (map text cs) ++ [TClose].
Proof.
  intros H1 H2. apply String.eqb_neq in H1, H2. cbn [text wrap]. rewrite H1, H2. reflexivity.
Qed.
Lemma text_paren par k cs : text (Node (S par) k cs) = TOpen :: text (Node par k cs) ++ [TClose].
Proof. reflexivity. Qed.

Lemma reads_instance s l ts r : reads l ts r -> (forall x, In x (captures r) -> closed (s x)) ->
  reads l (text (instance s r)) (instance s r).
Proof.
  intros H. induction H as [x|k ls cs H1 H2 _ F|ts par x _ IH|ts par k cs _ IH|ts n _ IH|a b x y _ IHx _ IHy|ts n _ IH|a b x y _ IHx _ IHy] using reads_ind2; intros Hs.
  - destruct x as [a|x]; cbn [instance]; [constructor|]. apply Hs. now left.
  - rewrite instance_node, text_call by assumption. apply read_call; [assumption|assumption|].
    rewrite captures_node in Hs. clear H1 H2. induction F as [|t c ls cs Hc _ IHF]; cbn [map]; constructor.
    + apply Hc. intros x Hx. apply Hs. cbn. apply in_or_app. now left.
    + apply IHF. intros x Hx. apply Hs. cbn. apply in_or_app. now right.
  - destruct x as [a|x]; cbn [instance] in *; [|apply Hs; now left]. apply (read_paren_name (text (Name par (Id a)))). apply IH. intros x [].
  - rewrite instance_node in *. rewrite text_paren. apply read_paren. now apply IH.
  - apply read_atom. auto.
  - rewrite instance_node. cbn [map]. apply (read_times (text (instance s x)) (text (instance s y))).
    + apply IHx. intros z Hz. apply Hs. rewrite captures_node. cbn. apply in_or_app. now left.
    + apply IHy. intros z Hz. apply Hs. rewrite captures_node. cbn. rewrite app_nil_r. apply in_or_app. now right.
  - apply read_term. auto.
  - rewrite instance_node. cbn [map]. apply (read_plus (text (instance s x)) (text (instance s y))).
    + apply IHx. intros z Hz. apply Hs. rewrite captures_node. cbn. apply in_or_app. now left.
    + apply IHy. intros z Hz. apply Hs. rewrite captures_node. cbn. rewrite app_nil_r. apply in_or_app. now right.
Qed.
