(** An exported program, and programs for which tracing goes wrong. *)
From Coq Require Import String Ascii Relations Lia Permutation.
From Verif Require Import Prelude GraphModel GraphSpec EngineModel EngineSpec EngineExamples CoarseModel CoarseSpec BuildModel BuildSpec BuildWitness NamModel TrcModel TrcSpec TrcProofs TrcValueProofs TrcGraphProofs.
Local Open Scope nat_scope.
Local Open Scope list_scope.

(** ** A program with a module in a module *)
Definition w_lin : fmod := FMod 7 ["bias"%string] (Some
  [mkFx 0 "x" Placeholder [] []; mkFx 1 "bias" (FGetAttr "bias") [] []; mkFx 2 "add" (FCallFunction 0) [ANode 0; ANode 1] []; mkFx 3 "output" FOutput [ANode 2] []]) [].
Definition w_block : fmod := FMod 6 ["c"%string] (Some
  [mkFx 10 "a" Placeholder [] []; mkFx 11 "b" Placeholder [] []; mkFx 12 "lin" (FCallModule "lin") [ANode 10] []; mkFx 13 "c" (FGetAttr "c") [] [];
   mkFx 14 "add" (FCallFunction 0) [ANode 12; ANode 13] []; mkFx 15 "sum" (FCallFunction 0) [AList [ANode 14; ANode 11; AAtom 4]] [("scale"%string, AAtom 2)];
   mkFx 16 "output" FOutput [ATuple [] [ANode 14; ANode 15]] []]) [("lin"%string, w_lin)].
Definition w_root : fmod := FMod 5 [] (Some
  [mkFx 20 "l_kw_x_" Placeholder [] []; mkFx 21 "block" (FCallModule "block") [ANode 20] [("b"%string, ANode 20)]; mkFx 22 "getitem" (FCallFunction 2) [ANode 21; AAtom 1] [];
   mkFx 23 "relu" (FCallMethod "relu") [ANode 22] []; mkFx 24 "check" (FCallFunction 3) [ANode 23] []; mkFx 25 "output" FOutput [ATuple [] [ANode 22; ANode 23]] []]) [("block"%string, w_block)].

(** functions: 0 adds, 2 takes an item, 3 checks and is skipped *)
Definition w_fn (n : nat) (a : list (val nat)) (k : list (string * val nat)) : result (val nat) :=
  match n with
  | 0 => Ok (T 0 (total a k))
  | 2 => match a with [Tup _ l; Tensor _ i] => match nth_error l i with Some v => Ok v | None => Err IndexError end | _ => Err TypeError end
  | 3 => Ok (T 0 0)
  | _ => Err TypeError
  end.
Definition w_method (m : string) (v : val nat) (a : list (val nat)) (k : list (string * val nat)) : result (val nat) :=
  if String.eqb m "relu" then Ok (T 0 (1000 + num v)) else Err TypeError.
Definition w_attr (p : string) : result (val nat) := if String.eqb p "block.lin.bias" then Ok (T 0 3) else Err TypeError.
Definition w_slice (a b c : val nat) : val nat := Tup [] [a; b; c].
Definition w_unflatten (l : list (val nat)) : result (val nat) := Ok (Tup ["left"%string; "right"%string] l).
Definition w_host0 : host nat := mkHost w_fn w_method w_attr (fun _ _ _ => Err TypeError) (fun _ _ _ => Err TypeError) w_slice w_unflatten (T 0 0).
Definition w_atom (n : nat) : val nat := T 0 n.
Definition w_attribute (m : nat) (t : string) : result (val nat) :=
  if (m =? 7) && String.eqb t "bias" then Ok (T 0 3) else if (m =? 6) && String.eqb t "c" then Ok (T 0 9) else Err AttributeError.
Definition w_captured (n : nat) (a : list (val nat)) (k : list (string * val nat)) : result (val nat) :=
  match n with 5 => run_call w_host0 w_atom w_attribute w_root a k | 6 => run_call w_host0 w_atom w_attribute w_block a k | 7 => run_call w_host0 w_atom w_attribute w_lin a k | _ => Err TypeError end.
Definition w_original (n : nat) (a : list (val nat)) (k : list (string * val nat)) : result (val nat) :=
  match n with 0 => run_call w_host0 w_atom w_attribute w_root a k | 1 => run_call w_host0 w_atom w_attribute w_block a k | 2 => run_call w_host0 w_atom w_attribute w_lin a k | _ => Err TypeError end.
Definition w_host : host nat := mkHost w_fn w_method w_attr w_original w_captured w_slice w_unflatten (T 0 0).

Definition w_target (t : target) : nat :=
  match t with
  | TTuple => 10 | TList => 11 | TSlice => 12 | TDict => 13 | TOutput => 14
  | TMethod m => if String.eqb m "relu" then 15 else 40
  | TAttr p => if String.eqb p "block.lin.bias" then 16 else 40
  | TFn 0 => 17 | TFn 2 => 18 | TFn 3 => 19 | TFn _ => 40
  | TOriginal 0 => 20 | TOriginal 1 => 21 | TOriginal 2 => 22 | TOriginal _ => 40
  | TCaptured 5 => 25 | TCaptured 6 => 26 | TCaptured 7 => 27 | TCaptured _ => 40
  end.
Definition w_f (c m : nat) (a : list (val nat)) (k : list (string * val nat)) : result (val nat) :=
  let go t := call_target w_host t a k in
  match m with
  | 10 => go TTuple | 11 => go TList | 12 => go TSlice | 13 => go TDict | 14 => go TOutput | 15 => go (TMethod "relu") | 16 => go (TAttr "block.lin.bias")
  | 17 => go (TFn 0) | 18 => go (TFn 2) | 19 => go (TFn 3) | 20 => go (TOriginal 0) | 21 => go (TOriginal 1) | 22 => go (TOriginal 2)
  | 25 => go (TCaptured 5) | 26 => go (TCaptured 6) | 27 => go (TCaptured 7) | _ => Err TypeError
  end.
Definition w_sem : semantics nat unit :=
  mkSem (fun i => if i <? 50 then T 0 i else T 0 (if i =? 50 then 3 else 9)) b_item b_getattr (fun pl u c m a k => (w_f c m a k, u)) (fun _ u _ _ _ => (Ok tt, u)) (fun m => m <? 10) (fun _ => []).
Definition w_sub (p : string) : option nat :=
  if String.eqb p "" then Some 0 else if String.eqb p "block" then Some 1 else if String.eqb p "block.lin" then Some 2 else None.
Definition w_origin : origin :=
  mkOrigin w_sub (fun p => String.eqb p "block.lin.bias") (fun _ => Some [mkParam true false]) w_target
    (fun x => match x with AAtom n => n | _ => 0 end) (fun m t => if m =? 7 then 50 else 51) (fun fn => fn =? 3).

Lemma w_targets : targets_called w_host w_f w_origin.
Proof.
  intros c t a k. destruct t as [| | | |m|p| |fn|n|n]; try reflexivity; cbn [o_target w_origin w_target].
  - destruct (String.eqb_spec m "relu") as [->|N]; [reflexivity|]. cbn. destruct a; [reflexivity|]. destruct (has_key "self" k); [reflexivity|]. unfold w_method. apply String.eqb_neq in N. now rewrite N.
  - destruct (String.eqb_spec p "block.lin.bias") as [->|N]; [reflexivity|]. cbn. unfold w_attr. apply String.eqb_neq in N. rewrite N. now destruct a, k.
  - destruct fn as [|[|[|[|fn]]]]; reflexivity.
  - destruct n as [|[|[|n]]]; reflexivity.
  - do 8 (destruct n as [|n]; try reflexivity).
Qed.
Lemma w_paths p m : at_path w_root p m -> (p = "" /\ m = w_root \/ p = "block" /\ m = w_block \/ p = "block.lin" /\ m = w_lin)%string.
Proof.
  induction 1 as [|p m t c A IH N I]; [auto|]. destruct IH as [[-> ->]|[[-> ->]|[-> ->]]]; cbn in I; [| |destruct I]; destruct I as [I|[]]; injection I as <- <-; auto.
Qed.
Ltac pieces := repeat match goal with
  | H : False |- _ => destruct H
  | H : _ \/ _ |- _ => destruct H as [H|H]
  | H : In _ (_ :: _) |- _ => destruct H as [H|H]
  | H : In _ [] |- _ => destruct H
  | H : part _ (ANode _) |- _ => inversion H; subst; clear H
  | H : part _ (AAtom _) |- _ => inversion H; subst; clear H
  | H : part _ (AList _) |- _ => inversion H; subst; clear H
  | H : part _ (ATuple _ _) |- _ => inversion H; subst; clear H
  | H : _ = _ |- _ => progress subst
  end.
Lemma w_arguments x : argument_of w_root x -> (forall n, ~ occurs n x) -> exists n, x = AAtom n /\ n < 50.
Proof.
  intros (p & m & n & y & A & Hn & Hy & P) C. destruct (w_paths p m A) as [[-> ->]|[[-> ->]|[-> ->]]]; cbn in Hn; repeat (destruct Hn as [<-|Hn]; [cbn in Hy; pieces; try (eexists; split; [reflexivity|lia]); exfalso|]); try destruct Hn;
    match goal with C : forall n, ~ occurs n (ANode ?k) |- _ => apply (C k); constructor | C : forall n, ~ occurs n (AList (ANode ?k :: _)) |- _ => apply (C k); eapply occ_list; [left; reflexivity|constructor] | C : forall n, ~ occurs n (ATuple _ (ANode ?k :: _)) |- _ => apply (C k); eapply occ_tuple; [left; reflexivity|constructor] end.
Qed.
Lemma w_constants : constants_held w_host w_sem w_atom w_attribute w_origin w_root.
Proof.
  split.
  - intros x v A C E. destruct (w_arguments x A C) as (n & -> & L). cbn in E. injection E as <-. cbn [constv w_sem o_const w_origin]. apply Nat.ltb_lt in L. rewrite L. reflexivity.
  - intros m t v E. unfold w_attribute in E. cbn. destruct (Nat.eqb_spec m 7) as [->|N]; cbn in E |- *.
    + destruct (String.eqb t "bias"); [now injection E as <-|discriminate].
    + destruct (m =? 6); cbn in E; [|discriminate]. destruct (String.eqb t "c"); [now injection E as <-|discriminate].
Qed.
Lemma w_shared : attributes_shared w_host w_attribute w_origin w_root.
Proof.
  intros p m t v A E Ev. cbn in E |- *. apply String.eqb_eq in E. rewrite E. cbn. destruct (w_paths p m A) as [[-> ->]|[[-> ->]|[-> ->]]]; cbn in E, Ev.
  - subst t. discriminate.
  - injection E as ->. discriminate.
  - injection E as ->. exact Ev.
Qed.
Lemma run_host {X} (fn : nat -> list (val X) -> list (string * val X) -> result (val X)) me at1 at2 o1 o2 c1 c2 sl u1 u2 n1 n2 atom attribute m :
  run_call (mkHost fn me at1 o1 c1 sl u1 n1) atom attribute m = run_call (mkHost fn me at2 o2 c2 sl u2 n2) atom attribute m.
Proof. reflexivity. Qed.
Lemma w_call m a k : run_call w_host w_atom w_attribute m a k = run_call w_host0 w_atom w_attribute m a k.
Proof. unfold w_host, w_host0. now rewrite (run_host w_fn w_method w_attr w_attr w_original (fun _ _ _ => Err TypeError) w_captured (fun _ _ _ => Err TypeError) w_slice w_unflatten w_unflatten (T 0 0) (T 0 0)). Qed.
Lemma w_capture : captured_run w_host w_atom w_attribute w_root.
Proof. intros p m a k v A E. rewrite w_call in E. destruct (w_paths p m A) as [[-> ->]|[[-> ->]|[-> ->]]]; cbn [w_host h_captured m_self w_root w_block w_lin w_captured]; exact E. Qed.
Lemma w_originals : originals_run w_host w_atom w_attribute w_origin w_root.
Proof. intros p m q a k v ps A Es _ _ _ E. rewrite w_call in E. destruct (w_paths p m A) as [[-> ->]|[[-> ->]|[-> ->]]]; cbn in Es; injection Es as <-; cbn [w_host h_original w_original]; exact E. Qed.
Lemma plain_no_named x : (forall names l, part (ATuple names l) x -> names = []) -> no_named x.
Proof. intros H n names l P _. now apply (H names l). Qed.
Lemma w_regular_of root p m : In (p, m, root) [(""%string, w_root, true); ("block"%string, w_block, false); ("block.lin"%string, w_lin, false)] -> regular w_origin root p m.
Proof.
  intros [E|[E|[E|[]]]]; injection E as <- <- <-; constructor.
  all: try (cbn; repeat constructor; cbn; intuition discriminate).
  all: try (intros n x Hn Ho Hx; apply plain_no_named; intros names l P; cbn in Hn; repeat (destruct Hn as [<-|Hn]; [cbn in Hx; pieces; try reflexivity; try (now destruct Ho)|]); destruct Hn).
  all: try (match goal with |- forall n t k x, _ -> _ -> _ -> _ <> _ => idtac end; intros n t k x Hn Ho Hx; cbn in Hn; repeat (destruct Hn as [<-|Hn]; [try discriminate; cbn in Hx; try destruct Hx|]); destruct Hn).
  all: try (intros n t Hn Ho; cbn in Hn; repeat (destruct Hn as [<-|Hn]; [try discriminate; cbn in Ho; injection Ho as <-; cbn; auto|]); destruct Hn).
  - eexists [_; _; _; _; _], _. split; [reflexivity|]. split; [reflexivity|]. split; [intros n Hn; repeat (destruct Hn as [<-|Hn]; [discriminate|]); destruct Hn|]. eexists. split; [|left; eexists; reflexivity]. intros x Hx. pieces; eauto.
  - eexists [_; _; _; _; _; _], _. split; [reflexivity|]. split; [reflexivity|]. split; [intros n Hn; repeat (destruct Hn as [<-|Hn]; [discriminate|]); destruct Hn|]. right. eexists. split; [|split; [|reflexivity]]; [|discriminate]. intros x Hx. pieces; eauto.
  - eexists [_; _; _], _. split; [reflexivity|]. split; [reflexivity|]. split; [intros n Hn; repeat (destruct Hn as [<-|Hn]; [discriminate|]); destruct Hn|]. left. exists 2. reflexivity.
Qed.
Lemma w_regular : regular_program w_origin w_root.
Proof.
  split; [apply w_regular_of; now left|]. intros p m t c A N I. destruct (w_paths p m A) as [[-> ->]|[[-> ->]|[-> ->]]]; cbn in I; [| |destruct I]; destruct I as [I|[]]; injection I as <- <-; apply w_regular_of; cbn; auto.
Qed.
Definition w_result : val nat := Tup ["left"%string; "right"%string] [T 0 28; T 0 1028].

Definition w_graph : graph := match build_root w_origin w_root [] 0 with Ok (g, _) => g | Err _ => empty_graph end.
Lemma w_agree : attributes_agree w_sem.
Proof. exact bxs_agree. Qed.
Lemma w_traced :
  (targets_called w_host w_f w_origin /\ constants_held w_host w_sem w_atom w_attribute w_origin w_root /\ attributes_shared w_host w_attribute w_origin w_root /\
   captured_run w_host w_atom w_attribute w_root /\ originals_run w_host w_atom w_attribute w_origin w_root /\ regular_program w_origin w_root) /\
  build_root w_origin w_root [] 0 = Ok (w_graph, 12) /\ length (g_nodes w_graph) = 9 /\ g_folds w_graph = [7] /\ map fst (g_inputs w_graph) = ["x"%string] /\
  run_program w_host w_atom w_attribute w_root [T 0 5] = Ok w_result /\
  snd (snd (forward w_sem b_text b_iterate idord (mkGm w_graph None) [] [("x"%string, GValue (T 0 5))] (mkWorld (fun _ => 0) tt))) = Ok (One w_result).
Proof.
  split; [exact (conj w_targets (conj w_constants (conj w_shared (conj w_capture (conj w_originals w_regular)))))|]. refine (conj _ (conj _ (conj _ (conj _ (conj _ _))))); vm_compute; reflexivity.
Qed.

(** ** Programs that are not regular *)
Definition p_in : fxnode := mkFx 20 "x" Placeholder [] [].
Definition p_add : fxnode := mkFx 21 "add" (FCallFunction 0) [ANode 20; AAtom 1] [].
Definition p_root (l : list fxnode) (ch : list (string * fmod)) : fmod := FMod 5 [] (Some (p_in :: p_add :: l)) ch.
(** the second result is a constant *)
Definition p_const : fmod := p_root [mkFx 22 "output" FOutput [ATuple [] [ANode 21; AAtom 7]] []] [].
Definition const_graph : graph := match build_root w_origin p_const [] 0 with Ok (g, _) => g | Err _ => empty_graph end.
Lemma const_dropped :
  run_program w_host w_atom w_attribute p_const [T 0 5] = Ok (Tup ["left"%string; "right"%string] [T 0 6; T 0 7]) /\
  (exists next, build_root w_origin p_const [] 0 = Ok (const_graph, next)) /\
  snd (snd (forward w_sem b_text b_iterate idord (mkGm const_graph None) [GValue (T 0 5)] [] (mkWorld (fun _ => 0) tt))) = Ok (One (Tup ["left"%string; "right"%string] [T 0 6])).
Proof. split; [vm_compute; reflexivity|]. split; [eexists; vm_compute; reflexivity|vm_compute; reflexivity]. Qed.
(** a result is the input itself *)
Definition p_same : fmod := p_root [mkFx 22 "output" FOutput [ATuple [] [ANode 21; ANode 20]] []] [].
Lemma input_returned : run_program w_host w_atom w_attribute p_same [T 0 5] = Ok (Tup ["left"%string; "right"%string] [T 0 6; T 0 5]) /\ build_root w_origin p_same [] 0 = Err AssertionError.
Proof. split; vm_compute; reflexivity. Qed.
(** the result of a skipped function is used *)
Definition p_skip : fmod := p_root [mkFx 22 "check" (FCallFunction 3) [ANode 21] []; mkFx 23 "add" (FCallFunction 0) [ANode 22; ANode 21] []; mkFx 24 "output" FOutput [ATuple [] [ANode 23]] []] [].
Lemma skipped_used : run_program w_host w_atom w_attribute p_skip [T 0 5] = Ok (Tup ["left"%string; "right"%string] [T 0 6]) /\ build_root w_origin p_skip [] 0 = Err KeyError.
Proof. split; vm_compute; reflexivity. Qed.
(** a module with modules in it returns a tuple of one *)
Definition p_one : fmod := FMod 6 [] (Some [mkFx 10 "a" Placeholder [] []; mkFx 12 "lin" (FCallModule "lin") [ANode 10] []; mkFx 16 "output" FOutput [ATuple [] [ANode 12]] []]) [("lin"%string, w_lin)].
Definition p_tuple : fmod := p_root [mkFx 22 "block" (FCallModule "block") [ANode 21] []; mkFx 23 "getitem" (FCallFunction 2) [ANode 22; AAtom 0] []; mkFx 24 "output" FOutput [ATuple [] [ANode 23]] []] [("block"%string, p_one)].
Definition tuple_graph : graph := match build_root w_origin p_tuple [] 0 with Ok (g, _) => g | Err _ => empty_graph end.
Lemma tuple_lost :
  run_program w_host w_atom w_attribute p_tuple [T 0 5] = Ok (Tup ["left"%string; "right"%string] [T 0 9]) /\
  (exists next, build_root w_origin p_tuple [] 0 = Ok (tuple_graph, next)) /\
  snd (snd (forward w_sem b_text b_iterate idord (mkGm tuple_graph None) [GValue (T 0 5)] [] (mkWorld (fun _ => 0) tt))) = Err TypeError.
Proof. split; [vm_compute; reflexivity|]. split; [eexists; vm_compute; reflexivity|vm_compute; reflexivity]. Qed.
(** two placeholders for one name *)
Definition p_twice : fmod := FMod 5 [] (Some [p_in; mkFx 26 "l_kw_x_" Placeholder [] []; mkFx 21 "add" (FCallFunction 0) [ANode 20; ANode 26] []; mkFx 22 "output" FOutput [ATuple [] [ANode 21]] []]) [].
Lemma names_collide : NoDup (input_names p_twice) /\ run_program w_host w_atom w_attribute p_twice [T 0 5; T 0 6] = Ok (Tup ["left"%string; "right"%string] [T 0 11]) /\ build_root w_origin p_twice [] 0 = Err ValueError.
Proof. split; [cbn; repeat constructor; cbn; intuition discriminate|]. split; vm_compute; reflexivity. Qed.
(** a module called twice *)
Definition p_again : fmod := p_root [mkFx 22 "block" (FCallModule "block") [ANode 21] [("b"%string, ANode 20)]; mkFx 23 "block_1" (FCallModule "block") [ANode 20] [("b"%string, ANode 21)]; mkFx 24 "getitem" (FCallFunction 2) [ANode 22; AAtom 0] []; mkFx 25 "output" FOutput [ATuple [] [ANode 24]] []] [("block"%string, w_block)].
Definition again_graph : graph := match build_root w_origin p_again [] 0 with Ok (g, _) => g | Err _ => empty_graph end.
Lemma called_twice : (exists next, build_root w_origin p_again [] 0 = Ok (again_graph, next)) /\ NoDup (map x_name (m_fx p_again)) /\
  exists a b, In a (g_nodes again_graph) /\ In b (g_nodes again_graph) /\ n_name a = "block"%string /\ n_name b = "block"%string /\ n_id a <> n_id b /\ n_target a = n_target b.
Proof.
  split; [eexists; vm_compute; reflexivity|]. split; [cbn; repeat constructor; cbn; intuition discriminate|].
  assert (E : filter (fun e => String.eqb (fst e) "block") (map (fun n => (n_name n, (n_id n, n_target n))) (g_nodes again_graph)) = [("block"%string, (8, 21)); ("block"%string, (16, 21))]) by (vm_compute; reflexivity).
  revert E. generalize (g_nodes again_graph). intros nodes E.
  assert (Q : forall i t, In ("block"%string, (i, t)) [("block"%string, (8, 21)); ("block"%string, (16, 21))] -> exists a, In a nodes /\ n_name a = "block"%string /\ n_id a = i /\ n_target a = t).
  { intros i t K. rewrite <- E in K. apply filter_In in K. destruct K as [K _]. apply in_map_iff in K. destruct K as (a & Ea & K). injection Ea as E1 E2 E3. now exists a. }
  destruct (Q 8 21) as (a & Ia & Na & Da & Ta); [now left|]. destruct (Q 16 21) as (b & Ib & Nb & Db & Tb); [right; now left|]. exists a, b. rewrite Da, Db, Ta, Tb. repeat split; try assumption. discriminate.
Qed.
