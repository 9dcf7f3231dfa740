(** Proofs for C110 and C111. *)
From Coq Require Import String.
From Verif Require Import Prelude TilingModel TilingSpec GranularityModel AffineModel EncModel EncSpec EncProofs EncMetaProofs CapModel CapSpec.
From Coq Require Import QArith.
Local Open Scope nat_scope.
Local Open Scope list_scope.

Lemma rbind_ok : forall {A B} (r : result A) (f : A -> result B) b, rbind r f = Ok b -> exists a, r = Ok a /\ f a = Ok b.
Proof. intros A B [a|e] f b E; [exists a; auto | discriminate]. Qed.

(** ** Trees *)
Lemma tree_rec' : forall {A} (P : tree A -> Prop), (forall a, P (Leaf a)) -> P Empty -> (forall c l, Forall (fun p => P (snd p)) l -> P (Node c l)) -> forall t, P t.
Proof.
  intros A P H1 H2 H3. fix IH 1. intros [a| |c l]; [apply H1 | apply H2|]. apply H3. induction l as [|[k t] l IHl]; constructor; [apply IH | exact IHl].
Qed.
Lemma flatten_node : forall {A} c (l : list (string * tree A)), flatten (Node c l) = flat_map (fun p => flatten (snd p)) l.
Proof. intros A c l. cbn [flatten]. induction l as [|[k t] l IH]; [reflexivity|]. cbn [flat_map snd]. rewrite IH. reflexivity. Qed.
Lemma flatten_leaves : forall {A} (t : tree A), flatten t = leaves_of t.
Proof.
  intros A. induction t as [a| |c l IH] using tree_rec'; [reflexivity | reflexivity|]. rewrite flatten_node. cbn [leaves_of]. induction IH as [|[k t] l E F IHl]; [reflexivity|]. cbn [flat_map snd] in *. rewrite E, IHl. reflexivity.
Qed.
(** Unflattening related leaves gives a related tree. *)
Lemma unflatten_rel : forall {A B} (R : A -> B -> Prop) (t : tree A) ys rest, Forall2 R (flatten t) ys ->
  exists u, unflatten t (ys ++ rest) = Ok (u, rest) /\ corresponds R t u.
Proof.
  intros A B R. induction t as [a| |c l IH] using tree_rec'; intros ys rest F.
  - cbn in F. inversion F as [|x y l1 l2 Rxy F']; subst. inversion F'; subst. cbn. eexists. split; [reflexivity | constructor; assumption].
  - cbn in F. inversion F; subst. cbn. eexists. split; [reflexivity | constructor].
  - rewrite flatten_node in F.
    assert (X : exists l', (fix go l leaves := match l with [] => Ok ([], leaves) | (k, t) :: l' => let? r := unflatten t leaves in let? r' := go l' (snd r) in Ok ((k, fst r) :: fst r', snd r') end) l (ys ++ rest) = Ok (l', rest) /\
      Forall2 (fun p q => fst p = fst q /\ corresponds R (snd p) (snd q)) l l').
    { revert ys F. induction IH as [|[k t] l H FH IHl]; intros ys F.
      - cbn in F. inversion F; subst. eexists. split; [reflexivity | constructor].
      - cbn [flat_map snd] in F. apply Forall2_app_inv_l in F. destruct F as (y1 & y2 & F1 & F2 & ->). rewrite <- app_assoc. cbn [snd] in H. destruct (H y1 (y2 ++ rest) F1) as (u & -> & Cu). cbn [rbind fst snd]. destruct (IHl y2 F2) as (l' & -> & Fl). cbn [rbind fst snd]. eexists. split; [reflexivity|]. constructor; [split; [reflexivity | exact Cu] | exact Fl]. }
    destruct X as (l' & E & Fl). cbn [unflatten]. rewrite E. cbn [rbind fst snd]. eexists. split; [reflexivity | constructor; exact Fl].
Qed.

(** ** Leaves *)
Lemma params_inv : forall q w e, dequant_and_get_params q = Ok (w, e) -> qt_affine q = true /\ value_of q w /\ params_of q e.
Proof.
  intros q w e E. unfold dequant_and_get_params in E. destruct (qt_affine q); [|discriminate]. cbn [negb] in E. apply rbind_ok in E. destruct E as (raw & Er & E). apply rbind_ok in E. destruct E as (w' & Ew & E). injection E as <- <-.
  split; [reflexivity|]. split; exists raw; (split; [exact Er|]); [exact Ew|]. destruct raw; reflexivity.
Qed.
Lemma params_ok : forall q, qt_affine q = true -> (exists w, value_of q w) -> exists p, dequant_and_get_params q = Ok p.
Proof.
  intros q A (w & tile & T & D). unfold dequant_and_get_params. rewrite A. cbn [negb]. unfold tile_is in T. rewrite T. cbn [rbind]. rewrite D. cbn [rbind]. eauto.
Qed.
Lemma leaves_inv : forall l vs ss, dequantize_leaves l = Ok (vs, ss) -> Forall2 dequantized_output l vs /\ Forall2 output_setting l ss.
Proof.
  induction l as [|x l IH]; intros vs ss E; cbn [dequantize_leaves] in E; [injection E as <- <-; split; constructor|].
  apply rbind_ok in E. destruct E as ([v s] & E1 & E). apply rbind_ok in E. destruct E as ([vs' ss'] & E2 & E). cbn [fst snd] in E. injection E as <- <-. destruct (IH _ _ E2) as [F1 F2].
  assert (X : dequantized_output x v /\ output_setting x s).
  { destruct x as [[t|q|n]|]; try (injection E1 as <- <-; cbn; split; [eexists; split; reflexivity | reflexivity]).
    - apply rbind_ok in E1. destruct E1 as ([w e] & Ed & E1). cbn [fst snd] in E1. injection E1 as <- <-. apply params_inv in Ed. destruct Ed as (_ & V & P). cbn. split; [exists (Plain w); split; [exists w; auto | reflexivity] | exists e; auto]. }
  split; constructor; tauto.
Qed.
Lemma leaves_ok : forall l, Forall (fun x => match x with Some a => recordable a | None => True end) l -> exists p, dequantize_leaves l = Ok p.
Proof.
  induction l as [|x l IH]; intros F; cbn [dequantize_leaves]; [eauto|]. inversion F as [|? ? Hx Fl]; subst. destruct (IH Fl) as ([vs ss] & E). rewrite E.
  destruct x as [[t|q|n]|]; cbn [rbind fst snd]; eauto. cbn in Hx. destruct (params_ok q (proj1 Hx) (proj2 Hx)) as (p & ->). cbn [rbind fst snd]. eauto.
Qed.
Lemma leaves_bad : forall l p, dequantize_leaves l = Ok p -> Forall (fun x => match x with Some a => recordable a | None => True end) l.
Proof.
  induction l as [|x l IH]; intros p E; constructor; cbn [dequantize_leaves] in E; apply rbind_ok in E; destruct E as ([v s] & E1 & E); apply rbind_ok in E; destruct E as (ps & E2 & E).
  - destruct x as [[t|q|n]|]; cbn; auto. apply rbind_ok in E1. destruct E1 as ([w e] & Ed & E1). apply params_inv in Ed. destruct Ed as (A & V & _). eauto.
  - eapply IH, E2.
Qed.
Lemma some_map : forall l vs, Forall2 dequantized_output (map Some l) vs -> Forall2 dequantized l (some_leaves vs).
Proof.
  induction l as [|x l IH]; intros vs F; inversion F as [|a y l1 l2 D F']; subst; [constructor|]. cbn in D. destruct D as (b & D & ->). cbn. constructor; [exact D | apply IH, F'].
Qed.
Lemma some_settings : forall l ss, Forall2 output_setting (map Some l) ss -> Forall2 has_setting l ss.
Proof. induction l as [|x l IH]; intros ss F; inversion F; subst; constructor; [assumption | apply IH; assumption]. Qed.
Lemma deep_inv : forall t v s, deep_dequantize t = Ok (v, s) -> corresponds dequantized t v /\ corresponds has_setting t s.
Proof.
  intros t v s E. unfold deep_dequantize in E. apply rbind_ok in E. destruct E as ([vs ss] & E1 & E). apply leaves_inv in E1. destruct E1 as [F1 F2]. apply some_map in F1. apply some_settings in F2. cbn [fst snd] in E.
  destruct (unflatten_rel _ t _ [] F1) as (u & Eu & Cu). rewrite app_nil_r in Eu. rewrite Eu in E. cbn [rbind fst] in E.
  destruct (unflatten_rel _ t _ [] F2) as (u' & Eu' & Cu'). rewrite app_nil_r in Eu'. rewrite Eu' in E. cbn [rbind fst] in E. injection E as <- <-. auto.
Qed.
Lemma deep_ok : forall t, Forall recordable (leaves_of t) -> exists p, deep_dequantize t = Ok p.
Proof.
  intros t F. unfold deep_dequantize. rewrite <- flatten_leaves in F. destruct (leaves_ok (map Some (flatten t))) as ([vs ss] & E); [apply Forall_forall; intros x I; apply in_map_iff in I; destruct I as (a & <- & I); rewrite Forall_forall in F; apply F, I|].
  rewrite E. cbn [rbind fst snd]. apply leaves_inv in E. destruct E as [F1 F2]. apply some_map in F1. apply some_settings in F2.
  destruct (unflatten_rel _ t _ [] F1) as (u & Eu & Cu). rewrite app_nil_r in Eu. rewrite Eu. cbn [rbind fst]. destruct (unflatten_rel _ t _ [] F2) as (u' & Eu' & Cu'). rewrite app_nil_r in Eu'. rewrite Eu'. cbn [rbind]. eauto.
Qed.
Lemma deep_bad : forall t p, deep_dequantize t = Ok p -> Forall recordable (leaves_of t).
Proof.
  intros t p E. unfold deep_dequantize in E. apply rbind_ok in E. destruct E as (ps & E1 & _). apply leaves_bad in E1. rewrite <- flatten_leaves. apply Forall_forall. intros x I. rewrite Forall_forall in E1. apply (E1 (Some x)), in_map, I.
Qed.
Lemma hook_inv : forall c r, hook c = Ok r -> records c r.
Proof.
  intros c r E. unfold hook in E. apply rbind_ok in E. destruct E as ([i si] & E1 & E). apply rbind_ok in E. destruct E as ([k sk] & E2 & E). apply rbind_ok in E. destruct E as ([o so] & E3 & E). cbn [fst snd] in E. injection E as <-.
  apply deep_inv in E1, E2. apply leaves_inv in E3. unfold records. cbn. tauto.
Qed.

(** ** Recorders *)
Lemma fire_inv : forall c recs recs', fire c recs = Ok recs' ->
  Forall2 (fun r r' => c_name r' = c_name r /\ c_module r' = c_module r /\ if c_module r =? k_module c then exists x, hook c = Ok x /\ c_recorded r' = Some x else c_recorded r' = c_recorded r) recs recs'.
Proof.
  intros c. induction recs as [|r recs IH]; intros recs' E; cbn [fire] in E; [injection E as <-; constructor|]. apply rbind_ok in E. destruct E as (r' & E1 & E). apply rbind_ok in E. destruct E as (recs'' & E2 & E). injection E as <-. constructor; [|apply IH, E2].
  destruct (c_module r =? k_module c); [apply rbind_ok in E1; destruct E1 as (x & Ex & E1); injection E1 as <-; cbn; eauto | injection E1 as <-; auto].
Qed.
Definition seen (calls : list call) (r r' : recorder) : Prop :=
  c_name r' = c_name r /\ c_module r' = c_module r /\
  ((exists c x, last_call (c_module r) calls c /\ hook c = Ok x /\ c_recorded r' = Some x) \/ (Forall (fun c => k_module c <> c_module r) calls /\ c_recorded r' = c_recorded r)).
Lemma Forall2_trans' : forall {A B C} (P : A -> B -> Prop) (Q : B -> C -> Prop) (R : A -> C -> Prop), (forall a b c, P a b -> Q b c -> R a c) -> forall l m n, Forall2 P l m -> Forall2 Q m n -> Forall2 R l n.
Proof. intros A B C P Q R H. induction l as [|a l IH]; intros m n F G; inversion F; subst; inversion G; subst; constructor; eauto. Qed.
Lemma observe_inv : forall calls recs recs', observe calls recs = Ok recs' -> Forall2 (seen calls) recs recs'.
Proof.
  induction calls as [|c calls IH]; intros recs recs' E; cbn [observe] in E.
  - injection E as <-. induction recs as [|r recs IHr]; constructor; [|exact IHr]. split; [reflexivity|]. split; [reflexivity|]. right. auto.
  - apply rbind_ok in E. destruct E as (mid & E1 & E). apply fire_inv in E1. apply IH in E. revert E1 E. apply Forall2_trans'. intros r r1 r2 (N1 & M1 & H1) (N2 & M2 & H2). split; [congruence|]. split; [congruence|]. rewrite M1 in H2.
    destruct H2 as [(c' & x & (bf & af & Ec & Em & Fa) & Hk & Er)|[Fa Er]].
    + left. exists c', x. split; [|auto]. exists (c :: bf), af. rewrite Ec. auto.
    + destruct (Nat.eqb_spec (c_module r) (k_module c)) as [X|X].
      * destruct H1 as (x & Hk & Ex). left. exists c, x. split; [exists [], calls; auto | split; [exact Hk | congruence]].
      * right. split; [constructor; auto | congruence].
Qed.
Lemma fire_ok : forall c recs, (forall r, In r recs -> c_module r = k_module c -> exists x, hook c = Ok x) -> exists recs', fire c recs = Ok recs'.
Proof.
  intros c. induction recs as [|r recs IH]; intros H; cbn [fire]; [eauto|]. destruct IH as (recs' & ->); [intros r' I; apply H; right; exact I|]. destruct (Nat.eqb_spec (c_module r) (k_module c)) as [X|X]; [destruct (H r (or_introl eq_refl) X) as (x & ->)|]; cbn [rbind]; eauto.
Qed.
Lemma fire_modules : forall c recs recs', fire c recs = Ok recs' -> map c_module recs' = map c_module recs.
Proof. intros c recs recs' E. apply fire_inv in E. induction E as [|r r' l l' (N & M & _) F IH]; [reflexivity|]. cbn. rewrite M, IH. reflexivity. Qed.
Lemma observe_ok : forall calls recs, (forall c, In c calls -> In (k_module c) (map c_module recs) -> exists x, hook c = Ok x) -> exists recs', observe calls recs = Ok recs'.
Proof.
  induction calls as [|c calls IH]; intros recs H; cbn [observe]; [eauto|]. destruct (fire_ok c recs) as (mid & E); [intros r I X; apply (H c (or_introl eq_refl)); rewrite <- X; apply in_map, I|]. rewrite E. cbn [rbind]. apply IH. intros c' I J. apply (H c' (or_intror I)). rewrite <- (fire_modules _ _ _ E). exact J.
Qed.
Lemma hook_ok : forall c, Forall recordable (leaves_of (k_args c)) -> Forall recordable (leaves_of (k_kwargs c)) -> Forall recordable (leaves_of (k_output c)) -> exists x, hook c = Ok x.
Proof.
  intros c A K O. unfold hook. destruct (deep_ok _ A) as (i & ->). cbn [rbind]. destruct (deep_ok _ K) as (k & ->). cbn [rbind].
  destruct (leaves_ok (torch_leaves (k_output c))) as (o & ->); [|cbn [rbind]; eauto].
  induction (k_output c) as [a| |cc l IH] using tree_rec'; [constructor; [exact (Forall_inv O) | constructor] | constructor; [exact I | constructor]|].
  cbn [torch_leaves]. cbn [leaves_of] in O. induction IH as [|[key t] l H F IHl]; [constructor|]. cbn [flat_map snd] in O. apply Forall_app in O. apply Forall_app. split; [apply H, O | apply IHl, O].
Qed.

(** ** Encodings *)
Lemma run_app : forall h a b, run h (a ++ b) = run (run h a) b.
Proof. intros. unfold run. apply fold_left_app. Qed.
Lemma outputs : forall names ss h h', extend_outputs h names ss = Ok h' -> h' = run h (wanted names ss).
Proof.
  induction names as [|n names IH]; intros ss h h' E; [injection E as <-; reflexivity|]. destruct ss as [|s ss]; [injection E as <-; reflexivity|]. cbn [extend_outputs] in E. apply rbind_ok in E. destruct E as (h1 & E1 & E). apply IH in E. subst h'. destruct s as [e|].
  - change (wanted (n :: names) (Some e :: ss)) with (Add n e false :: wanted names ss). unfold run. cbn [fold_left step]. rewrite E1. reflexivity.
  - injection E1 as <-. reflexivity.
Qed.
Lemma item_in : forall {A} (l : list (string * A)) n t, NoDup (map fst l) -> In (n, t) l -> get_item n l = Some t.
Proof.
  intros A l n t. unfold get_item. induction l as [|[k a] l IH]; intros N I; [contradiction|]. cbn [find fst]. cbn in N. inversion N as [|? ? X N']; subst. destruct I as [E|I].
  - injection E as <- <-. rewrite String.eqb_refl. reflexivity.
  - destruct (String.eqb_spec k n) as [->|]; [exfalso; apply X; apply in_map_iff; exists (n, t); auto | apply IH; assumption].
Qed.
Lemma item_out : forall {A} (l : list (string * A)) n, ~ In n (map fst l) -> get_item n l = None.
Proof.
  intros A l n N. unfold get_item. induction l as [|[k a] l IH]; [reflexivity|]. cbn [find fst]. destruct (String.eqb_spec k n) as [->|]; [exfalso; apply N; left; reflexivity | apply IH; intros I; apply N; right; exact I].
Qed.

(** Settings of flat arguments *)
Lemma flat_settings : forall (R : leaf -> option quant_params -> Prop) xs t, corresponds R (Node Tuple (map (fun x => (EmptyString, Leaf x)) xs)) t -> exists ps, map snd (children t) = map Leaf ps /\ Forall2 R xs ps.
Proof.
  intros R xs t C. inversion C as [| |c l l' F]; subst. cbn [children]. clear C. revert l' F. induction xs as [|x xs IH]; intros l' F; inversion F as [|? [k u] ? l2 [_ H] F']; subst; [exists []; split; [reflexivity | constructor]|].
  cbn [snd] in H. inversion H as [a b Rab| |]; subst. destruct (IH l2 F') as (ps & E & Fp). exists (b :: ps). split; [cbn; rewrite E; reflexivity | constructor; assumption].
Qed.
Lemma dict_settings : forall (R : leaf -> option quant_params -> Prop) kws t, corresponds R (Node Dict kws) t -> map fst (children t) = map fst kws /\ forall n y, In (n, Leaf y) kws -> exists s, In (n, Leaf s) (children t) /\ R y s.
Proof.
  intros R kws t C. inversion C as [| |c l l' F]; subst. cbn [children]. clear C. induction F as [|[k u] [k' u'] l l' [E H] F [M IH]]; [split; [reflexivity | intros ? ? []]|]. cbn [fst snd] in *. split; [cbn; rewrite M, E; reflexivity|]. intros n y [X|I].
  - injection X as -> ->. inversion H as [a b Rab| |]; subst. exists b. split; [left; reflexivity | exact Rab].
  - destruct (IH n y I) as (s & Is & Rs). exists s. split; [right; exact Is | exact Rs].
Qed.

(** Settings of the inputs of the graph *)
Lemma assigned_calls : forall kws names xs l, assigned kws names xs l -> forall kw pos ps h h', map fst kw = map fst kws -> NoDup (map fst kws) ->
  (forall n y, In (n, Leaf y) kws -> exists s, In (n, Leaf s) kw /\ has_setting y s) -> map snd pos = map Leaf ps -> Forall2 has_setting xs ps -> extend_inputs h names kw pos = Ok h' ->
  exists ns, Forall2 has_setting l ns /\ h' = run h (wanted names ns).
Proof.
  intros kws names xs l A. induction A as [|n x names xs l Hn A IH|n y names xs l Hn Hy A IH]; intros kw pos ps h h' Md Nd Hd Ep Fp E; cbn [extend_inputs] in E.
  - injection E as <-. exists []. split; [constructor|reflexivity].
  - rewrite item_out in E by (rewrite Md; exact Hn). cbn [setting] in E. inversion Fp as [|? s ? ps' Hs Fp']; subst. destruct pos as [|[k t] pos]; [discriminate Ep|]. cbn [map snd] in Ep. injection Ep as -> Ep. apply rbind_ok in E. destruct E as (h1 & E1 & E).
    destruct (IH kw pos ps' h1 h' Md Nd Hd Ep Fp' E) as (ns & Fn & ->). exists (s :: ns). split; [constructor; assumption|]. destruct s as [e|]; cbn [setting rbind] in E1.
    + change (wanted (n :: names) (Some e :: ns)) with (Add n e false :: wanted names ns). unfold run. cbn [fold_left step]. rewrite E1. reflexivity.
    + change (wanted (n :: names) (None :: ns)) with (wanted names ns). injection E1 as <-. reflexivity.
  - destruct (Hd n y Hn) as (s & Is & Hs). rewrite (item_in kw n (Leaf s)) in E; [|rewrite Md; exact Nd|exact Is]. destruct s as [e|]; cbn [setting] in E.
    + cbn [rbind] in E. apply rbind_ok in E. destruct E as (h1 & E1 & E). destruct (IH kw pos ps h1 h' Md Nd Hd Ep Fp E) as (ns & Fn & ->). exists (Some e :: ns). split; [constructor; assumption|].
      change (wanted (n :: names) (Some e :: ns)) with (Add n e false :: wanted names ns). unfold run. cbn [fold_left step]. rewrite E1. reflexivity.
    + assert (xs = []) as -> by (destruct Hy as [Hy|(q & ->)]; [exact Hy|cbn in Hs; destruct Hs as (? & _ & Hs); discriminate]). inversion Fp; subst. destruct pos; [|discriminate Ep].
      destruct (IH kw [] [] h h' Md Nd Hd eq_refl (Forall2_nil _) E) as (ns & Fn & ->). exists (None :: ns). split; [constructor; assumption|]. reflexivity.
Qed.

(** Whatever is recorded, the handler only sees additions. *)
Lemma add_run : forall h n e h', add_encoding h n e false = Ok h' -> h' = run h [Add n e false].
Proof. intros h n e h' E. unfold run. cbn [fold_left step]. rewrite E. reflexivity. Qed.
Lemma inputs_run : forall names h kw pos h', extend_inputs h names kw pos = Ok h' -> exists ops, h' = run h ops.
Proof.
  induction names as [|n names IH]; intros h kw pos h' E; cbn [extend_inputs] in E; [injection E as <-; exists []; reflexivity|]. destruct (setting (get_item n kw)) as [s|].
  - apply rbind_ok in E. destruct E as (e & _ & E). apply rbind_ok in E. destruct E as (h1 & E1 & E). apply add_run in E1. apply IH in E. destruct E as (ops & ->). subst h1. exists ([Add n e false] ++ ops). rewrite run_app. reflexivity.
  - destruct pos as [|[k t] pos]; [eapply IH, E|]. apply rbind_ok in E. destruct E as (h1 & E1 & E). apply IH in E. destruct E as (ops & ->). destruct (setting (Some t)) as [s|].
    + apply rbind_ok in E1. destruct E1 as (e & _ & E1). apply add_run in E1. subst h1. exists ([Add n e false] ++ ops). rewrite run_app. reflexivity.
    + injection E1 as <-. eauto.
Qed.
Lemma extend_run : forall h a r h', extend h a r = Ok h' -> exists ops, h' = run h ops.
Proof.
  intros h a r h' E. unfold extend in E. apply rbind_ok in E. destruct E as (h1 & E1 & E2). apply inputs_run in E1. apply outputs in E2. destruct E1 as (ops & ->). exists (ops ++ wanted (a_outputs a) (r_output_settings r)). rewrite E2, run_app. reflexivity.
Qed.

(** ** All modules *)
Section Modules.
  Variable plain_run quantized_run : list call * option exn.
  Variable export : string -> nat -> tree leaf -> tree leaf -> result artifact.
  Variable h0 : handler.
  Hypothesis h0_fresh : fresh h0.

  Definition exported (p : recorded) (r : recorder) (o : string * files) : Prop :=
    fst o = c_name r /\ f_plain (snd o) = p /\ c_recorded r = Some (f_quantized (snd o)) /\
    exists a calls h2, export (c_name r) (c_module r) (r_input (f_quantized (snd o))) (r_kwargs (f_quantized (snd o))) = Ok a /\
      Forall2 (fun '(n, m, q) o => exists e, quant_params_from_metadata m = Ok e /\ o = Add n e q) (annotated (a_proto a)) calls /\
      extend (run h0 calls) a (f_quantized (snd o)) = Ok h2 /\ f_encodings (snd o) = (build_encodings h2 true, build_encodings h2 false).
  Lemma export_all_inv : forall recs plain ops out, length plain = length recs -> export_all export (run h0 ops) plain recs = Ok out ->
    length out = length recs /\ forall i p r o, nth_error plain i = Some p -> nth_error recs i = Some r -> nth_error out i = Some o -> exported p r o.
  Proof.
    induction recs as [|r recs IH]; intros plain ops out L E; destruct plain as [|p plain]; try discriminate L; cbn [export_all] in E.
    - injection E as <-. split; [reflexivity|]. intros [|i] ? ? ? H; discriminate H.
    - destruct (c_recorded r) as [x|] eqn:X; [|discriminate]. apply rbind_ok in E. destruct E as (a & Ea & E). apply rbind_ok in E. destruct E as (h1 & E1 & E). apply rbind_ok in E. destruct E as (h2 & E2 & E). apply rbind_ok in E. destruct E as (rest & Er & E). injection E as <-.
      destruct (extraction h0 ops (a_proto a) h1 h0_fresh E1) as (calls & Fc & ->). destruct (extend_run _ _ _ _ E2) as (ops2 & H2).
      assert (C : clear h2 = run h0 ((calls ++ ops2) ++ [Clear])) by (rewrite !run_app, <- H2; reflexivity). rewrite C in Er. destruct (IH plain _ rest ltac:(cbn in L; lia) Er) as [Lr Hr]. split; [cbn; lia|].
      intros [|i] p' r' o' Hp Hr' Ho; cbn in Hp, Hr', Ho; [|eapply Hr; eassumption]. injection Hp as <-. injection Hr' as <-. injection Ho as <-. unfold exported. cbn [fst snd f_plain f_quantized f_encodings].
      split; [reflexivity|]. split; [reflexivity|]. split; [exact X|]. exists a, calls, h2. auto.
  Qed.
  Lemma stored_inv : forall recs xs, stored recs = Ok xs -> Forall2 (fun r x => c_recorded r = Some x) recs xs.
  Proof.
    induction recs as [|r recs IH]; intros xs E; cbn [stored] in E; [injection E as <-; constructor|]. destruct (c_recorded r) as [x|] eqn:X; [|discriminate]. apply rbind_ok in E. destruct E as (ys & Ey & E). injection E as <-. constructor; [exact X | apply IH, Ey].
  Qed.
  Lemma new_seen : forall calls modules recs, Forall2 (seen calls) (new_recorders modules) recs ->
    Forall2 (fun m r => c_name r = fst m /\ c_module r = snd m /\ forall x, c_recorded r = Some x -> exists c, last_call (snd m) calls c /\ records c x) modules recs.
  Proof.
    intros calls modules. induction modules as [|[n m] modules IH]; intros recs F; inversion F as [|? r ? recs' (N & M & H) F']; subst; constructor; [|apply IH, F']. cbn in *. split; [exact N|]. split; [exact M|]. intros x X.
    destruct H as [(c & y & Lc & Hk & Ey)|[_ Ey]]; [|congruence]. exists c. split; [exact Lc|]. apply hook_inv. congruence.
  Qed.
  Lemma execute_inv : forall run recs recs', execute run recs = Ok recs' -> snd run = None /\ Forall2 (seen (fst run)) recs recs'.
  Proof. intros [calls r] recs recs' E. unfold execute in E. apply rbind_ok in E. destruct E as (r2 & E1 & E). cbn [fst snd] in *. destruct r; [discriminate|]. injection E as <-. split; [reflexivity | apply observe_inv, E1]. Qed.

  Lemma modules_inv : forall ops args kwargs modules out left, export_modules plain_run quantized_run export (run h0 ops) args kwargs modules = (Ok out, left) ->
    left = [] /\ length out = length modules /\ forall i m o, nth_error modules i = Some m -> nth_error out i = Some o -> fst o = fst m /\
    (exists c, last_call (snd m) (fst plain_run) c /\ records c (f_plain (snd o))) /\
    exists c, last_call (snd m) (fst quantized_run) c /\ records c (f_quantized (snd o)) /\
    exists a calls h2, export (fst m) (snd m) (r_input (f_quantized (snd o))) (r_kwargs (f_quantized (snd o))) = Ok a /\
      Forall2 (fun '(n, m, q) o => exists e, quant_params_from_metadata m = Ok e /\ o = Add n e q) (annotated (a_proto a)) calls /\
      extend (run h0 calls) a (f_quantized (snd o)) = Ok h2 /\ f_encodings (snd o) = (build_encodings h2 true, build_encodings h2 false).
  Proof.
    intros ops args kwargs modules out left E. unfold export_modules in E. destruct (no_children args && no_children kwargs); [discriminate|].
    destruct (rbind (execute plain_run (new_recorders modules)) stored) as [plain|] eqn:P; [|discriminate]. destruct (execute quantized_run (new_recorders modules)) as [recs|] eqn:R; [|discriminate]. injection E as E <-. split; [reflexivity|].
    apply rbind_ok in P. destruct P as (precs & Pe & Ps). apply execute_inv in Pe, R. destruct Pe as [_ Pe], R as [_ R]. apply new_seen in Pe, R. apply stored_inv in Ps.
    assert (Lr : length recs = length modules) by (clear - R; induction R; cbn; congruence). assert (Lpr : length precs = length modules) by (clear - Pe; induction Pe; cbn; congruence). assert (Lp : length plain = length precs) by (clear - Ps; induction Ps; cbn; congruence).
    destruct (export_all_inv recs plain ops out ltac:(lia) E) as [Lo Ho]. split; [lia|]. intros i m o Em Eo.
    assert (Li : i < length modules) by (apply nth_error_Some; congruence).
    assert (N : forall {A B} (P : A -> B -> Prop) l l', Forall2 P l l' -> forall i a b, nth_error l i = Some a -> nth_error l' i = Some b -> P a b).
    { intros A B P l l' F. induction F; intros [|j] a b Ha Hb; cbn in *; try discriminate; [congruence | eauto]. }
    destruct (nth_error recs i) as [r|] eqn:Er; [|apply nth_error_None in Er; lia]. destruct (nth_error precs i) as [pr|] eqn:Epr; [|apply nth_error_None in Epr; lia]. destruct (nth_error plain i) as [p|] eqn:Ep; [|apply nth_error_None in Ep; lia].
    destruct (Ho i p r o Ep Er Eo) as (H1 & H2 & H3 & a & calls & h2 & H4). destruct (N _ _ _ _ _ R i m r Em Er) as (Nr & Mr & Hr). destruct (N _ _ _ _ _ Pe i m pr Em Epr) as (_ & _ & Hp). pose proof (N _ _ _ _ _ Ps i pr p Epr Ep) as Hs. cbn beta in Hs.
    split; [congruence|]. split; [rewrite H2; apply Hp, Hs|]. destruct (Hr _ H3) as (c & Lc & Rc). exists c. split; [exact Lc|]. split; [exact Rc|]. exists a, calls, h2. rewrite <- Nr, <- Mr. exact H4.
  Qed.
  Lemma hooks_inv : forall h args kwargs modules, snd quantized_run = None -> (forall c, In c (fst quantized_run) -> In (k_module c) (map snd modules) -> Forall recordable (leaves_of (k_args c) ++ leaves_of (k_kwargs c) ++ leaves_of (k_output c))) ->
    snd (export_modules plain_run quantized_run export h args kwargs modules) = [].
  Proof.
    intros h args kwargs modules Q R. unfold export_modules. destruct (no_children args && no_children kwargs); [reflexivity|]. destruct (rbind _ stored) as [plain|]; [|reflexivity].
    unfold execute. destruct (observe_ok (fst quantized_run) (new_recorders modules)) as (recs & ->).
    - intros c I J. unfold new_recorders in J. rewrite map_map in J. cbn in J. specialize (R c I J). rewrite !Forall_app in R. apply hook_ok; tauto.
    - cbn [rbind]. rewrite Q. reflexivity.
  Qed.
End Modules.
Lemma describes_params : forall q e b tile, params_of q e -> tile_is q tile -> qt_bits q = IntBits b -> Forall (fun n => 0 < n) (shape (qt_codes q)) -> tile_divides (shape (qt_codes q)) (resolve_tile (shape (qt_codes q)) tile) ->
  length (qt_scale q) = prod (grid (shape (qt_codes q)) (resolve_tile (shape (qt_codes q)) tile)) -> (forall os, qt_offset q = Some os -> length os = length (qt_scale q)) ->
  describes e b (qt_scale q) (qt_offset q) (shape (qt_codes q)) (resolve_tile (shape (qt_codes q)) tile).
Proof.
  intros q e b tile (t & T & ->) T' B P D L O. unfold tile_is in *. assert (t = tile) as -> by congruence. constructor; cbn; auto.
Qed.
