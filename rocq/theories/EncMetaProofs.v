(** Proofs about histories of handlers and the ONNX metadata. *)
From Coq Require Import String.
From Verif Require Import Prelude TilingModel TilingSpec TilingProofs GranularityModel GranularityProofs
  AffineModel AffineSpec AffineProofs AffineTensorProofs EncModel EncSpec EncLpbqProofs EncProofs EncV2Proofs EncHandlerProofs.
From Coq Require Import QArith Qabs Lqa Lia.
Local Open Scope nat_scope.
Local Open Scope list_scope.

(** ** Histories *)

Lemma names_first_wins h0 ops q : fresh h0 ->
  NoDup (map fst (build_encodings (run h0 ops) q)) /\
  forall name x, In (name, x) (build_encodings (run h0 ops) q) <->
    exists e p h, first_added h0 (since_clear ops) name q e p /\
      add_encoding h0 name e p = Ok h /\ build_encodings h q = [(name, x)].
Proof.
  intros F. rewrite (run_since h0 ops h0 F (state_fresh h0 F) (or_introl eq_refl)).
  destruct (names_adds h0 (since_clear ops) q F (since_adds ops)) as (ND & _ & IN).
  split; [exact ND|]. intros name x. rewrite IN. split.
  - intros (e & p & FA & E). destruct (enc_add h0 name e p x F E) as (h & A & B). exists e, p, h.
    split; [exact FA|]. split; [exact A|]. apply B. apply cat_spec. destruct FA as (? & ? & _ & SC & _). exact SC.
  - intros (e & p & h & FA & A & B). exists e, p. split; [exact FA|].
    destruct (enc h0 e) as [y|z] eqn:E.
    + destruct (enc_add h0 name e p y F E) as (h' & A' & B'). rewrite A in A'. injection A' as <-.
      rewrite B' in B; [congruence|]. apply cat_spec. destruct FA as (? & ? & _ & SC & _). exact SC.
    + apply (enc_err h0 name e p z F) in E. congruence.
Qed.

Lemma clear_forgets h0 ops g : fresh h0 -> extract_encodings g (run h0 ops) = extract_encodings g h0.
Proof.
  intros F. unfold extract_encodings. pose proof (run_state h0 ops h0 F (state_fresh h0 F)) as (C & _).
  rewrite C. assert (clear h0 = h0) as -> by (destruct F; reflexivity). reflexivity.
Qed.

(** *** Extraction adds the annotated objects in order *)

Definition adds (l : list (string * metadata * bool)) (ops : list op) : Prop :=
  Forall2 (fun '(n, m, p) o => exists e, quant_params_from_metadata m = Ok e /\ o = Add n e p) l ops.

Definition addall (l : list (string * metadata * bool)) (h : handler) : result handler :=
  fold_left (fun r '(n, m, p) => let? h := r in let? e := quant_params_from_metadata m in add_encoding h n e p) l (Ok h).

Lemma fold_err {A B} (f : A -> B -> result A) l x :
  fold_left (fun r b => let? a := r in f a b) l (Err x) = Err x.
Proof. induction l as [|b l IH]; [reflexivity|]. exact IH. Qed.

Lemma addall_err l x : fold_left (fun r '(n, m, p) => let? h := r in let? e := quant_params_from_metadata m in add_encoding h n e p) l (Err x) = Err x.
Proof. induction l as [|[[n m] p] l IH]; [reflexivity|]. exact IH. Qed.

Lemma addall_run l h h' : addall l h = Ok h' -> exists ops, adds l ops /\ h' = run h ops.
Proof.
  unfold addall. revert h; induction l as [|[[n m] p] l IH]; intros h E.
  - injection E as <-. exists []. split; [constructor|reflexivity].
  - cbn [fold_left rbind] in E. destruct (quant_params_from_metadata m) as [e|] eqn:Em; cbn [rbind] in E; [|rewrite addall_err in E; discriminate].
    destruct (add_encoding h n e p) as [h1|] eqn:Ea; [|rewrite addall_err in E; discriminate].
    destruct (IH h1 E) as (ops & A & ->). exists (Add n e p :: ops). split; [constructor; eauto|].
    cbn [run fold_left step]. rewrite Ea. reflexivity.
Qed.

Lemma addall_app l l' h : addall (l ++ l') h = let? h := addall l h in addall l' h.
Proof.
  unfold addall. rewrite fold_left_app. destruct (fold_left _ l (Ok h)); [reflexivity|]. apply addall_err.
Qed.

Lemma addall_names ns m p h h' : add_all ns m p h = Ok h' ->
  addall (match m with Some m => map (fun n => (n, m, p)) ns | None => [] end) h = Ok h'.
Proof.
  destruct m as [m|]; [|auto]. cbn [add_all]. destruct (quant_params_from_metadata m) as [e|] eqn:Em; [|discriminate].
  cbn [rbind]. revert h. unfold addall. induction ns as [|n ns IH]; intros h E; [exact E|].
  cbn [map fold_left rbind] in *. rewrite Em. cbn [rbind]. destruct (add_encoding h n e p) as [h1|x].
  - now apply IH.
  - rewrite (fold_err (fun h n => add_encoding h n e p)) in E. discriminate.
Qed.

Lemma fold_addall {A} (f : handler -> A -> result handler) (g : A -> list (string * metadata * bool)) l :
  (forall h a h', In a l -> f h a = Ok h' -> addall (g a) h = Ok h') ->
  forall h h', fold_left (fun r a => let? h := r in f h a) l (Ok h) = Ok h' -> addall (flat_map g l) h = Ok h'.
Proof.
  induction l as [|a l IH]; intros H h h' E; [exact E|].
  cbn [fold_left rbind flat_map] in *. rewrite addall_app.
  destruct (f h a) as [h1|x] eqn:Ef; [|rewrite fold_err in E; discriminate].
  rewrite (H h a h1 (or_introl eq_refl) Ef). cbn [rbind]. apply IH; [|exact E]. intros. apply H; [now right|assumption].
Qed.

Lemma fold_ext {A B} (f g : A -> B -> A) l a : (forall a b, f a b = g a b) -> fold_left f l a = fold_left g l a.
Proof. intros H. revert a; induction l as [|b l IH]; intros a; [reflexivity|]. cbn. rewrite H. apply IH. Qed.

Lemma extract_ok g h h' : extract_encodings g h = Ok h' ->
  addall (annotated g) (clear h) = Ok h'.
Proof.
  unfold extract_encodings, annotated. intros E.
  apply rbind_ok in E as (h1 & E1 & E). apply rbind_ok in E as (h2 & E2 & E). apply rbind_ok in E as (h3 & E3 & E4).
  rewrite addall_app.
  assert (N : forall p l h h', fold_left (fun r '(n, m) => let? h := r in add_all [n] m p h) l (Ok h) = Ok h' ->
    addall (flat_map (fun '(n, m) => match m with Some m => [(n, m, p)] | None => [] end) l) h = Ok h').
  { intros p l h0 h0' E0. apply (fold_addall (fun h '(n, m) => add_all [n] m p h)).
    - intros hh [n m] hh' _ Ef. apply addall_names in Ef. destruct m; exact Ef.
    - rewrite <- E0. apply fold_ext. intros [a|] [n m]; reflexivity. }
  rewrite (N true _ _ _ E1). cbn [rbind]. rewrite addall_app. rewrite (N false _ h1 h2).
  - cbn [rbind]. rewrite addall_app. rewrite (fold_addall (fun h '(m, ns) => add_all ns m false h)
      (fun '(m, ns) => match m with Some m => map (fun n => (n, m, false)) ns | None => [] end) (g_node g)) with (h' := h3).
    + cbn [rbind]. now apply N.
    + intros hh [m ns] hh' _ Ef. now apply addall_names.
    + rewrite <- E3. apply fold_ext. intros [a|] [n m]; reflexivity.
  - clear - E2. revert h1 E2. induction (g_input g) as [|[n m] l IH]; intros h1 E; [exact E|].
    cbn [filter]. unfold known in E. cbn [fold_left rbind] in E.
    destruct (existsb (String.eqb n) (map fst (g_init g))) eqn:K; cbn [negb].
    + apply IH. exact E.
    + cbn [fold_left rbind]. destruct (add_all [n] m false h1) as [hh|x].
      * apply IH. exact E.
      * clear - E. exfalso. revert E. induction l as [|[n m] l IH]; [discriminate|]. exact IH.
Qed.

Lemma extraction h0 ops g h : fresh h0 -> extract_encodings g (run h0 ops) = Ok h ->
  exists calls, Forall2 (fun '(n, m, p) o => exists e, quant_params_from_metadata m = Ok e /\ o = Add n e p) (annotated g) calls /\
    h = run h0 calls.
Proof.
  intros F E. rewrite (clear_forgets h0 ops g F) in E. apply extract_ok in E.
  assert (clear h0 = h0) as C by (destruct F; reflexivity). rewrite C in E. apply addall_run. exact E.
Qed.

(** ** Metadata *)

Lemma metadata_round_trip b ss os shape tile sp : length os = length ss -> length ss = prod (grid shape tile) ->
  Forall (fun n => 0 < n) shape -> tile_divides shape tile ->
  ff_quantizer_spec ss (Some os) (IntBits b) (Some tile) (Some shape) = Ok sp ->
  exists e os', quant_params_from_metadata (apply_quant_spec_metadata sp) = Ok e /\
    describes e b ss (Some os') shape tile /\ Forall2 Qeq os os'.
Proof.
  intros HL HS P D E. unfold ff_quantizer_spec in E. cbv zeta in E.
  match type of E with Ok ?a = _ => assert (sp = a) as -> by congruence end.
  unfold apply_quant_spec_metadata, quant_params_from_metadata.
  cbn [s_scale s_offset s_bits s_symmetric s_tile s_shape m_scale m_offset m_bits m_symmetric m_size option_map fst snd].
  assert (L : length (if forallb (fun x => Qeq_bool x 0) os then os
             else map (fun x => (QofZ (2 ^ (Zpos b - 1)) - x)%Q) os) = length os).
  { destruct (forallb _ os); [reflexivity|apply map_length]. }
  rewrite L, HL, Nat.eqb_refl. cbn [negb].
  eexists. eexists. split; [reflexivity|]. split.
  - constructor; try reflexivity; auto. intros o [= <-]. destruct (forallb _ os); rewrite ?map_length; exact HL.
  - destruct (forallb _ os).
    + clear. induction os; constructor; auto; reflexivity.
    + clear. rewrite map_map. induction os as [|o os IH]; constructor; auto. ring.
Qed.

Lemma round_same os os' : Forall2 Qeq os os' -> map round_half_even os = map round_half_even os'.
Proof. induction 1 as [|a b l l' E _ IH]; [reflexivity|]. cbn [map]. rewrite IH. f_equal. now rewrite E. Qed.

Lemma dequantize_same x ss t os os' : Forall2 Qeq os os' ->
  dequantize_by_tile x ss t (Some os) = dequantize_by_tile x ss t (Some os').
Proof. intros E. unfold dequantize_by_tile, infer_offsets. rewrite (round_same _ _ E). reflexivity. Qed.

(** From the quantizer's parameters to the encoding and back to the tensor. *)
Lemma end_to_end l b ss os s t sp name p h k sym bw scale offset : length os = length ss -> length ss = prod (grid s t) ->
  Forall (fun n => 0 < n) s -> tile_divides s t ->
  ff_quantizer_spec ss (Some os) (IntBits b) (Some t) (Some s) = Ok sp ->
  (let? e := quant_params_from_metadata (apply_quant_spec_metadata sp) in
   add_encoding (HV1 l v1_init) name e p) = Ok h ->
  build_encodings h p = [(name, EV1 (V1Plain k sym bw scale offset))] ->
  bw = b /\ scale = ss /\ length offset = length ss /\
  forall x w idx z v, wf x -> shape x = s -> dequantize_by_tile x ss (Tile t) (Some os) = Ok w ->
    valid s idx -> at_index x idx = Some z -> at_index w idx = Some v ->
    exists sc o, nth_error scale (v1_position k s t idx) = Some sc /\
      nth_error offset (v1_position k s t idx) = Some o /\ (v == qnn_decode sc o (stored b z))%Q.
Proof.
  intros HL HS P D E A B. destruct (metadata_round_trip b ss os s t sp HL HS P D E) as (e & os' & Ee & De & Q).
  rewrite Ee in A. cbn [rbind] in A.
  destruct (v1_decodes _ _ _ _ _ _ _ _ _ _ _ _ _ _ _ De A B) as (H1 & H2 & H3 & H4).
  repeat split; auto. intros x w idx z v W Hs Ed. rewrite (dequantize_same _ _ _ _ _ Q) in Ed. exact (H4 x w idx z v W Hs Ed).
Qed.
