(** Saved quantization state and model artifacts: C32, C33, C34, C81, C82. *)
From Coq Require Import String Ascii QArith.
From Verif Require Import Prelude GgufModel SaveModel SaveSpec SaveProofs SaveQuantProofs SaveLoadProofs SavePolicyProofs SaveRejectProofs.
Local Open Scope nat_scope.
Local Open Scope list_scope.

(** * C32 *)

(** Every state dict can be de-duplicated; of the tensors over one piece of memory only the one
    with the least name is written; and after expanding, whatever the file gives back for the
    written names ([read]), exactly the original names are present, and each has what was read for
    the least name over its memory.  Names get the same tensor object iff they had the same memory. *)
Theorem C32_shared_tensors : forall d : list (string * tref), NoDup (map fst d) ->
  exists u a rep, deduplicate_shared_tensors d = Ok (u, a) /\ NoDup (map fst u) /\
    (forall n t, In (n, t) u -> In (n, t) d) /\
    (forall n t, In (n, t) d -> exists t', In (rep n, t') u /\ same_memory t t') /\
    (forall n1 t1 n2 t2, In (n1, t1) d -> In (n2, t2) d -> (rep n1 = rep n2 <-> same_memory t1 t2)) /\
    (forall n1 t1 n2 t2, In (n1, t1) u -> In (n2, t2) u -> same_memory t1 t2 -> n1 = n2) /\
    (forall n1 t1 n2 t2, In (n1, t1) d -> In (n2, t2) d -> same_memory t1 t2 -> String.ltb n2 (rep n1) = false) /\
    forall V (read : string -> tref -> V),
      exists e, expand_shared_tensors (map (fun e => (fst e, read (fst e) (snd e))) u) a = Ok e /\
        NoDup (map fst e) /\
        forall n v, In (n, v) e <-> exists t t', In (n, t) d /\ In (rep n, t') u /\ v = read (rep n) t'.
Proof. exact dedup_round_trip. Qed.
Print Assumptions C32_shared_tensors.

(** An alias for a name that was not saved is an error. *)
Theorem C32_dangling_alias : forall V (tensors : list (string * V)) aliases n r,
  In (n, r) aliases -> ~ In r (map fst tensors) -> expand_shared_tensors tensors aliases = Err RuntimeError.
Proof. exact @expand_dangling. Qed.
Print Assumptions C32_dangling_alias.

(** If tensors over the same memory have the same dtype, expanding gives back the state dict. *)
Theorem C32_round_trip_partial : forall d : list (string * tref), NoDup (map fst d) ->
  (forall n1 t1 n2 t2, In (n1, t1) d -> In (n2, t2) d -> same_memory t1 t2 -> r_dtype t1 = r_dtype t2) ->
  exists u a e, deduplicate_shared_tensors d = Ok (u, a) /\ expand_shared_tensors u a = Ok e /\
    NoDup (map fst e) /\ forall n t, In (n, t) e <-> In (n, t) d.
Proof.
  intros d N D. destruct (dedup_round_trip d N) as (u & a & rep & E & _ & Hu & R & _ & _ & _ & X).
  destruct (X tref (fun _ t => t)) as (e & Ee & Ne & He). exists u, a, e. split; [exact E|]. split.
  - rewrite <- Ee. f_equal. clear. induction u as [|[n t] u IH]; cbn; [reflexivity|]. now rewrite <- IH.
  - split; [exact Ne|].
    assert (Eq : forall n t, In (n, t) d -> forall t', In (rep n, t') u -> same_memory t t' -> t = t').
    { intros n t I t' J M. pose proof (D n t (rep n) t' I (Hu _ _ J) M) as Hd.
      destruct M as (M1 & M2 & M3 & M4). destruct t, t'; cbn in *; subst; reflexivity. }
    assert (Un : forall n t n' t', In (n, t) d -> In (n, t') d -> n = n' -> t = t').
    { intros n t n' t' I J _. apply (assoc_in _ _ _ N) in I. apply (assoc_in _ _ _ N) in J. congruence. }
    intros n t. rewrite He. split.
    + intros (t0 & t' & I & J & ->). destruct (R n t0 I) as (t2 & J2 & M).
      assert (t' = t2) by (eapply Un; [apply Hu; exact J|apply Hu; exact J2|reflexivity]). subst t2.
      now rewrite <- (Eq n t0 I t' J M).
    + intros I. destruct (R n t I) as (t' & J & M). exists t, t'. split; [exact I|]. split; [exact J|].
      exact (Eq n t I t' J M).
Qed.
Print Assumptions C32_round_trip_partial.

Definition tied : list (string * tref) :=
  [("lm_head.weight"%string, mkRef 64 [8; 4] [4; 1] 0 0); ("norm.weight"%string, mkRef 512 [4] [1] 0 0);
   ("embed.weight"%string, mkRef 64 [8; 4] [4; 1] 0 0)].
Example C32_nonvacuous : NoDup (map fst tied) /\
  deduplicate_shared_tensors tied =
    Ok ([("embed.weight"%string, mkRef 64 [8; 4] [4; 1] 0 0); ("norm.weight"%string, mkRef 512 [4] [1] 0 0)],
        [("lm_head.weight"%string, "embed.weight"%string)]).
Proof. split; [repeat constructor; cbn; intuition discriminate|reflexivity]. Qed.

(** The dtype is not compared: a tensor and a view of the same memory under another dtype
    ([t.view(torch.int32)]) count as one, and the dropped name comes back with the other dtype. *)
Theorem C32_dtype_refuted : exists d u a e n t t', NoDup (map fst d) /\
  deduplicate_shared_tensors d = Ok (u, a) /\ expand_shared_tensors u a = Ok e /\
  In (n, t) d /\ In (n, t') e /\ r_dtype t <> r_dtype t'.
Proof.
  exists [("raw"%string, mkRef 64 [4] [1] 0 1); ("bits"%string, mkRef 64 [4] [1] 0 2)].
  eexists _, _, _, "raw"%string, _, _. split; [repeat constructor; cbn; intuition discriminate|].
  split; [reflexivity|]. split; [reflexivity|]. split; [left; reflexivity|].
  split; [right; left; reflexivity|]. discriminate.
Qed.
Print Assumptions C32_dtype_refuted.

(** Views with another shape or layout over the same memory are not recognised: both are kept for
    writing (safetensors then refuses to write them). *)
Theorem C32_views_refuted : exists d u a n1 n2 t1 t2, NoDup (map fst d) /\
  deduplicate_shared_tensors d = Ok (u, a) /\ In (n1, t1) u /\ In (n2, t2) u /\ n1 <> n2 /\ r_ptr t1 = r_ptr t2.
Proof.
  exists [("w"%string, mkRef 64 [4; 4] [4; 1] 0 1); ("w_t"%string, mkRef 64 [4; 4] [1; 4] 0 1)].
  eexists _, _, "w"%string, "w_t"%string, _, _. split; [repeat constructor; cbn; intuition discriminate|].
  split; [reflexivity|]. split; [left; reflexivity|]. split; [right; left; reflexivity|].
  split; [discriminate|reflexivity].
Qed.
Print Assumptions C32_views_refuted.

(** * C33 *)

(** Saving succeeds and loading into a model with the same module names restores at every quantizer
    name a new quantizer with the saved configuration and parameters; names that had one quantizer
    object have one object again, and names with different objects different ones; nothing else is
    touched.  Assumed: names without comma, equals sign and colon; at least one parameter per
    quantizer; YAML rebuilds quantizers with the same parameters and dtypes; lazy parameters
    only with allow_lazy_params; and the target has stubs there, or is overwritten. *)
Theorem C33_round_trip_partial : forall C cast (rebuild : C -> list (string * slot)) (w : world C) allow,
  keeps cast -> NoDup (map fst (w_names w)) ->
  (forall n q, quantizer_at w n q -> plain n /\ describable (w_store w q) /\
     rebuilds rebuild (w_store w q) /\ (allow = true \/ lazy_free (w_store w q))) ->
  forall name pol base (w' : world C),
  w_names w' = w_names w ->
  (pol = POverwrite /\ (forall n q c, quantizer_at w n q -> In (n, c) (w_names w) -> w_at w' c <> NotQuantizer)
   \/ (forall n q c, quantizer_at w n q -> In (n, c) (w_names w) -> w_at w' c = Stub) /\
      (pol = PSkip \/ forall n m c, In (n, c) (w_names w) -> In (m, c) (w_names w) -> n = m)) ->
  exists f w'', write_quantizer_state w name allow = Ok f /\
    load_quantizer_state cast rebuild pol allow (Some name) f base w' = (w'', Ok tt) /\
    w_names w'' = w_names w /\
    (forall n q, quantizer_at w n q -> exists q', quantizer_at w'' n q' /\ base <= q' /\
       q_config (w_store w'' q') = q_config (w_store w q) /\ q_params (w_store w'' q') = q_params (w_store w q)) /\
    (forall n m q r q' r', quantizer_at w n q -> quantizer_at w m r ->
       quantizer_at w'' n q' -> quantizer_at w'' m r' -> (q' = r' <-> q = r)) /\
    (forall c, (forall n q, quantizer_at w n q -> ~ In (n, c) (w_names w)) -> w_at w'' c = w_at w' c) /\
    (forall i, i < base -> w_store w'' i = w_store w' i).
Proof. exact @round_trip. Qed.
Print Assumptions C33_round_trip_partial.

(** Without allow_lazy_params, a quantizer that still has a lazy parameter cannot be saved. *)
Theorem C33_lazy_rejected : forall C (w : world C) name n q p d,
  quantizer_at w n q -> In (p, Uninit d) (q_params (w_store w q)) ->
  write_quantizer_state w name false = Err ValueError.
Proof. exact @lazy_rejected. Qed.
Print Assumptions C33_lazy_rejected.

(** A written state is loaded only if every rebuilt quantizer has the saved parameters and no
    parameters that were not saved, and, without allow_lazy_params, if no saved parameter was lazy. *)
Theorem C33_load_checks : forall C cast (rebuild : C -> list (string * slot)) (w : world C) allow_save allow name expected
    pol base f w' w'',
  NoDup (map fst (w_names w)) ->
  (forall n q, quantizer_at w n q -> plain n /\ describable (w_store w q)) ->
  write_quantizer_state w name allow_save = Ok f ->
  load_quantizer_state cast rebuild pol allow expected f base w' = (w'', Ok tt) ->
  forall n q, quantizer_at w n q ->
    (forall p, In p (map fst (rebuild (q_config (w_store w q)))) -> In p (map fst (q_params (w_store w q)))) /\
    (forall p t, In (p, Init t) (q_params (w_store w q)) -> In p (map fst (rebuild (q_config (w_store w q))))) /\
    (allow = true \/ lazy_free (w_store w q)).
Proof. exact @load_checks. Qed.
Print Assumptions C33_load_checks.

(** A file without tensors still has an entry in its metadata (so that it can be read). *)
Theorem C33_file_not_empty : forall C (w : world C) name allow f,
  write_quantizer_state w name allow = Ok f -> f_state f <> [] \/ f_meta f <> [].
Proof. exact @file_not_empty. Qed.
Print Assumptions C33_file_not_empty.

(** A state saved for another model identifier is rejected, and nothing changes. *)
Theorem C33_wrong_model : forall C cast (rebuild : C -> list (string * slot)) pol allow n f base (w : world C),
  f_name f <> n -> load_quantizer_state cast rebuild pol allow (Some n) f base w = (w, Err RuntimeError).
Proof. exact @wrong_name. Qed.
Print Assumptions C33_wrong_model.

(** Two layers sharing an input quantizer, and a weight quantizer with an offset that was never set. *)
Definition ex_scale (d : nat) (x : Q) : ten := mkTen d [1] [x].
Definition ex_names : list (string * cell) :=
  [("a.input_quantizer"%string, (1, "input_quantizer"%string)); ("a.weight_quantizer"%string, (1, "weight_quantizer"%string));
   ("b.input_quantizer"%string, (2, "input_quantizer"%string))].
Definition ex_world : world nat :=
  mkW ex_names (fun c => if String.eqb (snd c) "weight_quantizer" then Concrete 6 else Concrete 5)
    (fun i => if i =? 5 then mkQ 8 [("scale"%string, Init (ex_scale 0 (1 # 2)))]
              else mkQ 4 [("scale"%string, Init (ex_scale 0 (3 # 4))); ("offset"%string, Uninit 0)]).
Definition ex_stubs : world nat := mkW ex_names (fun _ => Stub) (fun _ => mkQ 0 []).
Definition ex_rebuild (c : nat) : list (string * slot) :=
  if c =? 8 then [("scale"%string, Uninit 0)] else [("scale"%string, Uninit 0); ("offset"%string, Uninit 0)].
Definition no_cast (_ _ : nat) (v : list Q) : list Q := v.

Definition plainb (s : string) : bool :=
  forallb (fun c => negb (Ascii.eqb c "," || Ascii.eqb c "=" || Ascii.eqb c ":")) (chars s).
Lemma plainb_ok s : plainb s = true -> plain s.
Proof.
  unfold plainb, plain. rewrite forallb_forall. intros H c I. specialize (H c I).
  apply negb_true_iff in H. rewrite !orb_false_iff, !Ascii.eqb_neq in H. tauto.
Qed.
Lemma describable_ok {C} (q : qobj C) : negb (length (q_params q) =? 0) = true ->
  (if list_eq_dec string_dec (nodup string_dec (map fst (q_params q))) (map fst (q_params q)) then true else false) = true ->
  forallb (fun p => plainb p && negb (existsb (Ascii.eqb ".") (chars p))) (map fst (q_params q)) = true -> describable q.
Proof.
  intros H1 H2 H3. split; [|split].
  - intros E. rewrite E in H1. discriminate.
  - destruct (list_eq_dec _ _ _) as [E|]; [|discriminate]. rewrite <- E. apply NoDup_nodup.
  - intros p I. rewrite forallb_forall in H3. specialize (H3 p I). apply andb_true_iff in H3 as [H3 H4].
    split; [now apply plainb_ok|]. intros J. apply negb_true_iff in H4.
    assert (existsb (Ascii.eqb ".") (chars p) = true); [|congruence].
    apply existsb_exists. exists "."%char. split; [exact J|reflexivity].
Qed.
Ltac ex_describable := apply describable_ok; reflexivity.

Example C33_nonvacuous : keeps no_cast /\ NoDup (map fst (w_names ex_world)) /\
  (forall n q, quantizer_at ex_world n q -> plain n /\ describable (w_store ex_world q) /\
     rebuilds ex_rebuild (w_store ex_world q) /\ (true = true \/ lazy_free (w_store ex_world q))) /\
  w_names ex_stubs = w_names ex_world /\
  (forall n q c, quantizer_at ex_world n q -> In (n, c) (w_names ex_world) -> w_at ex_stubs c = Stub) /\
  (forall n m c, In (n, c) (w_names ex_world) -> In (m, c) (w_names ex_world) -> n = m) /\
  quantizer_at ex_world "a.input_quantizer" 5 /\ quantizer_at ex_world "b.input_quantizer" 5 /\
  quantizer_at ex_world "a.weight_quantizer" 6.
Proof.
  assert (P : forall n c, In (n, c) ex_names -> plain n).
  { intros n c I. cbn in I. repeat match goal with H : _ \/ _ |- _ => destruct H as [[= <- <-]|H] end; try contradiction.
    all: apply plainb_ok; reflexivity. }
  split; [intros d v; reflexivity|]. split; [repeat constructor; cbn; intuition discriminate|]. split.
  { intros n q (c & I & E). split; [eapply P; exact I|]. cbn in E.
    assert (q = 5 \/ q = 6) as [->| ->] by (destruct (String.eqb _ _); injection E as <-; auto).
    - split; [ex_describable|]. split; [|auto]. repeat constructor.
    - split; [ex_describable|]. split; [|auto]. repeat constructor. }
  split; [reflexivity|]. split; [reflexivity|]. split.
  { intros n m c I J. cbn in I, J.
    repeat match goal with H : _ \/ _ |- _ => destruct H as [[= <- <-]|H] end; try contradiction; try reflexivity;
    repeat match goal with H : _ \/ _ |- _ => destruct H as [H|H] end; try contradiction; congruence. }
  split; [exists (1, "input_quantizer"%string)|split; [exists (2, "input_quantizer"%string)|exists (1, "weight_quantizer"%string)]];
    (split; [cbn; auto|reflexivity]).
Qed.

Example C33_runs :
  match write_quantizer_state ex_world "m" true with
  | Ok f => f_meta f = [("a.input_quantizer"%string, "scale=a.input_quantizer.scale"%string);
                        ("b.input_quantizer"%string, "scale=a.input_quantizer.scale"%string);
                        ("a.weight_quantizer"%string,
                         "scale=a.weight_quantizer.scale,offset=a.weight_quantizer.offset::lazy"%string)] /\
            snd (load_quantizer_state no_cast ex_rebuild PError true (Some "m"%string) f 10 ex_stubs) = Ok tt
  | Err _ => False
  end.
Proof. split; reflexivity. Qed.

(** A quantizer without parameters (its metadata is the empty string) is saved, but the saved state
    cannot be loaded. *)
Theorem C33_no_parameters_refuted : exists (w w' : world nat) f,
  NoDup (map fst (w_names w)) /\ w_names w' = w_names w /\ (forall c, w_at w' c = Stub) /\
  write_quantizer_state w "m" true = Ok f /\
  forall cast rebuild pol base,
    load_quantizer_state cast rebuild pol true (Some "m"%string) f base w' = (w', Err ValueError).
Proof.
  exists (mkW [("q"%string, (0, "q"%string))] (fun _ => Concrete 5) (fun _ => mkQ 0 [])).
  exists (mkW [("q"%string, (0, "q"%string))] (fun _ => Stub) (fun _ => mkQ 0 [])).
  eexists. split; [repeat constructor; auto|]. split; [reflexivity|]. split; [reflexivity|]. split; [reflexivity|].
  reflexivity.
Qed.
Print Assumptions C33_no_parameters_refuted.

(** A module registered under two names: its quantizer is saved under both, and loading into a
    fresh model with the default policy attaches it under the first name and then fails, because
    the second name is the same, now concrete, quantizer. *)
Theorem C33_shared_module_refuted : exists (w w' : world nat) f rebuild,
  NoDup (map fst (w_names w)) /\ w_names w' = w_names w /\ (forall c, w_at w' c = Stub) /\
  (forall n q, quantizer_at w n q -> plain n /\ describable (w_store w q) /\ rebuilds rebuild (w_store w q) /\ lazy_free (w_store w q)) /\
  write_quantizer_state w "m" false = Ok f /\
  snd (load_quantizer_state no_cast rebuild PError false (Some "m"%string) f 10 w') = Err QuantizationError.
Proof.
  set (names := [("a.q"%string, (1, "q"%string)); ("b.q"%string, (1, "q"%string))]).
  exists (mkW names (fun _ => Concrete 5) (fun _ => mkQ 8 [("scale"%string, Init (ex_scale 0 1))])).
  exists (mkW names (fun _ => Stub) (fun _ => mkQ 0 [])).
  eexists. exists (fun _ => [("scale"%string, Uninit 0)]).
  split; [repeat constructor; cbn; intuition discriminate|]. split; [reflexivity|]. split; [reflexivity|]. split.
  { intros n q (c & I & E). injection E as <-. split.
    - cbn in I. destruct I as [[= <- <-]|[[= <- <-]|[]]]; apply plainb_ok; reflexivity.
    - split; [ex_describable|]. split; [repeat constructor|]. intros p s [[= <- <-]|[]]. eauto. }
  split; [reflexivity|]. reflexivity.
Qed.
Print Assumptions C33_shared_module_refuted.

(** A module name with a comma (an entry of a ModuleDict) breaks the metadata. *)
Theorem C33_comma_refuted : exists (w w' : world nat) f rebuild,
  NoDup (map fst (w_names w)) /\ w_names w' = w_names w /\ (forall c, w_at w' c = Stub) /\
  (forall n q, quantizer_at w n q -> describable (w_store w q) /\ rebuilds rebuild (w_store w q) /\ lazy_free (w_store w q)) /\
  write_quantizer_state w "m" false = Ok f /\
  load_quantizer_state no_cast rebuild PError false (Some "m"%string) f 10 w' = (w', Err ValueError).
Proof.
  set (names := [("heads.a,b.q"%string, (1, "q"%string))]).
  exists (mkW names (fun _ => Concrete 5) (fun _ => mkQ 8 [("scale"%string, Init (ex_scale 0 1))])).
  exists (mkW names (fun _ => Stub) (fun _ => mkQ 0 [])).
  eexists. exists (fun _ => [("scale"%string, Uninit 0)]).
  split; [repeat constructor; cbn; intuition discriminate|]. split; [reflexivity|]. split; [reflexivity|]. split.
  { intros n q (c & I & E). injection E as <-.
    split; [ex_describable|]. split; [repeat constructor|]. intros p s [[= <- <-]|[]]. eauto. }
  split; [reflexivity|]. reflexivity.
Qed.
Print Assumptions C33_comma_refuted.

(** If the dtype of the parameters was changed after the quantizer was made ([model.double()]), the
    rebuilt quantizer has the old dtype, and loading rounds the parameters to it. *)
Theorem C33_dtype_refuted : exists (w w' : world nat) f rebuild,
  NoDup (map fst (w_names w)) /\ w_names w' = w_names w /\ (forall c, w_at w' c = Stub) /\
  write_quantizer_state w "m" false = Ok f /\
  forall cast, keeps cast -> exists w'',
    load_quantizer_state cast rebuild PError false (Some "m"%string) f 10 w' = (w'', Ok tt) /\
    q_params (w_store w 5) = [("scale"%string, Init (mkTen 64 [1] [1 # 3]))] /\
    q_params (w_store w'' 10) = [("scale"%string, Init (mkTen 32 [1] (cast 64 32 [1 # 3])))].
Proof.
  set (names := [("q"%string, (1, "q"%string))]).
  exists (mkW names (fun _ => Concrete 5) (fun _ => mkQ 8 [("scale"%string, Init (mkTen 64 [1] [1 # 3]))])).
  exists (mkW names (fun _ => Stub) (fun _ => mkQ 0 [])).
  eexists. exists (fun _ => [("scale"%string, Init (mkTen 32 [1] [1%Q]))]).
  split; [repeat constructor; cbn; intuition discriminate|]. split; [reflexivity|]. split; [reflexivity|].
  split; [reflexivity|]. intros cast _. eexists. split; [reflexivity|]. split; reflexivity.
Qed.
Print Assumptions C33_dtype_refuted.

(** * C34 *)

(** Let a saved state be loadable with "overwrite".  Then that load puts one of the loaded
    quantizers at every saved name, whatever was there, and leaves the rest alone; with "skip" the
    load also succeeds, keeps the quantizers that are there, and fills the stubs. *)
Theorem C34_overwrite_and_skip : forall C cast (rebuild : C -> list (string * slot)) allow expected f base (w w1 : world C),
  load_quantizer_state cast rebuild POverwrite allow expected f base w = (w1, Ok tt) ->
  NoDup (map fst (w_names w)) ->
  forall pol, pol = POverwrite \/ pol = PSkip ->
  exists w2, load_quantizer_state cast rebuild pol allow expected f base w = (w2, Ok tt) /\
    w_names w2 = w_names w /\ w_store w2 = w_store w1 /\
    (forall n i c, In (n, i) (f_config f) -> In (n, c) (w_names w) ->
      (pol = PSkip /\ exists q, w_at w c = Concrete q /\ w_at w2 c = Concrete q) \/
      exists m j, In (m, j) (f_config f) /\ In (m, c) (w_names w) /\ w_at w2 c = Concrete (base + j)) /\
    (forall c, (forall n i, In (n, i) (f_config f) -> ~ In (n, c) (w_names w)) -> w_at w2 c = w_at w c).
Proof. intros C cast rebuild allow expected f base w w1 H N. exact (policy_some cast rebuild allow expected f base w w1 H N). Qed.
Print Assumptions C34_overwrite_and_skip.

(** Where no module has two names: the quantizer attached at a name is the one saved for it. *)
Theorem C34_overwrite : forall C cast (rebuild : C -> list (string * slot)) allow expected f base (w w1 : world C),
  load_quantizer_state cast rebuild POverwrite allow expected f base w = (w1, Ok tt) ->
  NoDup (map fst (w_names w)) -> NoDup (map fst (f_config f)) ->
  (forall n m c, In (n, c) (w_names w) -> In (m, c) (w_names w) -> n = m) ->
  (forall n i c, In (n, i) (f_config f) -> In (n, c) (w_names w) -> w_at w1 c = Concrete (base + i)) /\
  (forall c, (forall n i, In (n, i) (f_config f) -> ~ In (n, c) (w_names w)) -> w_at w1 c = w_at w c).
Proof. exact @policy_overwrite. Qed.
Print Assumptions C34_overwrite.

Theorem C34_skip : forall C cast (rebuild : C -> list (string * slot)) allow expected f base (w w1 : world C),
  load_quantizer_state cast rebuild POverwrite allow expected f base w = (w1, Ok tt) ->
  NoDup (map fst (w_names w)) -> NoDup (map fst (f_config f)) ->
  (forall n m c, In (n, c) (w_names w) -> In (m, c) (w_names w) -> n = m) ->
  exists w2, load_quantizer_state cast rebuild PSkip allow expected f base w = (w2, Ok tt) /\
    w_names w2 = w_names w /\ w_store w2 = w_store w1 /\
    (forall n i c, In (n, i) (f_config f) -> In (n, c) (w_names w) ->
       w_at w2 c = match w_at w c with Concrete q => Concrete q | _ => Concrete (base + i) end) /\
    (forall c, (forall n i, In (n, i) (f_config f) -> ~ In (n, c) (w_names w)) -> w_at w2 c = w_at w c).
Proof. exact @policy_skip. Qed.
Print Assumptions C34_skip.

(** With "error" a concrete quantizer at any saved name raises QuantizationError. *)
Theorem C34_error : forall C cast (rebuild : C -> list (string * slot)) allow expected f base (w w1 : world C),
  load_quantizer_state cast rebuild POverwrite allow expected f base w = (w1, Ok tt) ->
  NoDup (map fst (w_names w)) ->
  (exists n i c q, In (n, i) (f_config f) /\ In (n, c) (w_names w) /\ w_at w c = Concrete q) ->
  snd (load_quantizer_state cast rebuild PError allow expected f base w) = Err QuantizationError.
Proof. exact @policy_error_raises. Qed.
Print Assumptions C34_error.

(** With "error" and stubs at all saved names the load does what "overwrite" does. *)
Theorem C34_error_on_stubs : forall C cast (rebuild : C -> list (string * slot)) allow expected f base (w w1 : world C),
  load_quantizer_state cast rebuild POverwrite allow expected f base w = (w1, Ok tt) ->
  NoDup (map fst (w_names w)) -> NoDup (map fst (f_config f)) ->
  (forall n m c, In (n, c) (w_names w) -> In (m, c) (w_names w) -> n = m) ->
  (forall n i c, In (n, i) (f_config f) -> In (n, c) (w_names w) -> w_at w c = Stub) ->
  exists w2, load_quantizer_state cast rebuild PError allow expected f base w = (w2, Ok tt) /\
    w_names w2 = w_names w /\ w_store w2 = w_store w1 /\ forall c, w_at w2 c = w_at w1 c.
Proof. exact @policy_error. Qed.
Print Assumptions C34_error_on_stubs.

(** Whatever happens, only "overwrite" replaces a quantizer the model already has. *)
Theorem C34_kept : forall C cast (rebuild : C -> list (string * slot)) pol allow expected f base (w : world C),
  pol <> POverwrite -> forall c q, w_at w c = Concrete q ->
  w_at (fst (load_quantizer_state cast rebuild pol allow expected f base w)) c = Concrete q.
Proof. exact @policy_keeps. Qed.
Print Assumptions C34_kept.

(** Under every policy a load succeeds only if every saved name is a quantizer or stub of the model. *)
Theorem C34_names : forall C cast (rebuild : C -> list (string * slot)) pol allow expected f base (w w2 : world C),
  load_quantizer_state cast rebuild pol allow expected f base w = (w2, Ok tt) -> NoDup (map fst (w_names w)) ->
  forall n i, In (n, i) (f_config f) -> exists c, In (n, c) (w_names w) /\ w_at w c <> NotQuantizer.
Proof. exact @load_names. Qed.
Print Assumptions C34_names.

Definition ex_half : world nat :=
  mkW ex_names (fun c => if String.eqb (snd c) "weight_quantizer" then Concrete 3 else Stub) (fun _ => mkQ 0 []).
Example C34_nonvacuous :
  match write_quantizer_state ex_world "m" true with
  | Ok f => snd (load_quantizer_state no_cast ex_rebuild POverwrite true None f 10 ex_half) = Ok tt /\
            NoDup (map fst (f_config f)) /\ In ("a.weight_quantizer"%string, 1) (f_config f) /\
            w_at ex_half (1, "weight_quantizer"%string) = Concrete 3
  | Err _ => False
  end.
Proof. split; [reflexivity|]. split; [repeat constructor; cbn; intuition discriminate|]. split; [cbn; auto|reflexivity]. Qed.

(** A failing load under "error" is not undone: the stubs met before the concrete quantizer are
    already replaced. *)
Theorem C34_atomic_refuted : exists (w w' : world nat) f rebuild c,
  write_quantizer_state w "m" true = Ok f /\ w_at w' c = Stub /\
  snd (load_quantizer_state no_cast rebuild PError true None f 10 w') = Err QuantizationError /\
  w_at (fst (load_quantizer_state no_cast rebuild PError true None f 10 w')) c = Concrete 10.
Proof.
  exists ex_world, ex_half. eexists. exists ex_rebuild, (1, "input_quantizer"%string).
  split; [reflexivity|]. split; [reflexivity|]. split; reflexivity.
Qed.
Print Assumptions C34_atomic_refuted.

(** * C81 *)

(** After any sequence of saves, loading a name and tag finds what was saved last under exactly
    that name and tag (or what the cache held before).  For names and tags in which, of the replaced
    characters, only "/" occurs, and hyphens and slashes are never adjacent. *)
Theorem C81_cache_partial : forall F (h : list (string * string * F)) n t (c : cache F),
  (forall n' t' f, In (n', t', f) h -> tame n' /\ tame t' /\ proper_tag t') -> tame n -> tame t -> proper_tag t ->
  cache_load (fold_left (fun c '(n', t', f) => cache_save c n' t' f) h c) n t =
  match last_saved n t h with Some f => Ok f | None => cache_load c n t end.
Proof. exact @cache_history. Qed.
Print Assumptions C81_cache_partial.

Example C81_nonvacuous : tame "meta/llama-7b" /\ tame "main" /\ proper_tag "main" /\
  last_saved "meta/llama-7b" "main" [("meta/llama-7b", "main", 1); ("meta/llama-13b", "main", 2)]%string = Some 1.
Proof.
  assert (T : forall s, forallb (fun c => implb (unsafe_char c) (Ascii.eqb c "/")) (chars s) = true -> spaced s -> tame s).
  { intros s H S0. split; [|exact S0]. intros c I U. rewrite forallb_forall in H. specialize (H c I). rewrite U in H.
    now apply Ascii.eqb_eq. }
  split; [apply T; [reflexivity|]; cbn; repeat split; unfold bar; intuition discriminate|].
  split; [apply T; [reflexivity|]; cbn; repeat split; unfold bar; intuition discriminate|].
  split; [repeat split; discriminate|reflexivity].
Qed.

(** Different tags can share a directory: the state saved under one tag is then silently loaded for
    the other. *)
Theorem C81_tags_refuted : exists t t' : string, t <> t' /\ proper_tag t /\ proper_tag t' /\
  forall F (c : cache F) n f g, cache_load (cache_save (cache_save c n t f) n t' g) n t = Ok g.
Proof.
  exists "w8/a8"%string, "w8--a8"%string. split; [discriminate|].
  split; [repeat split; discriminate|]. split; [repeat split; discriminate|].
  intros F c n f g. unfold cache_load, cache_save.
  change (state_dir n "w8--a8") with (state_dir n "w8/a8").
  now rewrite (proj2 (dir_eqb_spec _ _) eq_refl).
Qed.
Print Assumptions C81_tags_refuted.

(** Likewise for model names; there loading notices, because the name is in the file. *)
Theorem C81_names_refuted : exists n n' : string, n <> n' /\
  forall F (c : cache F) t f g, cache_load (cache_save (cache_save c n t f) n' t g) n t = Ok g.
Proof.
  exists "org/model"%string, "org--model"%string. split; [discriminate|].
  intros F c t f g. unfold cache_load, cache_save.
  assert (E : state_dir "org--model" t = state_dir "org/model" t).
  { assert (S : sanitize ("quantization-state/" ++ "org--model") = sanitize ("quantization-state/" ++ "org/model"))
      by (vm_compute; reflexivity).
    unfold state_dir. rewrite S. reflexivity. }
  rewrite E.
  now rewrite (proj2 (dir_eqb_spec _ _) eq_refl).
Qed.
Print Assumptions C81_names_refuted.

(** The tag ".." leads to the cache directory itself, for every model. *)
Theorem C81_parent_refuted : forall F (c : cache F) n n' f, cache_load (cache_save c n ".." f) n' ".." = Ok f.
Proof. reflexivity. Qed.
Print Assumptions C81_parent_refuted.

(** * C82 *)

(** Saving the weights of a model artifact always succeeds.  Loading raises RuntimeError unless the
    target has exactly the saved weight names; if it has, every weight of the target is given
    what the file has for the tensor saved for it (the one over the same memory with the least
    name), and no other storage changes.  For targets that tie no more weights than the source. *)
Theorem C82_artifact_weights_partial : forall V (sd : list (string * tref)) (keys qs qs' : list string) (place : string -> nat)
    (read : string -> tref -> V) (storage : nat -> V),
  NoDup (map fst sd) ->
  exists u a, save_weights qs sd = Ok (u, a) /\
    let saved := filter (not_quantizer qs) (map fst sd) in
    let wanted := filter (not_quantizer qs') keys in
    let loaded := load_weights keys qs' place (map (fun e => (fst e, read (fst e) (snd e))) u) a storage in
    (~ (forall k, In k saved <-> In k wanted) -> loaded = Err RuntimeError) /\
    ((forall k, In k saved <-> In k wanted) ->
     exists rep ws, (forall n t, In (n, t) (weight_entries qs sd) ->
         exists t', In (rep n, t') u /\ In (rep n, t') sd /\ same_memory t t') /\
       loaded = Ok ws /\
       ((forall k1 t1 k2 t2, In (k1, t1) sd -> In (k2, t2) sd -> In k1 wanted -> In k2 wanted ->
           place k1 = place k2 -> same_memory t1 t2) ->
        (forall k t', In k wanted -> In (rep k, t') u -> ws (place k) = read (rep k) t') /\
        (forall i, (forall k, In k wanted -> place k <> i) -> ws i = storage i))).
Proof. exact @weights_round_trip. Qed.
Print Assumptions C82_artifact_weights_partial.

(** Parameters of quantizers, and only those, are left to the quantizer state. *)
Theorem C82_weights_only : forall qs n, not_quantizer qs n = false <->
  exists q r, In q qs /\ n = (q ++ "." ++ r)%string.
Proof.
  intros qs n. unfold not_quantizer. rewrite negb_false_iff, existsb_exists.
  assert (P : forall p s, String.prefix p s = true <-> exists r, s = (p ++ r)%string).
  { induction p as [|a p IH]; intros s.
    - split; [intros _; exists s; reflexivity|intros _; now destruct s].
    - destruct s as [|b s]; cbn; [split; [discriminate|intros (r & E); discriminate]|].
      destruct (ascii_dec a b) as [->|Hn].
      + rewrite IH. split; intros (r & E); exists r; [now rewrite E|now injection E].
      + split; [discriminate|]. intros (r & E). congruence. }
  split.
  - intros (q & I & E). apply P in E as (r & ->). exists q, r. split; [exact I|]. now rewrite GgufNameProofs.sapp_assoc.
  - intros (q & r & I & ->). exists q. split; [exact I|]. apply P. exists r. now rewrite GgufNameProofs.sapp_assoc.
Qed.
Print Assumptions C82_weights_only.

Example C82_nonvacuous :
  let sd := tied ++ [("q.scale"%string, mkRef 900 [1] [1] 0 0)] in
  NoDup (map fst sd) /\
  match save_weights ["q"%string] sd with
  | Ok (u, a) => match load_weights (map fst sd) ["q"%string] String.length (map (fun e => (fst e, r_ptr (snd e))) u) a (fun _ => 0) with
                 | Ok ws => ws 14 = 64 /\ ws 12 = 64 /\ ws 11 = 512 /\ ws 7 = 0
                 | Err _ => False
                 end
  | Err _ => False
  end.
Proof. split; [repeat constructor; cbn; intuition discriminate|]. vm_compute. repeat split. Qed.

(** A source without and a target with tied weights: the artifact loads, and one of the two saved
    weights is lost. *)
Theorem C82_tied_target_refuted : exists (sd : list (string * tref)) u a ws,
  NoDup (map fst sd) /\ save_weights [] sd = Ok (u, a) /\
  load_weights (map fst sd) [] (fun _ => 0) (map (fun e => (fst e, r_ptr (snd e))) u) a (fun _ => 7) = Ok ws /\
  exists n t, In (n, t) sd /\ ws 0 <> r_ptr t.
Proof.
  exists [("embed.weight"%string, mkRef 1 [4] [1] 0 0); ("lm_head.weight"%string, mkRef 2 [4] [1] 0 0)].
  eexists _, _, _. split; [repeat constructor; cbn; intuition discriminate|]. split; [reflexivity|]. split; [reflexivity|].
  exists "embed.weight"%string, (mkRef 1 [4] [1] 0 0). split; [now left|]. discriminate.
Qed.
Print Assumptions C82_tied_target_refuted.
