(** Theorems about quantization functions made from two functions and about contexts (C129-C131). *)
From Coq Require Import String Lia.
From Verif Require Import Prelude CqfModel CqfSpec CqfProofs.
Local Open Scope nat_scope.
Local Open Scope list_scope.

(** C129. Quantizing with the made function calls quantize with the data and those of the keywords that are
    its parameters, and dequantizing the result calls dequantize with the raw data and those that
    are its own; defaults are the functions' own. A keyword that neither function has and a
    parameter without default that is not given raise TypeError. Shared parameters have the same
    default object and no parameter is called data, quantize_params or dequantize_params. *)
Theorem C129_calls_the_functions_partial : forall peq mutable_ any q d m,
  valid q -> valid d -> create peq mutable_ any q d = Ok m ->
  (forall p p', In p (others q) -> In p' (others d) -> p_name p = p_name p' -> p_default p = p_default p') ->
  (forall x, In x (other_names q) \/ In x (other_names d) -> ~ reserved x) ->
  forall kw,
  (complete q d kw -> exists ps,
     (forall body data, quantize_func m q body data kw =
        (let? raw := call q body data (only (other_names q) kw) in Ok (raw, ps))) /\
     (forall body raw, dequantize_with m d body raw ps = call d body raw (only (other_names d) kw))) /\
  (~ complete q d kw -> forall body data, quantize_func m q body data kw = Err TypeError).
Proof. intros peq mu any q d m Hq Hd Hc Hdef Hr kw. eapply called; eauto. Qed.
Print Assumptions C129_calls_the_functions_partial.

(** C129, what fails: defaults that are equal but not the same (1 and True) are both taken from
    dequantize, so quantize is called with another object than its default; and a parameter
    called data cannot be given. *)
Definition pk (x : string) (def : option nat) : param := mkP x None def PositionalOrKeyword.
Theorem C129_equal_defaults_refuted : exists peq q d m body, valid q /\ valid d /\
  create peq (fun _ => false) 0 q d = Ok m /\
  (exists a b, peq a b = true /\ a <> b) /\
  rmap fst (quantize_func m q body 5 []) <> call q body 5 [].
Proof.
  exists (fun a b => (a =? b) || ((a =? 1) && (b =? 2))), [pk "data" None; pk "n" (Some 1)], [pk "data" None; pk "n" (Some 2)].
  eexists. exists (fun data vs => Ok (hd 0 vs)). split; [|split; [|split; [|split]]].
  - repeat constructor; cbn; intuition discriminate.
  - repeat constructor; cbn; intuition discriminate.
  - vm_compute. reflexivity.
  - exists 1, 2. split; [reflexivity|discriminate].
  - vm_compute. discriminate.
Qed.
Print Assumptions C129_equal_defaults_refuted.
Theorem C129_parameter_called_data_refuted : exists q d m, valid q /\ valid d /\ create Nat.eqb (fun _ => false) 0 q d = Ok m /\
  forall body kw v, quantize_func m q body 5 kw <> Ok v.
Proof.
  exists [pk "x" None; pk "data" None], [pk "x" None]. eexists. split; [|split; [|split]].
  - repeat constructor; cbn; intuition discriminate.
  - repeat constructor; cbn; intuition discriminate.
  - vm_compute. reflexivity.
  - intros body kw v. unfold quantize_func. destruct (has "data" (map fst kw)) eqn:E; [discriminate|]. cbn [m_fields]. unfold construct.
    destruct (forallb _ kw); [|discriminate]. cbn [rmapM f_name fst f_default snd]. unfold bind.
    destruct (get "data" kw) as [w|] eqn:Eg; [|discriminate].
    assert (H : In "data"%string (map fst kw)).
    { destruct (in_dec string_dec "data"%string (map fst kw)) as [H|H]; [exact H|]. apply get_none in H. congruence. }
    apply has_iff in H. congruence.
Qed.
Print Assumptions C129_parameter_called_data_refuted.

Example C129_nonvacuous :
  let q := [pk "x" None; pk "scale" None; pk "n" (Some 8)] in
  let d := [pk "y" None; pk "rescale" (Some 3); pk "n" (Some 8)] in
  let fields := [("scale", (0, None)); ("n", (0, Some 8)); ("rescale", (0, Some 3))]%string in
  valid q /\ valid d /\ create Nat.eqb (fun _ => false) 0 q d = Ok (mkMade fields ["scale"; "n"]%string ["rescale"; "n"]%string) /\
  complete q d [("n", 4); ("scale", 2)]%string /\ ~ complete q d [("n", 4)]%string /\ ~ complete q d [("scale", 2); ("y", 1)]%string /\
  quantize_func (mkMade fields ["scale"; "n"]%string ["rescale"; "n"]%string) q (fun x vs => Ok (fold_left Nat.add vs x)) 10 [("n", 4); ("scale", 2)]%string =
    Ok (16, [("scale", 2); ("n", 4); ("rescale", 3)]%string).
Proof.
  cbn zeta. split; [|split; [|split; [reflexivity|split; [|split; [|split; [|reflexivity]]]]]].
  - repeat constructor; cbn; intuition discriminate.
  - repeat constructor; cbn; intuition discriminate.
  - split; cbn; [intuition auto|]. intros p H N. repeat (destruct H as [<-|H]; [cbn in *; auto; discriminate|]). destruct H.
  - intros [_ H]. specialize (H (pk "scale" None)). cbn in H. destruct H as [H|[]]; [auto|reflexivity|discriminate].
  - intros [H _]. specialize (H "y"%string). cbn in H. intuition discriminate.
Qed.

(** C130. Exactly which pairs of functions are accepted: both have a data parameter, the others can be given
    by keyword, shared parameters have equal annotations and defaults, no default is mutable, and in the
    order of the parameter class (quantize's parameters, then those only dequantize has) no
    parameter without a default comes after one with a default. *)
Theorem C130_accepted_pairs : forall peq mutable_ any q d, valid q -> valid d ->
  ((exists m, create peq mutable_ any q d = Ok m) <->
   (q <> [] /\ d <> []) /\ (Forall by_keyword (others q) /\ Forall by_keyword (others d)) /\
   (forall p p', In p (others q) -> In p' (others d) -> p_name p = p_name p' ->
      annotation any p = annotation any p' /\ same_default peq p p') /\
   (forall p v, In p (together q d) -> p_default p = Some v -> mutable_ v = false) /\
   required_first (together q d)).
Proof.
  intros peq mu any q d Hq Hd. split.
  - intros [m H]. apply create_iff in H; tauto.
  - intros (H1 & H2 & H3 & H4 & H5). eexists. apply create_iff; [assumption|assumption|]. repeat (split; [eassumption|]). reflexivity.
Qed.
Print Assumptions C130_accepted_pairs.
(** C130, what fails: the documented condition (shared parameters agree) is not enough. Two valid functions
    without any disagreement are refused because of the order of the merged parameters. *)
Theorem C130_documented_condition_refuted : exists q d, valid q /\ valid d /\ required_first (others q) /\ required_first (others d) /\
  (forall p p', In p (others q) -> In p' (others d) -> p_name p = p_name p' -> p = p') /\
  forall m, create Nat.eqb (fun _ => false) 0 q d <> Ok m.
Proof.
  exists [pk "data" None; pk "scale" None; pk "offset" (Some 1)], [pk "data" None; pk "scale" None; pk "zero" None].
  split; [|split; [|split; [|split; [|split]]]].
  - repeat constructor; cbn; intuition discriminate.
  - repeat constructor; cbn; intuition discriminate.
  - apply (ordered_iff 0). reflexivity.
  - apply (ordered_iff 0). reflexivity.
  - intros p p' H H' E. cbn in H, H'. destruct H as [<-|[<-|[]]], H' as [<-|[<-|[]]]; try discriminate; reflexivity.
  - intros m. vm_compute. discriminate.
Qed.
Print Assumptions C130_documented_condition_refuted.
Example C130_nonvacuous :
  let q := [pk "x" None; pk "scale" None; pk "n" (Some 8)] in
  let d := [pk "y" None; pk "rescale" (Some 3); pk "n" (Some 8)] in
  required_first (together q d) /\ together q d = [pk "scale" None; pk "n" (Some 8); pk "rescale" (Some 3)] /\
  create Nat.eqb (fun _ => false) 0 q [mkP "y" None None PositionalOrKeyword; mkP "n" None (Some 8) VarKeyword] = Err TypeError /\
  create Nat.eqb (fun _ => false) 0 q [pk "y" None; pk "n" (Some 9)] = Err ValueError /\
  create Nat.eqb (fun _ => false) 0 q [pk "y" None; mkP "n" (Some 3) (Some 8) KeywordOnly] = Err TypeError /\
  create Nat.eqb (fun v => v =? 8) 0 q d = Err ValueError /\
  create Nat.eqb (fun _ => false) 0 q [] = Err RuntimeError.
Proof. cbn zeta. split; [apply (ordered_iff 0); reflexivity|]. repeat split. Qed.

(** C131. Changing a context gives a new one: parameters named in the changes have the new values, all others
    and the function (unless given) are kept, with the same fields in the same order; a name that is no
    parameter raises TypeError. Cloning, detaching and moving apply torch's function to the tensors
    and keep everything else. contiguous_parameters returns the context itself exactly when every
    tensor parameter is contiguous already, and otherwise the context with each made contiguous. *)
Theorem C131_with_changes : forall c fn changes,
  (forall c', with_changes c fn changes = Ok c' ->
     c_fn c' = match fn with Some f => f | None => c_fn c end /\
     map fst (c_params c') = map fst (c_params c) /\
     forall x, In x (map fst (c_params c)) ->
       get x (c_params c') = match get x changes with Some v => Some v | None => get x (c_params c) end) /\
  ((exists c', with_changes c fn changes = Ok c') <-> forall x, In x (map fst changes) -> In x (map fst (c_params c))) /\
  (forall e, with_changes c fn changes = Err e -> e = TypeError).
Proof.
  intros c fn ch. split; [|split].
  - intros c' H. apply with_changes_ok in H. destruct H as [_ ->]. cbn. split; [reflexivity|]. split; [now rewrite map_map|].
    intros x Hx. rewrite get_changed. destruct (get x (c_params c)) eqn:E; [|apply get_none in E; contradiction]. now destruct (get x ch).
  - split.
    + intros [c' H]. apply with_changes_ok in H. tauto.
    + intros H. eexists. apply with_changes_ok. split; [exact H|reflexivity].
  - unfold with_changes, replace_params. destruct (forallb _ ch); cbn; congruence.
Qed.
Print Assumptions C131_with_changes.
Theorem C131_tensor_parameters : forall is_tensor fn c,
  let c' := tensor_parameters is_tensor fn c in
  c_fn c' = c_fn c /\ map fst (c_params c') = map fst (c_params c) /\
  forall x v, get x (c_params c) = Some v -> get x (c_params c') = Some (if is_tensor v then fn v else v).
Proof.
  intros t fn c c'. unfold c', tensor_parameters, apply_params. cbn. split; [reflexivity|]. split; [now rewrite map_map|].
  intros x v H. now rewrite get_map, H.
Qed.
Print Assumptions C131_tensor_parameters.
Theorem C131_contiguous : forall is_tensor contiguous c,
  (contiguous_parameters is_tensor contiguous c = None <->
     forall x v, get x (c_params c) = Some v -> is_tensor v = true -> contiguous v = v) /\
  (forall c', contiguous_parameters is_tensor contiguous c = Some c' ->
     c_fn c' = c_fn c /\ forall x v, get x (c_params c) = Some v ->
       get x (c_params c') = Some (if is_tensor v then contiguous v else v)).
Proof.
  intros t f c. destruct (contiguous_spec t f c) as [H1 H2]. split; [exact H1|]. intros c' H. rewrite H in H2.
  destruct H2 as [H2|H2]; [discriminate|]. injection H2 as ->. destruct (C131_tensor_parameters t f c) as (K1 & _ & K2). split; assumption.
Qed.
Print Assumptions C131_contiguous.
Example C131_nonvacuous :
  let c := mkC 7 [("scale", 10); ("offset", 11); ("bits", 3)]%string in
  let is_tensor v := 10 <=? v in
  with_changes c None [("bits", 4)]%string = Ok (mkC 7 [("scale", 10); ("offset", 11); ("bits", 4)]%string) /\
  with_changes c (Some 8) [("bit", 4)]%string = Err TypeError /\
  contiguous_parameters is_tensor (fun v => v) c = None /\
  contiguous_parameters is_tensor (fun v => if v =? 11 then 20 else v) c = Some (mkC 7 [("scale", 10); ("offset", 20); ("bits", 3)]%string).
Proof. repeat split. Qed.
