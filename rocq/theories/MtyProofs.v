(** Proofs about contexts of functions. *)
From Coq Require Import List Arith Bool Lia.
From Verif Require Import Prelude MtyModel MtySpec.
Import ListNotations.

Lemma get_lacks : forall c name, get name c = None <-> lacks c name.
Proof.
  induction c as [|[n e] c IH]; intro name; cbn.
  - split; [intros _ x []|reflexivity].
  - destruct (Nat.eqb_spec name n) as [->|N].
    + split; [discriminate|]. intro H. exfalso. apply (H e). now left.
    + rewrite IH. split; intros H x; [intros [E|Hx]; [congruence|now apply (H x)]|]. intro Hx. apply (H x). now right.
Qed.
Lemma get_stores : forall c name e, stores c name e -> get name c = Some e.
Proof.
  intros c name e (b & a & -> & N). induction b as [|[n x] b IH]; cbn.
  - now rewrite Nat.eqb_refl.
  - destruct (Nat.eqb_spec name n) as [->|D]; [exfalso; apply (N x); now left|]. apply IH. intros y H. apply (N y). now right.
Qed.

(** The kind of the first class that stores a method. *)
Lemma kind_skip : forall c r name, lacks c name -> inherited (c :: r) name = inherited r name.
Proof. intros c r name H. apply get_lacks in H. cbn. unfold method_type. now rewrite H. Qed.
Lemma kind_here : forall c r name e, stores c name e -> passes e <> None ->
  says (inherited (c :: r) name) = passes e /\ inherited (c :: r) name <> NO_METHOD.
Proof.
  intros c r name e H P. apply get_stores in H. cbn. unfold method_type. rewrite H. destruct e; cbn in *; split; congruence.
Qed.
Lemma kind_found : forall classes name e, attribute classes name e -> passes e <> None ->
  says (inherited classes name) = passes e.
Proof.
  intros classes name e (b & c & a & -> & F & S) P. induction F as [|x b Hx F IH]; cbn [app].
  - now apply kind_here.
  - rewrite kind_skip by exact Hx. exact IH.
Qed.
Lemma get_in : forall c name e, get name c = Some e -> In (name, e) c.
Proof.
  induction c as [|[n x] c IH]; cbn; intros name e H; [discriminate|]. destruct (Nat.eqb_spec name n) as [->|]; [|auto].
  injection H as <-. now left.
Qed.
Lemma kind_none : forall classes name, Forall (fun c => forall e, In (name, e) c -> e = Value) classes -> inherited classes name = NO_METHOD.
Proof.
  induction 1 as [|c r H F IH]; [reflexivity|]. cbn. unfold method_type. destruct (get name c) as [e|] eqn:E; [|exact IH].
  apply get_in, H in E. subst e. exact IH.
Qed.

Lemma torch_kind : forall c parents f m,
  ctx_kind (from_torch_module c parents f m)
  = Some (inherited (c :: parents) (match m with Some (S n) => S n | _ => func_name f end)).
Proof. intros. reflexivity. Qed.
Lemma torch_vars : forall c parents f m k, ctx_kind (from_torch_module c parents f m) = Some k ->
  instance_var (from_torch_module c parents f m) = (match k with METHOD => option_map parameter_name (hd_error (parameters f)) | _ => None end)
  /\ class_var (from_torch_module c parents f m) = (match k with CLASS_METHOD => option_map parameter_name (hd_error (parameters f)) | _ => None end).
Proof. intros c parents f m k H. cbn in H. injection H as <-. split; reflexivity. Qed.
