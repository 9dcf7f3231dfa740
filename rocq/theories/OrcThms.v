(** C151 and C152: the registry of pipelines and export requests. *)
From Coq Require Import Ascii String List Arith Bool Lia.
From Verif Require Import Prelude OrcModel OrcSpec OrcProofs.
Import ListNotations.

Definition txt (s : string) : list ascii := list_ascii_of_string s.

(** ** C151 *)

(** After any history of registrations a lookup finds the factory of the last registration that counts
    for the names, up to case and white space around them, and raises KeyError if there is none. *)
Theorem C151_lookup_finds_the_last : forall (factory : Type) (l : list (registration factory)) t f,
  match get (history l) t f with
  | Ok x => counts l t f x
  | Err e => e = KeyError /\ forall o, In o l -> ~ same_entry o t f
  end.
Proof.
  intros factory l t f. unfold get. destruct (find_key (key t f) (history l)) as [x|] eqn:F.
  - now apply history_counts.
  - split; [reflexivity|]. now apply history_none.
Qed.
Print Assumptions C151_lookup_finds_the_last.

(** At most one factory counts. *)
Theorem C151_one_counts : forall (factory : Type) (l : list (registration factory)) t f x,
  counts l t f x -> get (history l) t f = Ok x.
Proof. intros factory l t f x H. apply history_counts in H. unfold get. now rewrite H. Qed.
Print Assumptions C151_one_counts.

(** [has] tells whether there is a registration for the names. *)
Theorem C151_has : forall (factory : Type) (l : list (registration factory)) t f,
  has (history l) t f = true <-> exists o, In o l /\ same_entry o t f.
Proof.
  intros factory l t f. unfold has. destruct (find_key (key t f) (history l)) as [x|] eqn:F.
  - split; [intros _|reflexivity]. apply history_counts in F as (b & o & a & -> & S & _). exists o. split; auto.
    apply in_or_app. right. now left.
  - split; [discriminate|]. intros (o & I & S). exfalso. exact (proj1 (history_none _ _ _ _) F o I S).
Qed.
Print Assumptions C151_has.

(** Registering raises ValueError exactly if the names are taken and no replacement is asked for. *)
Theorem C151_register_raises : forall (factory : Type) (l : list (registration factory)) t f x b,
  (register (history l) t f x b = Err ValueError /\ b = false /\ exists o, In o l /\ same_entry o t f)
  \/ (register (history l) t f x b = Ok (history (l ++ [mkReg t f x b])) /\ (b = true \/ forall o, In o l -> ~ same_entry o t f)).
Proof. exact register_raises. Qed.
Print Assumptions C151_register_raises.

Definition registrations : list (registration nat) :=
  [mkReg (txt "qnn") (txt "onnx") 1 false; mkReg (txt " QNN") (txt "ONNX ") 2 false;
   mkReg (txt "gguf") (txt "llama_cpp") 3 false; mkReg (txt "Gguf") (txt "llama_CPP") 4 true].
Example C151_nonvacuous :
  get (history registrations) (txt "Qnn ") (txt " onnx") = Ok 1
  /\ get (history registrations) (txt "gguf") (txt "llama_cpp") = Ok 4
  /\ get (history registrations) (txt "qnn") (txt "on nx") = Err KeyError
  /\ register (history registrations) (txt "QNN") (txt "onnx") 5 false = Err ValueError
  /\ same_name (txt " QNN") (txt "qnn  ").
Proof. repeat split; try reflexivity. apply same_name_eq. reflexivity. Qed.

(** ** C152 *)

(** An export that can make the output directory runs the pipeline of the request, or the one found in
    the registry, once, in the file system with that directory. Its context holds the options, and
    output directory and model name of the request if they are not among the options. *)
Theorem C152_export_runs_the_pipeline_partial : forall (world artifacts : Type) (mkdir : list ascii -> world -> result world)
  (l : list (registration (pipeline world artifacts))) q w w' p,
  NoDup (map fst (options q)) -> mkdir (output_dir q) w = Ok w' ->
  (own q = Some p \/ own q = None /\ counts l (req_target q) (req_format q) p) ->
  exists c, export mkdir (history l) q w = p c w'
  /\ (forall k v, entry k (options q) = Some v -> entry k c = Some v)
  /\ (entry output_dir_name (options q) = None -> entry output_dir_name c = Some (Path (output_dir q)))
  /\ (entry model_name_name (options q) = None -> entry model_name_name c = Some (Str (model_name q)))
  /\ (forall k, k <> output_dir_name -> k <> model_name_name -> entry k c = entry k (options q)).
Proof.
  intros world artifacts mkdir l q w w' p N M P. exists (build_context q).
  assert (C : forall k, entry k (build_context q) = match entry k (options q) with Some v => Some v | None => entry k [(output_dir_key, Path (output_dir q)); (model_name_key, Str (model_name q))] end).
  { intro k. unfold build_context. now apply entry_update. }
  split; [|split; [|split; [|split]]].
  - unfold export. rewrite M. assert (R : resolve (history l) q = Ok p).
    { unfold resolve. destruct P as [->|[-> P]]; [reflexivity|]. now apply C151_one_counts. }
    now rewrite R.
  - intros k v E. now rewrite C, E.
  - intro E. rewrite C, E. reflexivity.
  - intro E. rewrite C, E. reflexivity.
  - intros k A B. rewrite C. destruct (entry k (options q)); auto. rewrite !entry_cons.
    change output_dir_key with output_dir_name. change model_name_key with model_name_name.
    destruct (list_eq_dec ascii_dec output_dir_name k); [congruence|]. destruct (list_eq_dec ascii_dec model_name_name k); [congruence|]. reflexivity.
Qed.
Print Assumptions C152_export_runs_the_pipeline_partial.

(** Without a pipeline for the names nothing is run and KeyError is raised; if the output directory
    cannot be made, that exception is raised and nothing is changed. *)
Theorem C152_export_fails : forall (world artifacts : Type) (mkdir : list ascii -> world -> result world)
  (l : list (registration (pipeline world artifacts))) q w,
  match mkdir (output_dir q) w with
  | Err e => export mkdir (history l) q w = (Err e, w)
  | Ok w' => own q = None -> (forall o, In o l -> ~ same_entry o (req_target q) (req_format q)) ->
             export mkdir (history l) q w = (Err KeyError, w')
  end.
Proof.
  intros world artifacts mkdir l q w. unfold export. destruct (mkdir (output_dir q) w) as [w'|e]; [|reflexivity].
  intros O N. unfold resolve, get. rewrite O. apply history_none in N. now rewrite N.
Qed.
Print Assumptions C152_export_fails.

(** File systems are lists of names; a pipeline writes where its context says. *)
Definition files := list (list ascii).
Definition make_dir (d : list ascii) (w : files) : result files := Ok (w ++ [d]).
Definition write : pipeline files nat := fun c w =>
  match entry output_dir_name c with Some (Path d) => (Ok (length c), w ++ [d ++ txt "/model.onnx"]) | _ => (Err KeyError, w) end.
Definition registered : list (registration (pipeline files nat)) := [mkReg (txt "qnn") (txt "onnx") write false].
Definition plain_request : request files nat :=
  mkRequest (txt "out") (txt "net") (txt "QNN") (txt "onnx") None [(txt "verbose", Any 1)].
Example C152_nonvacuous :
  NoDup (map fst (options plain_request)) /\ counts registered (txt "QNN") (txt "onnx") write
  /\ export make_dir (history registered) plain_request [] = (Ok 3, [txt "out"; txt "out/model.onnx"]).
Proof.
  split; [repeat constructor; intros []|]. split; [|reflexivity]. apply history_counts. reflexivity.
Qed.

(** Options may say otherwise: the directory of the request is made, and the model is written elsewhere. *)
Theorem C152_options_win_refuted : exists q, output_dir q = txt "out"
  /\ export make_dir (history registered) q [] = (Ok 2, [txt "out"; txt "old/model.onnx"]).
Proof. exists (mkRequest (txt "out") (txt "net") (txt "qnn") (txt "onnx") None [(txt "output_dir", Path (txt "old"))]). split; reflexivity. Qed.
Print Assumptions C152_options_win_refuted.

(** A request for an unknown target is refused after its directory was made. *)
Theorem C152_refused_with_directory_refuted : exists q, export make_dir (history registered) q [] = (Err KeyError, [txt "out"]).
Proof. exists (mkRequest (txt "out") (txt "net") (txt "tpu") (txt "onnx") None []). reflexivity. Qed.
Print Assumptions C152_refused_with_directory_refuted.
