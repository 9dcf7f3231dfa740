(** The registry of export pipelines and the run of an export request.

    Modelled code: src/fastforward/export/pipeline/registry.py:14-63 PipelineRegistry and
    src/fastforward/export/pipeline/orchestrator.py:21-40 ExportRequest, 126-193 ExportOrchestrator. Names
    are lists of ASCII characters; pipelines are arbitrary functions of context and file system. *)
From Coq Require Import Ascii List Arith Bool.
From Verif Require Import Prelude.
Import ListNotations.

Definition text := list ascii.
Fixpoint text_eqb (a b : text) : bool :=
  match a, b with
  | [], [] => true
  | c :: a', d :: b' => Ascii.eqb c d && text_eqb a' b'
  | _, _ => false
  end.

(** str.strip: tab to carriage return, the separators 28 to 31 and space. *)
Definition is_space (c : ascii) : bool :=
  let n := nat_of_ascii c in ((9 <=? n) && (n <=? 13)) || ((28 <=? n) && (n <=? 32)).
Fixpoint drop_spaces (s : text) : text :=
  match s with
  | [] => []
  | c :: s' => if is_space c then drop_spaces s' else s
  end.
Definition strip (s : text) : text := rev (drop_spaces (rev (drop_spaces s))).
(** str.lower *)
Definition lower_char (c : ascii) : ascii :=
  let n := nat_of_ascii c in if (65 <=? n) && (n <=? 90) then ascii_of_nat (n + 32) else c.
Definition lower (s : text) : text := map lower_char s.

(** registry.py:61-63 _key *)
Definition key (target format : text) : text * text := (lower (strip target), lower (strip format)).
Definition key_eqb (a b : text * text) : bool := text_eqb (fst a) (fst b) && text_eqb (snd a) (snd b).

Section Registry.
  Variable factory : Type.
  Definition registry := list ((text * text) * factory).
  Fixpoint find_key (k : text * text) (r : registry) : option factory :=
    match r with
    | [] => None
    | (k', f) :: r' => if key_eqb k k' then Some f else find_key k r'
    end.
  Fixpoint set_key (k : text * text) (f : factory) (r : registry) : registry :=
    match r with
    | [] => [(k, f)]
    | (k', g) :: r' => if key_eqb k k' then (k', f) :: r' else (k', g) :: set_key k f r'
    end.

  (** registry.py:20-44 register *)
  Definition register (r : registry) (target format : text) (f : factory) (replace : bool) : result registry :=
    let k := key target format in
    if negb replace && match find_key k r with Some _ => true | None => false end then Err ValueError
    else Ok (set_key k f r).
  (** registry.py:46-53 get *)
  Definition get (r : registry) (target format : text) : result factory :=
    match find_key (key target format) r with Some f => Ok f | None => Err KeyError end.
  (** registry.py:55-57 has *)
  Definition has (r : registry) (target format : text) : bool :=
    match find_key (key target format) r with Some _ => true | None => false end.

  (** A history of calls of register; a call that raises leaves the registry as it is. *)
  Record registration := mkReg { target : text; format : text; made : factory; replace : bool }.
  Definition after_register (r : registry) (o : registration) : registry :=
    match register r (target o) (format o) (made o) (replace o) with Ok r' => r' | Err _ => r end.
  Definition history (l : list registration) : registry := fold_left after_register l [].
End Registry.
Arguments find_key {factory}. Arguments set_key {factory}. Arguments register {factory}. Arguments get {factory}.
Arguments has {factory}. Arguments mkReg {factory}. Arguments target {factory}. Arguments format {factory}.
Arguments made {factory}. Arguments replace {factory}. Arguments after_register {factory}. Arguments history {factory}.

Section Export.
  Variables world artifacts : Type.
  (** Path.mkdir(exist_ok=True, parents=True) *)
  Variable mkdir : text -> world -> result world.

  (** Values of a context: paths, strings and anything else. *)
  Inductive value := Path (p : text) | Str (s : text) | Any (n : nat).
  Definition context := list (text * value).
  Definition pipeline := context -> world -> result artifacts * world.
  Record request := mkRequest {
    output_dir : text;
    model_name : text;
    req_target : text;
    req_format : text;
    own : option pipeline;
    options : context
  }.

  (** dict.update *)
  Fixpoint set_option (k : text) (v : value) (c : context) : context :=
    match c with
    | [] => [(k, v)]
    | (k', u) :: r => if text_eqb k k' then (k', v) :: r else (k', u) :: set_option k v r
    end.
  Definition update (c : context) (l : context) : context := fold_left (fun c p => set_option (fst p) (snd p) c) l c.
  Definition output_dir_key : text := map ascii_of_nat [111; 117; 116; 112; 117; 116; 95; 100; 105; 114].
  Definition model_name_key : text := map ascii_of_nat [109; 111; 100; 101; 108; 95; 110; 97; 109; 101].
  (** orchestrator.py:171-183 _build_pipeline_context *)
  Definition build_context (q : request) : context :=
    update [(output_dir_key, Path (output_dir q)); (model_name_key, Str (model_name q))] (options q).
  (** orchestrator.py:155-159 _resolve_pipeline_factory *)
  Definition resolve (r : registry pipeline) (q : request) : result pipeline :=
    match own q with Some p => Ok p | None => get r (req_target q) (req_format q) end.
  (** orchestrator.py:139-153 export; the factory is called and the pipeline run in one. *)
  Definition export (r : registry pipeline) (q : request) (w : world) : result artifacts * world :=
    match mkdir (output_dir q) w with
    | Err e => (Err e, w)
    | Ok w' =>
        match resolve r q with
        | Err e => (Err e, w')
        | Ok p => p (build_context q) w'
        end
    end.
End Export.
Arguments mkRequest {world artifacts}. Arguments output_dir {world artifacts}. Arguments model_name {world artifacts}.
Arguments req_target {world artifacts}. Arguments req_format {world artifacts}. Arguments own {world artifacts}.
Arguments options {world artifacts}. Arguments build_context {world artifacts}. Arguments resolve {world artifacts}.
Arguments export {world artifacts}.
