(** Models module export: fastforward/export/module_export.py and fastforward/export/_io_capture.py. *)
From Coq Require Import String.
From Verif Require Import Prelude TilingModel GranularityModel AffineModel EncModel.
From Coq Require Import QArith.
Local Open Scope nat_scope.
Local Open Scope list_scope.

(** ** Trees *)
(** Nested tuples, lists and dictionaries; [Empty] is [None].  Children of tuples and lists have no keys. *)
Inductive container := Tuple | List | Dict.
Inductive tree (A : Type) := Leaf (a : A) | Empty | Node (c : container) (children : list (string * tree A)).
Arguments Leaf {A}. Arguments Empty {A}. Arguments Node {A}.

(** [optree.tree_flatten] and [optree.tree_unflatten]: [None] has no leaves.  The leaves of a dictionary come in the
    order of its keys; here it is that of insertion, since both functions use the same. *)
Fixpoint flatten {A} (t : tree A) : list A :=
  match t with
  | Leaf a => [a]
  | Empty => []
  | Node _ l => (fix go l := match l with [] => [] | (_, t) :: l' => flatten t ++ go l' end) l
  end.
Fixpoint unflatten {A B} (spec : tree A) (leaves : list B) : result (tree B * list B) :=
  match spec with
  | Leaf _ => match leaves with b :: rest => Ok (Leaf b, rest) | [] => Err ValueError end
  | Empty => Ok (Empty, leaves)
  | Node c l =>
      let? r := (fix go l leaves := match l with [] => Ok ([], leaves) | (k, t) :: l' => let? r := unflatten t leaves in let? r' := go l' (snd r) in Ok ((k, fst r) :: fst r', snd r') end) l leaves in
      Ok (Node c (fst r), snd r)
  end.
(** [torch.utils._pytree.tree_leaves]: [None] is a leaf. *)
Fixpoint torch_leaves {A} (t : tree A) : list (option A) :=
  match t with
  | Leaf a => [Some a]
  | Empty => [None]
  | Node _ l => (fix go l := match l with [] => [] | (_, t) :: l' => torch_leaves t ++ go l' end) l
  end.

(** ** Tensors *)
(** Quantized tensors; [qt_affine]: the arguments are [StaticAffineQuantParams]. *)
Record qtensor := mkQT { qt_codes : tensor Z; qt_scale : list Q; qt_offset : option (list Q); qt_bits : num_bits; qt_gran : granularity; qt_affine : bool }.
(** Other values, such as numbers, are told apart by a number. *)
Inductive leaf := Plain (t : tensor Q) | Quant (q : qtensor) | Other (x : nat).

(** _io_capture.py:110-129 *)
Definition dequant_and_get_params (q : qtensor) : result (tensor Q * quant_params) :=
  if negb (qt_affine q) then Err AssertionError
  else
    let? raw := tile_size (qt_gran q) (shape (qt_codes q)) in
    let tile := match raw with DataShape => shape (qt_codes q) | Tile t => t end in
    let? w := dequantize_by_tile (qt_codes q) (qt_scale q) raw (qt_offset q) in
    Ok (w, mkQP (Vec (qt_scale q)) (option_map Vec (qt_offset q)) (qt_bits q) (Some tile) (Some (shape (qt_codes q)))).

(** The loop of 148-159 and 218-227 *)
Fixpoint dequantize_leaves (l : list (option leaf)) : result (list (option leaf) * list (option quant_params)) :=
  match l with
  | [] => Ok ([], [])
  | x :: l' =>
      let? p := match x with Some (Quant q) => let? d := dequant_and_get_params q in Ok (Some (Plain (fst d)), Some (snd d)) | _ => Ok (x, None) end in
      let? ps := dequantize_leaves l' in
      Ok (fst p :: fst ps, snd p :: snd ps)
  end.
Definition some_leaves (l : list (option leaf)) : list leaf := flat_map (fun x => match x with Some a => [a] | None => [] end) l.
(** 190-231 *)
Definition deep_dequantize (t : tree leaf) : result (tree leaf * tree (option quant_params)) :=
  let? p := dequantize_leaves (map Some (flatten t)) in
  let? new := unflatten t (some_leaves (fst p)) in
  let? settings := unflatten t (snd p) in
  Ok (fst new, fst settings).

(** ** Recorders *)
Record recorded := mkRec {
  r_input : tree leaf; r_kwargs : tree leaf; r_output : list (option leaf);
  r_input_settings : tree (option quant_params); r_kwargs_settings : tree (option quant_params); r_output_settings : list (option quant_params) }.
(** 27-34; modules are told apart by a number *)
Record recorder := mkRecorder { c_name : string; c_module : nat; c_recorded : option recorded }.
(** A call of a module that has returned *)
Record call := mkCall { k_module : nat; k_args : tree leaf; k_kwargs : tree leaf; k_output : tree leaf }.
(** 42-69: the hook *)
Definition hook (c : call) : result recorded :=
  let? i := deep_dequantize (k_args c) in
  let? k := deep_dequantize (k_kwargs c) in
  let? o := dequantize_leaves (torch_leaves (k_output c)) in
  Ok (mkRec (fst i) (fst k) (fst o) (snd i) (snd k) (snd o)).
(** All hooks of the module that was called *)
Fixpoint fire (c : call) (recs : list recorder) : result (list recorder) :=
  match recs with
  | [] => Ok []
  | r :: recs' =>
      let? r' := if c_module r =? k_module c then let? x := hook c in Ok (mkRecorder (c_name r) (c_module r) (Some x)) else Ok r in
      let? recs'' := fire c recs' in
      Ok (r' :: recs'')
  end.
Fixpoint observe (calls : list call) (recs : list recorder) : result (list recorder) :=
  match calls with [] => Ok recs | c :: calls' => let? recs' := fire c recs in observe calls' recs' end.

(** ** Extension of encodings *)
(** What [add_encoding] does with settings that are not a dictionary of parameters: [encoding_value["scale"]] *)
Definition setting (t : option (tree (option quant_params))) : option (result quant_params) :=
  match t with
  | None | Some Empty | Some (Leaf None) => None
  | Some (Leaf (Some e)) => Some (Ok e)
  | Some (Node Dict _) => Some (Err KeyError)
  | Some (Node _ _) => Some (Err TypeError)
  end.
Definition get_item {A} (x : string) (l : list (string * A)) : option A := option_map snd (find (fun p => String.eqb (fst p) x) l).
(** module_export.py:246-283 *)
Fixpoint extend_inputs (h : handler) (names : list string) (kw : list (string * tree (option quant_params))) (pos : list (string * tree (option quant_params))) : result handler :=
  match names with
  | [] => Ok h
  | n :: names' =>
      match setting (get_item n kw) with
      | Some s => let? e := s in let? h' := add_encoding h n e false in extend_inputs h' names' kw pos
      | None =>
          match pos with
          | (_, t) :: pos' =>
              let? h' := match setting (Some t) with Some s => let? e := s in add_encoding h n e false | None => Ok h end in
              extend_inputs h' names' kw pos'
          | [] => extend_inputs h names' kw []
          end
      end
  end.
(** 285-293 *)
Fixpoint extend_outputs (h : handler) (names : list string) (settings : list (option quant_params)) : result handler :=
  match names, settings with
  | n :: names', s :: settings' =>
      let? h' := match s with Some e => add_encoding h n e false | None => Ok h end in
      extend_outputs h' names' settings'
  | _, _ => Ok h
  end.
(** What the exporter has written: names of inputs and outputs of the ONNX graph, and the annotated graph *)
Record artifact := mkArt { a_inputs : list string; a_outputs : list string; a_proto : proto }.
Definition children {A} (t : tree A) : list (string * tree A) := match t with Node _ l => l | _ => [] end.
(** 204-298; the handler is that of the export before *)
Definition extend (h : handler) (a : artifact) (r : recorded) : result handler :=
  let? h1 := extend_inputs h (a_inputs a) (children (r_kwargs_settings r)) (children (r_input_settings r)) in
  extend_outputs h1 (a_outputs a) (r_output_settings r).

(** ** 41-201: export_modules *)
Record files := mkFiles { f_plain : recorded; f_quantized : recorded; f_encodings : list (string * any_entry) * list (string * any_entry) }.
(** [plain_run], [quantized_run]: the calls of the model with quantization disabled and as it is, and what it raises;
    [export]: the stages of C57 and C63 up to the extraction of encodings.  Directories and pickling are left out, and
    so is everything but the calls of hooked modules.  The result comes with the modules on which hooks are left. *)
Section Export.
  Variable plain_run quantized_run : list call * option exn.
  Variable export : string -> nat -> tree leaf -> tree leaf -> result artifact.

  Definition new_recorders (modules : list (string * nat)) : list recorder := map (fun p => mkRecorder (fst p) (snd p) None) modules.
  Definition execute (run : list call * option exn) (recs : list recorder) : result (list recorder) :=
    let? recs' := observe (fst run) recs in
    match snd run with Some e => Err e | None => Ok recs' end.
  (** Attributes of a recorder that has not been called do not exist. *)
  Fixpoint stored (recs : list recorder) : result (list recorded) :=
    match recs with
    | [] => Ok []
    | r :: recs' => match c_recorded r with None => Err AttributeError | Some x => let? xs := stored recs' in Ok (x :: xs) end
    end.
  Fixpoint export_all (h : handler) (plain : list recorded) (recs : list recorder) : result (list (string * files)) :=
    match plain, recs with
    | p :: plain', r :: recs' =>
        match c_recorded r with
        | None => Err AttributeError
        | Some x =>
            let? a := export (c_name r) (c_module r) (r_input x) (r_kwargs x) in
            let? h1 := extract_encodings (a_proto a) h in
            let? h2 := extend h1 a x in
            let? rest := export_all (clear h2) plain' recs' in
            Ok ((c_name r, mkFiles p x (build_encodings h2 true, build_encodings h2 false)) :: rest)
        end
    | _, _ => Ok []
    end.
  Definition no_children {A} (t : tree A) : bool := match children t with [] => true | _ => false end.
  Definition export_modules (h : handler) (args kwargs : tree leaf) (modules : list (string * nat)) : result (list (string * files)) * list nat :=
    if no_children args && no_children kwargs then (Err ValueError, [])
    else
      match (let? recs := execute plain_run (new_recorders modules) in stored recs) with
      | Err e => (Err e, [])
      | Ok plain =>
          match execute quantized_run (new_recorders modules) with
          | Err e => (Err e, map snd modules)
          | Ok recs => (export_all h plain recs, [])
          end
      end.
End Export.
