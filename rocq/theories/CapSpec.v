(** Vocabulary for C110 and C111: what is recorded of calls, and which tensors get encodings. *)
From Coq Require Import String.
From Verif Require Import Prelude TilingModel TilingSpec GranularityModel AffineModel EncModel EncSpec CapModel.
From Coq Require Import QArith.
Local Open Scope nat_scope.
Local Open Scope list_scope.

(** Two trees of the same structure whose leaves are related. *)
Inductive corresponds {A B} (R : A -> B -> Prop) : tree A -> tree B -> Prop :=
| corr_leaf : forall a b, R a b -> corresponds R (Leaf a) (Leaf b)
| corr_empty : corresponds R Empty Empty
| corr_node : forall c l l', Forall2 (fun p q => fst p = fst q /\ corresponds R (snd p) (snd q)) l l' -> corresponds R (Node c l) (Node c l').

(** The tile size of a quantized tensor, its values, and its parameters. *)
Definition tile_is (q : qtensor) (tile : tile_arg) : Prop := tile_size (qt_gran q) (shape (qt_codes q)) = Ok tile.
Definition value_of (q : qtensor) (w : tensor Q) : Prop :=
  exists tile, tile_is q tile /\ dequantize_by_tile (qt_codes q) (qt_scale q) tile (qt_offset q) = Ok w.
Definition params_of (q : qtensor) (e : quant_params) : Prop :=
  exists tile, tile_is q tile /\ e = mkQP (Vec (qt_scale q)) (option_map Vec (qt_offset q)) (qt_bits q) (Some (resolve_tile (shape (qt_codes q)) tile)) (Some (shape (qt_codes q))).
(** Quantized tensors are replaced by their values, the rest is kept. *)
Definition dequantized (x y : leaf) : Prop := match x with Quant q => exists w, value_of q w /\ y = Plain w | _ => y = x end.
Definition has_setting (x : leaf) (s : option quant_params) : Prop := match x with Quant q => exists e, params_of q e /\ s = Some e | _ => s = None end.
Definition dequantized_output (x y : option leaf) : Prop := match x with Some a => exists b, dequantized a b /\ y = Some b | None => y = None end.
Definition output_setting (x : option leaf) (s : option quant_params) : Prop := match x with Some a => has_setting a s | None => s = None end.
(** A quantized tensor that is recorded: static affine parameters that fit it. *)
Definition recordable (x : leaf) : Prop := match x with Quant q => qt_affine q = true /\ exists w, value_of q w | _ => True end.
Fixpoint leaves_of {A} (t : tree A) : list A :=
  match t with Leaf a => [a] | Empty => [] | Node _ l => flat_map (fun p => leaves_of (snd p)) l end.

(** The record of a call. *)
Definition records (c : call) (r : recorded) : Prop :=
  corresponds dequantized (k_args c) (r_input r) /\ corresponds has_setting (k_args c) (r_input_settings r) /\
  corresponds dequantized (k_kwargs c) (r_kwargs r) /\ corresponds has_setting (k_kwargs c) (r_kwargs_settings r) /\
  Forall2 dequantized_output (torch_leaves (k_output c)) (r_output r) /\ Forall2 output_setting (torch_leaves (k_output c)) (r_output_settings r).
Definition last_call (m : nat) (calls : list call) (c : call) : Prop :=
  exists before after, calls = before ++ c :: after /\ k_module c = m /\ Forall (fun c => k_module c <> m) after.

(** Parameters in a flat list of arguments; the encodings to add for a list of named arguments. *)
Definition flat {A} (l : list (string * tree A)) : Prop := Forall (fun p => exists a, snd p = Leaf a) l.
Definition wanted (names : list string) (settings : list (option quant_params)) : list op :=
  flat_map (fun p => match snd p with Some e => [Add (fst p) e false] | None => [] end) (combine names settings).
(** The inputs of the graph are the positional arguments in order and keyword arguments by name; a keyword argument before a
    positional one is quantized.  With the argument for each input. *)
Inductive assigned (kws : list (string * tree leaf)) : list string -> list leaf -> list leaf -> Prop :=
| as_none : assigned kws [] [] []
| as_positional n x names xs l : ~ In n (map fst kws) -> assigned kws names xs l -> assigned kws (n :: names) (x :: xs) (x :: l)
| as_keyword n y names xs l : In (n, Leaf y) kws -> xs = [] \/ (exists q, y = Quant q) -> assigned kws names xs l -> assigned kws (n :: names) xs (y :: l).
