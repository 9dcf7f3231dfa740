(** Model of fastforward/quantization/tiled_tensor.py and of the tensor
    operations it uses.  A tensor is a shape and its elements in row-major order
    (the logical content of a torch tensor; strides/storage are not modelled).
    Sizes are natural numbers, so negative tile sizes are not modelled. *)
From Verif Require Import Prelude.

Definition prod (s : list nat) : nat := fold_right Nat.mul 1 s.
Arguments prod : simpl never.

Record tensor (A : Type) := mkT { shape : list nat; data : list A }.
Arguments mkT {A}.
Arguments shape {A}.
Arguments data {A}.

Definition numel {A} (t : tensor A) : nat := length (data t).

(** torch.Tensor.reshape to an explicit shape: element order is kept; an error if
    the number of elements differs. *)
Definition reshape {A} (t : tensor A) (s : list nat) : result (tensor A) :=
  if prod s =? length (data t) then Ok (mkT s (data t)) else Err RuntimeError.

(** Row-major position of a multi-index, and its inverse. *)
Fixpoint ravel (s idx : list nat) : nat :=
  match s, idx with
  | _ :: s', i :: idx' => i * prod s' + ravel s' idx'
  | _, _ => 0
  end.

Fixpoint unravel (s : list nat) (p : nat) : list nat :=
  match s with
  | [] => []
  | _ :: s' => p / prod s' :: unravel s' (p mod prod s')
  end.

Fixpoint index_of (d : nat) (l : list nat) : option nat :=
  match l with
  | [] => None
  | x :: l' => if x =? d then Some 0 else option_map S (index_of d l')
  end.

(** torch.Tensor.permute: new dimension k is old dimension perm[k].  The element at
    new index j is the old element at i with i[perm[k]] = j[k]. *)
Definition permute {A} (t : tensor A) (perm : list nat) : result (tensor A) :=
  if negb (length perm =? length (shape t)) then Err RuntimeError else
  match omapM (nth_error (shape t)) perm with
  | None => Err RuntimeError
  | Some s' =>
      let old_index (j : list nat) :=
        omapM (fun d => match index_of d perm with
                        | Some k => nth_error j k
                        | None => None
                        end) (seq 0 (length (shape t))) in
      match omapM (fun p => match old_index (unravel s' p) with
                            | Some i => nth_error (data t) (ravel (shape t) i)
                            | None => None
                            end) (seq 0 (prod s')) with
      | Some d' => Ok (mkT s' d')
      | None => Err RuntimeError
      end
  end.

(** tiled_tensor.py:19-42 check_tile_compatibility *)
Definition check_tile_compatibility (input_size tile_size : list nat) : result unit :=
  if negb (length input_size =? length tile_size) then Err ValueError
  else if forallb (fun '(i, t) => negb ((0 <? t) && negb (i mod t =? 0))) (combine input_size tile_size)
       then Ok tt else Err ValueError.

(** tiled_tensor.py:56-68 _interleave (both arguments sequences).  [cycle right]
    repeats [right]; zipping with an empty cycle yields nothing. *)
Definition interleave {A} (seq1 seq2 : list A) : list A :=
  let left := match seq1 with
              | [a] => if 1 <? length seq2 then repeat a (length seq2) else seq1
              | _ => seq1
              end in
  match seq2 with
  | [] => []
  | b0 :: _ =>
      flat_map (fun '(k, a) => [a; nth (k mod length seq2) seq2 b0])
               (combine (seq 0 (length left)) left)
  end.

(** list(range(0, n, 2)) and list(range(1, n, 2)) for n = 2*r dimensions. *)
Definition evens (r : nat) : list nat := map (fun k => 2 * k) (seq 0 r).
Definition odds (r : nat) : list nat := map (fun k => 2 * k + 1) (seq 0 r).

(** Python's [a // b] on the zipped lists raises ZeroDivisionError on b = 0. *)
Definition num_dim_blocks (size tile : list nat) : result (list nat) :=
  rmapM (fun '(a, b) => if b =? 0 then Err ZeroDivisionError else Ok (a / b)) (combine size tile).

(** A tile size argument is a size or the literal "data_shape". *)
Inductive tile_arg := DataShape | Tile (t : list nat).

Definition resolve_tile (size : list nat) (ta : tile_arg) : list nat :=
  match ta with DataShape => size | Tile t => t end.

(** tiled_tensor.py:71-98 tiles_to_rows.  The final reshape(num_blocks, -1) is the
    reshape to (num_blocks, numel / num_blocks). *)
Definition tiles_to_rows {A} (t : tensor A) (ta : tile_arg) : result (tensor A) :=
  if numel t =? 0 then reshape t [1; 0] else
  let tile := resolve_tile (shape t) ta in
  let? _ := check_tile_compatibility (shape t) tile in
  let? nb := num_dim_blocks (shape t) tile in
  let data_shape := interleave nb tile in
  if prod tile =? 0 then Err ZeroDivisionError else
  let num_blocks := numel t / prod tile in
  let? tiled := reshape t data_shape in
  let nd := length data_shape in
  let? p := permute tiled (evens (Nat.div2 (nd + 1)) ++ odds (Nat.div2 nd)) in
  if num_blocks =? 0 then Err RuntimeError else
  reshape p [num_blocks; numel p / num_blocks].

(** tiled_tensor.py:101-144 rows_to_tiles *)
Definition rows_to_tiles {A} (t : tensor A) (data_size : list nat) (ta : tile_arg)
  : result (tensor A) :=
  if numel t =? 0 then reshape t data_size else
  let tile := resolve_tile data_size ta in
  let? _ := check_tile_compatibility data_size tile in
  if prod tile =? 0 then Err ZeroDivisionError else
  let expected := [prod data_size / prod tile; prod tile] in
  if negb (size_eqb (shape t) expected)
  then Err ValueError else
  let? nb := num_dim_blocks data_size tile in
  let inter := interleave nb tile in
  let nd := length inter in
  let perm := evens (Nat.div2 (nd + 1)) ++ odds (Nat.div2 nd) in
  match omapM (nth_error inter) perm with
  | None => Err IndexError
  | Some tiled_shape =>
      let rev_perm := interleave (seq 0 (nd / 2)) (seq (nd / 2) (nd - nd / 2)) in
      let? r := reshape t tiled_shape in
      let? d := permute r rev_perm in
      reshape d data_size
  end.

