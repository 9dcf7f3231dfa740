(** Model of fastforward/quantization/granularity.py. *)
From Verif Require Import Prelude TilingModel.
From Coq Require Import QArith Qreduction.
Local Open Scope nat_scope.

(** Granularity instances; dimension arguments are Python ints (may be negative),
    sizes are natural numbers.  granularity.py:102-263 *)
Inductive granularity :=
| PerTensor
| PerChannel (channel_dims : list Z)
| PerBlock (block_dims : list Z) (block_sizes : list nat) (per_channel_dims : list Z) (strict_blocks : bool)
| PerTile (tile_shape : list nat).

(** Python indexing of a list of length [n] by the int [d]. *)
Definition py_index (n : nat) (d : Z) : result nat :=
  if (0 <=? d)%Z && (d <? Z.of_nat n)%Z then Ok (Z.to_nat d)
  else if (- Z.of_nat n <=? d)%Z && (d <? 0)%Z then Ok (Z.to_nat (d + Z.of_nat n))
  else Err IndexError.

Fixpoint set_nth (l : list nat) (k v : nat) : list nat :=
  match l, k with
  | [], _ => []
  | _ :: l', 0 => v :: l'
  | a :: l', S k' => a :: set_nth l' k' v
  end.

(** [tile_size[dim] = v] on a Python list *)
Definition py_set (l : list nat) (d : Z) (v : nat) : result (list nat) :=
  let? k := py_index (length l) d in Ok (set_nth l k v).

(** [data_shape[dim]] *)
Definition py_get (l : list nat) (d : Z) : result nat :=
  let? k := py_index (length l) d in
  match nth_error l k with Some v => Ok v | None => Err IndexError end.

(** granularity.py:146-150 and 197-199: set the listed dimensions to 1 *)
Fixpoint set_dims_1 (dims : list Z) (tile : list nat) : result (list nat) :=
  match dims with
  | [] => Ok tile
  | d :: dims' => let? tile' := py_set tile d 1 in set_dims_1 dims' tile'
  end.

(** granularity.py:201-214 *)
Fixpoint set_blocks (data_shape : list nat) (strict : bool) (dims : list Z) (sizes : list nat)
    (tile : list nat) : result (list nat) :=
  match dims, sizes with
  | d :: dims', b :: sizes' =>
      let? n := py_get data_shape d in
      if n <? b then Err ValueError else
      if strict && (b =? 0) then Err ZeroDivisionError else
      if strict && negb (n mod b =? 0) then Err ValueError else
      let? tile' := py_set tile d b in
      set_blocks data_shape strict dims' sizes' tile'
  | _, _ => Ok tile
  end.

(** granularity.py:109, 137-150, 196-216, 242-258: tile_size.  The PerBlock
    constructor's length check (183-185) is performed here. *)
Definition tile_size (g : granularity) (data_shape : list nat) : result tile_arg :=
  match g with
  | PerTensor => Ok DataShape
  | PerChannel dims => rmap Tile (set_dims_1 dims data_shape)
  | PerBlock dims sizes pc strict =>
      if negb (length dims =? length sizes) then Err ValueError else
      let? tile := set_dims_1 pc data_shape in
      rmap Tile (set_blocks data_shape strict dims sizes tile)
  | PerTile t =>
      let? _ := check_tile_compatibility data_shape t in Ok (Tile t)
  end.

(** granularity.py:64-75 *)
Definition parameter_dimensionality (g : granularity) (data_shape : list nat) : result nat :=
  let? t := tile_size g data_shape in
  match t with
  | DataShape => Ok 1
  | Tile t => if prod t =? 0 then Err ZeroDivisionError else Ok (prod data_shape / prod t)
  end.

(** granularity.py:90-99: only attributes named in __match_args__ are compared;
    PerBlock declares none. *)
Definition granularity_eq (a b : granularity) : bool :=
  match a, b with
  | PerTensor, PerTensor => true
  | PerChannel x, PerChannel y => list_eqb Z.eqb x y
  | PerBlock _ _ _ _, PerBlock _ _ _ _ => true
  | PerTile x, PerTile y => size_eqb x y
  | _, _ => false
  end.

(** granularity.py:322-331.  [divs] are the exact quotients (float division in the
    code).  Only positive sizes are modelled; [data_dim % div == 0] holds when
    data_dim / div is an integer. *)
Definition divq (d t : nat) : Q := (Z.of_nat d # Pos.of_nat t).
Definition is_mult (d : nat) (q : Q) : bool :=
  if (Qnum q =? 0)%Z then false else Pos.eqb (Qden (Qred (inject_Z (Z.of_nat d) / q))) 1.

(** indices i (as Python ints) at which [f data_size[i] tile_size[i]] holds *)
Definition select_dims (f : nat -> nat -> bool) (data_size tile : list nat) : list Z :=
  map (fun p => Z.of_nat (fst p))
      (filter (fun p => f (fst (snd p)) (snd (snd p)))
              (combine (seq 0 (length data_size)) (combine data_size tile))).

Definition select_sizes (f : nat -> nat -> bool) (data_size tile : list nat) : list nat :=
  map snd (filter (fun p => f (fst p) (snd p)) (combine data_size tile)).

(** granularity.py:308-332 *)
Definition granularity_from_sizes (data_size tile : list nat) : granularity :=
  if size_eqb data_size tile then PerTensor else
  let is_channel d t := (t =? 1) && (1 <? d) in
  let is_block d t := negb ((t =? 1) || (t =? d)) in
  if forallb (fun '(d, t) => Qeq_bool (divq d t) 1 || Qeq_bool (divq d t) (inject_Z (Z.of_nat d)))
             (combine data_size tile)
  then PerChannel (select_dims is_channel data_size tile)
  else PerBlock (select_dims is_block data_size tile) (select_sizes is_block data_size tile)
                (select_dims is_channel data_size tile)
                (forallb (fun '(d, t) => is_mult d (divq d t)) (combine data_size tile)).
