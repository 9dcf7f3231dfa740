(** Model of [src/fastforward/quantization/_linear_quantized_ops.py] (structural kernels on
    affine quantized tensors) and of the torch tensor operations they apply to the raw data. *)
From Verif Require Import Prelude TilingModel GranularityModel AffineModel.
From Coq Require Import QArith.
Local Open Scope nat_scope.

(** A quantized tensor: raw integer data and its quantization context
    (quantized_tensor.py:290-315; quantization/affine/static.py StaticAffineQuantParams).
    Scalars are one-element lists; bit width and dtypes play no role here. *)
Record qtensor := mkQT { raw : tensor Z; qscale : list Q; qoffset : option (list Q); qgran : granularity }.

(** quantized_tensor.py:384-388 and quantization/affine/function.py:181-188. *)
Definition dequantize (q : qtensor) : result (tensor Q) :=
  let? ta := tile_size (qgran q) (shape (raw q)) in
  dequantize_by_tile (raw q) (qscale q) ta (qoffset q).

(** quantized_tensor.py:267-268 [apply_and_reattach]: the context is kept. *)
Definition apply_and_reattach (f : tensor Z -> result (tensor Z)) (q : qtensor) : result qtensor :=
  let? d := f (raw q) in Ok (mkQT d (qscale q) (qoffset q) (qgran q)).

(** ** Tensor operations (torch semantics on logical content) *)

(** [reshape]/[view] with at most one -1 (views differ from reshape only in storage). *)
Definition infer_shape (n : nat) (s : list Z) : result (list nat) :=
  let known := filter (fun d => negb (d =? -1)%Z) s in
  if existsb (fun d => (d <? 0)%Z) known then Err RuntimeError else
  let p := prod (map Z.to_nat known) in
  match length s - length known with
  | 0 => Ok (map Z.to_nat s)
  | 1 => if p =? 0 then Err RuntimeError
         else if n mod p =? 0 then Ok (map (fun d => if (d =? -1)%Z then n / p else Z.to_nat d) s)
         else Err RuntimeError
  | _ => Err RuntimeError
  end.
Definition t_reshape (s : list Z) {A} (t : tensor A) : result (tensor A) :=
  let? s' := infer_shape (length (data t)) s in reshape t s'.

(** [transpose(d0, d1)] as a permutation of the dimensions. *)
Definition swap (a b k : nat) : nat := if k =? a then b else if k =? b then a else k.
Definition t_transpose (d0 d1 : Z) {A} (t : tensor A) : result (tensor A) :=
  let n := length (shape t) in
  let? a := py_index n d0 in
  let? b := py_index n d1 in
  permute t (map (swap a b) (seq 0 n)).

(** Build a tensor from a shape and a function from its indices to source indices. *)
Definition gather {A} (t : tensor A) (s' : list nat) (src : list nat -> option (list nat)) : result (tensor A) :=
  match omapM (fun p => match src (unravel s' p) with
                        | Some i => nth_error (data t) (ravel (shape t) i)
                        | None => None
                        end) (seq 0 (prod s')) with
  | Some d => Ok (mkT s' d)
  | None => Err RuntimeError
  end.

(** [expand]: new leading dimensions and repeated size-1 dimensions; -1 keeps a size.
    Sizes are given as [option nat] ([None] = -1). *)
Fixpoint expand_dims (old : list nat) (new : list (option nat)) : result (list nat) :=
  match old, new with
  | [], [] => Ok []
  | o :: old', n :: new' =>
      let? r := expand_dims old' new' in
      match n with
      | None => Ok (o :: r)
      | Some k => if k =? o then Ok (k :: r) else if o =? 1 then Ok (k :: r) else Err RuntimeError
      end
  | _, _ => Err RuntimeError
  end.
Definition t_expand (s : list (option nat)) {A} (t : tensor A) : result (tensor A) :=
  let old := shape t in
  let extra := length s - length old in
  if length s <? length old then Err RuntimeError else
  match omapM (fun x => x) (firstn extra s) with
  | None => Err RuntimeError
  | Some lead =>
      let? tail := expand_dims old (skipn extra s) in
      gather t (lead ++ tail)
        (fun j => Some (map (fun '(o, k) => if o =? 1 then 0 else k) (combine old (skipn extra j))))
  end.

(** Basic indexing. *)
Inductive slicelike := SInt (i : Z) | SSlice (start stop step : option Z) | SEllipsis | SNone.

(** Indices selected by [start:stop:step] from a dimension of size [n]; torch rejects
    non-positive steps. *)
Definition clamp_bound (n : nat) (b : Z) : Z :=
  (if b <? 0 then Z.max (b + Z.of_nat n) 0 else Z.min b (Z.of_nat n))%Z.
Definition slice_indices (n : nat) (start stop step : option Z) : result (list nat) :=
  let st := match step with None => 1%Z | Some s => s end in
  if (st <=? 0)%Z then Err ValueError else
  let a := match start with None => 0%Z | Some a => clamp_bound n a end in
  let b := match stop with None => Z.of_nat n | Some b => clamp_bound n b end in
  Ok (filter (fun i => (a <=? Z.of_nat i) && (Z.of_nat i <? b) && ((Z.of_nat i - a) mod st =? 0))%Z (seq 0 n)).

(** What happens to each dimension: an index (dimension dropped), a range, a new one. *)
Inductive ditem := DTake (k : nat) | DRange (l : list nat) | DNew.
Definition consumes (s : slicelike) : bool := match s with SInt _ | SSlice _ _ _ => true | _ => false end.
Definition n_consume (l : list slicelike) : nat := length (filter consumes l).
Definition full (n : nat) : ditem := DRange (seq 0 n).

(** torch's treatment of an index tuple. A second ellipsis is rejected (torch accepts some
    of these; they do not occur in practice). *)
Fixpoint resolve (seen : bool) (s : list nat) (sl : list slicelike) : result (list ditem) :=
  match sl with
  | [] => Ok (map full s)
  | SNone :: sl' => let? r := resolve seen s sl' in Ok (DNew :: r)
  | SEllipsis :: sl' =>
      if seen then Err IndexError else
      if length s <? n_consume sl' then Err IndexError else
      let k := length s - n_consume sl' in
      let? r := resolve true (skipn k s) sl' in Ok (map full (firstn k s) ++ r)
  | SInt i :: sl' =>
      match s with
      | [] => Err IndexError
      | n :: s' => let? k := py_index n i in
                   let? r := resolve seen s' sl' in Ok (DTake k :: r)
      end
  | SSlice a b c :: sl' =>
      match s with
      | [] => Err IndexError
      | n :: s' => let? l := slice_indices n a b c in
                   let? r := resolve seen s' sl' in Ok (DRange l :: r)
      end
  end.
Definition item_shape (it : ditem) : list nat :=
  match it with DTake _ => [] | DRange l => [length l] | DNew => [1] end.
Definition out_shape (items : list ditem) : list nat := flat_map item_shape items.
Fixpoint src_index (items : list ditem) (j : list nat) : option (list nat) :=
  match items with
  | [] => Some []
  | DTake k :: r => option_map (cons k) (src_index r j)
  | DRange l :: r =>
      match j with
      | [] => None
      | x :: j' => match nth_error l x with
                   | Some i => option_map (cons i) (src_index r j')
                   | None => None
                   end
      end
  | DNew :: r => match j with [] => None | _ :: j' => src_index r j' end
  end.
Definition t_getitem (sl : list slicelike) {A} (t : tensor A) : result (tensor A) :=
  let? items := resolve false (shape t) sl in
  gather t (out_shape items) (src_index items).

(** [torch.take_along_dim(x, indices, dim)] for indices of the same number of dimensions
    (no broadcasting): the element at j comes from j with component [dim] replaced. *)
Definition t_take_along (ind : tensor nat) (dim : nat) {A} (t : tensor A) : result (tensor A) :=
  if negb (length (shape ind) =? length (shape t)) then Err RuntimeError else
  if length (shape t) <=? dim then Err IndexError else
  gather t (shape ind) (fun j =>
    match nth_error (data ind) (ravel (shape ind) j) with
    | Some k => let i := set_nth j dim k in
                if forallb (fun '(x, n) => x <? n) (combine i (shape t)) then Some i else None
    | None => None
    end).

(** Inserting a dimension of size one; [dim] in [-(n+1), n]. *)
Fixpoint insert_nth {A} (k : nat) (x : A) (l : list A) : list A :=
  match k, l with
  | 0, _ => x :: l
  | S k', a :: l' => a :: insert_nth k' x l'
  | S _, [] => [x]
  end.
Definition t_unsqueeze (dim : Z) {A} (t : tensor A) : result (tensor A) :=
  let? k := py_index (S (length (shape t))) dim in
  Ok (mkT (insert_nth k 1 (shape t)) (data t)).

(** ** Kernels *)

(** lines 92-118, 217-225 and 254-258: [contiguous], [view], [view_as], [reshape],
    [transpose], [__getitem__], [expand], [take_along_dim] on per-tensor quantized data. *)
Definition k_reshape (s : list Z) := apply_and_reattach (t_reshape s).
Definition k_transpose (a b : Z) := apply_and_reattach (t_transpose a b).
Definition k_getitem (sl : list slicelike) := apply_and_reattach (t_getitem sl).
Definition k_expand (s : list (option nat)) := apply_and_reattach (t_expand s).
Definition k_take_along (i : tensor nat) (d : nat) := apply_and_reattach (t_take_along i d).
Definition k_contiguous := apply_and_reattach (fun t => Ok t).

(** lines 156-178 [scalar_multiply] *)
Definition k_scalar_multiply (c : Q) (q : qtensor) : qtensor :=
  mkQT (raw q) (map (fun s => (s * c)%Q) (qscale q)) (qoffset q) (qgran q).

(** lines 228-252 [unsqueeze]. [ax + ax >= dim] parses as [(ax + ax) >= dim], a bool, and
    a bool used as a dimension is 0 or 1. *)
Definition k_unsqueeze (dim : Z) (q : qtensor) : result qtensor :=
  let? d := t_unsqueeze dim (raw q) in
  match qgran q with
  | PerTensor => Ok (mkQT d (qscale q) (qoffset q) (qgran q))
  | PerChannel axis =>
      let new_axis := map (fun ax => if (dim <=? ax + ax)%Z then 1%Z else 0%Z) axis in
      Ok (mkQT d (qscale q) (qoffset q) (PerChannel new_axis))
  | PerTile tile =>
      let k := Z.to_nat (dim mod Z.of_nat (S (length tile)))%Z in
      Ok (mkQT d (qscale q) (qoffset q) (PerTile (insert_nth k 1 tile)))
  | PerBlock _ _ _ _ => Err ValueError
  end.

(** lines 275-354 [getitem_per_channel] *)
Fixpoint effective (ndim : nat) (channels : list nat) (orig : nat) (sl : list slicelike) : list slicelike :=
  match sl with
  | [] => []
  | SEllipsis :: sl' => SEllipsis :: effective ndim channels (ndim - n_consume sl') sl'
  | SNone :: sl' => SNone :: effective ndim channels orig sl'
  | s :: sl' =>
      (if existsb (Nat.eqb orig) channels then s
       else match s with SInt _ => SInt 0 | _ => SSlice None None None end)
      :: effective ndim channels (S orig) sl'
  end.
Definition param_shape (channels : list nat) (s : list nat) : list nat :=
  map (fun '(i, d) => if existsb (Nat.eqb i) channels then d else 1) (combine (seq 0 (length s)) s).
Definition k_getitem_per_channel (sl : list slicelike) (q : qtensor) : result qtensor :=
  match qgran q with
  | PerChannel dims =>
      let ndim := Z.of_nat (length (shape (raw q))) in
      let dims' := map (fun c => if (c <? 0)%Z then (ndim + c)%Z else c) dims in
      if existsb (fun c => (c <? 0)%Z) dims' then Err ValueError else
      let channels := map Z.to_nat dims' in
      let tmp := param_shape channels (shape (raw q)) in
      let eff := effective (length (shape (raw q))) channels 0 sl in
      let index_params {A} (l : list A) : result (tensor A) :=
        let? v := reshape (mkT [length l] l) tmp in t_getitem eff v in
      let? scale := index_params (qscale q) in
      let new_dims := map (fun p => Z.of_nat (fst p))
        (filter (fun p => 1 <? snd p) (combine (seq 0 (length (shape scale))) (shape scale))) in
      let? offset := match qoffset q with
                     | None => Ok None
                     | Some o => let? o' := index_params o in Ok (Some (data o'))
                     end in
      let? new_data := t_getitem sl (raw q) in
      Ok (mkQT new_data (data scale) offset (PerChannel new_dims))
  | _ => Err TypeError
  end.

(** torch.cat along [dim]: outer blocks of each tensor are concatenated. All tensors must
    agree on the other dimensions. *)
Definition outer (dim : nat) (s : list nat) : nat := prod (firstn dim s).
Definition inner_block {A} (dim o : nat) (t : tensor A) : list A :=
  let b := prod (skipn dim (shape t)) in firstn b (skipn (o * b) (data t)).
Definition t_cat {A} (dim : nat) (ts : list (tensor A)) : result (tensor A) :=
  match ts with
  | [] => Err RuntimeError
  | t0 :: _ =>
      if length (shape t0) <=? dim then Err IndexError else
      if forallb (fun t => size_eqb (firstn dim (shape t)) (firstn dim (shape t0)) &&
                           size_eqb (skipn (S dim) (shape t)) (skipn (S dim) (shape t0)) &&
                           (length (shape t) =? length (shape t0))) ts
      then Ok (mkT (firstn dim (shape t0) ++ [fold_right Nat.add 0 (map (fun t => nth dim (shape t) 0) ts)]
                      ++ skipn (S dim) (shape t0))
                   (flat_map (fun o => flat_map (inner_block dim o) ts) (seq 0 (outer dim (shape t0)))))
      else Err RuntimeError
  end.

(** lines 181-219 [cat_predicate]: scale and offset are one-element tensors; an absent
    previous offset matches any offset. *)
Definition q1_eqb (a b : list Q) : bool := list_eqb Qeq_bool a b.
Fixpoint cat_predicate (scale : option (list Q)) (offset : option (list Q)) (ts : list qtensor) : bool :=
  match ts with
  | [] => true
  | q :: ts' =>
      match qgran q with
      | PerTensor =>
          let scale_match := match scale with None => true | Some s => q1_eqb (qscale q) s end in
          let offset_match := match offset with
                              | None => true
                              | Some o => match qoffset q with Some o' => q1_eqb o' o | None => false end
                              end in
          scale_match && offset_match && cat_predicate (Some (qscale q)) (qoffset q) ts'
      | _ => false
      end
  end.
(** lines 222-227 [cat], with its predicate *)
Definition k_cat (dim : nat) (ts : list qtensor) : result qtensor :=
  if negb (cat_predicate None None ts) then Err NotImplementedError else
  match ts with
  | [] => Err RuntimeError
  | q0 :: _ => let? d := t_cat dim (map raw ts) in Ok (mkQT d (qscale q0) (qoffset q0) (qgran q0))
  end.

(** torch.topk on one fibre along [dim]: the [k] greatest entries in descending order with
    their positions. [leb] compares entries; ties keep the earlier position first. *)
Fixpoint insert_desc {A} (leb : A -> A -> bool) (x : nat * A) (l : list (nat * A)) : list (nat * A) :=
  match l with
  | [] => [x]
  | y :: l' => if leb (snd y) (snd x) then x :: y :: l' else y :: insert_desc leb x l'
  end.
Definition sort_desc {A} (leb : A -> A -> bool) (l : list A) : list (nat * A) :=
  fold_right (insert_desc leb) [] (combine (seq 0 (length l)) l).
Definition topk_fibre {A} (leb : A -> A -> bool) (largest : bool) (k : nat) (l : list A) : result (list (nat * A)) :=
  if length l <? k then Err RuntimeError
  else Ok (firstn k (sort_desc (if largest then leb else fun a b => leb b a) l)).
(** lines 261-272 [topk] on a fibre: top-k of the raw integers, reattached; the values are
    read off after dequantization with scale [s] and offset [o]. *)
Definition k_topk_fibre (s : Q) (o : option Q) (largest : bool) (k : nat) (l : list Z) : result (list (nat * Q)) :=
  rmap (map (fun p => (fst p, dequantize_elem s o (snd p)))) (topk_fibre Z.leb largest k l).
