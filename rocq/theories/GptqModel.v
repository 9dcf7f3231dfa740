(** Model of fastforward/quantization/gptq.py.

    Numbers are exact rationals; the factor sqrt(2 / n) by which a batch is scaled in
    place is kept as its square.  The Cholesky factorisations, argsort, nn.Unfold and the
    range estimation that precedes the loop are arbitrary functions.  A division by zero
    (inf/nan in torch) is [Err ZeroDivisionError]. *)
From Verif Require Import Prelude TilingModel GranularityModel AffineModel FuseModel.
From Coq Require Import QArith.
Local Open Scope nat_scope.

(** ** Hessian *)

(** A calibration tensor in the caller's memory.  Its value is [sqrt act_sq * act_data].
    [act_aliases]: for a linear layer, whether [.to(device, float32)], [reshape] and
    [transpose] of this tensor give views of it (a contiguous float32 tensor on the
    layer's device) and not a copy. *)
Record act := mkAct { act_data : tensor Q; act_sq : Q; act_aliases : bool }.

(** The caller's tensors, by identity. *)
Definition store := nat -> act.

(** (features, samples, value of a feature of a sample) *)
Definition batch : Type := nat * nat * (nat -> nat -> Q).

Inductive layer := Linear | Conv2d (unfold : tensor Q -> result batch).

(** gptq.py:355-358 [_linear]: (B, S, H) -> (H, B*S) *)
Definition flatten_linear (t : tensor Q) : result batch :=
  match shape t with
  | [b; s; h] => Ok (h, b * s, fun i k => nth (k * h + i) (data t) 0%Q)
  | _ => Err ValueError
  end.

(** gptq.py:330-360 [_input_flattener] *)
Definition flatten_input (l : layer) (t : tensor Q) : result batch :=
  match l with Linear => flatten_linear t | Conv2d unfold => unfold t end.

(** [x @ x.transpose(0, 1)] of the unscaled batch *)
Definition gram (k : nat) (x : nat -> nat -> Q) (i j : nat) : Q :=
  qsum (map (fun s => x i s * x j s)%Q (seq 0 k)).

Record hstate := mkH { h_mat : nat -> nat -> Q; h_n : nat; h_store : store }.

(** gptq.py:302-310: one entry of the dataset, given its positional arguments.  A batch
    with one feature is broadcast over the Hessian. *)
Definition hessian_step (l : layer) (n : nat) (st : hstate) (args : list nat) : result hstate :=
  match args with
  | [id] =>
      let a := h_store st id in
      let? fb := flatten_input l (act_data a) in
      let '(f, k, x) := fb in
      if h_n st + k =? 0 then Err ZeroDivisionError else
      let total := h_n st + k in
      let sq := (act_sq a * (2 / inject_Z (Z.of_nat total)))%Q in
      let store' := match l with
                    | Linear => if act_aliases a
                                then fun i => if i =? id then mkAct (act_data a) sq true else h_store st i
                                else h_store st
                    | Conv2d _ => h_store st
                    end in
      if negb ((f =? n) || (f =? 1)) then Err RuntimeError else
      let pick i := if f =? n then i else 0 in
      let ratio := (inject_Z (Z.of_nat (h_n st)) / inject_Z (Z.of_nat total))%Q in
      Ok (mkH (fun i j => h_mat st i j * ratio + sq * gram k x (pick i) (pick j))%Q total store')
  | _ => Err ValueError
  end.

Fixpoint hessian_loop (l : layer) (n : nat) (st : hstate) (ds : list (list nat)) : result hstate :=
  match ds with
  | [] => Ok st
  | args :: ds' => let? st' := hessian_step l n st args in hessian_loop l n st' ds'
  end.

(** gptq.py:280-315 [calculate_hessian]: the matrix and the caller's tensors afterwards *)
Definition calculate_hessian (l : layer) (n : nat) (s : store) (ds : list (list nat))
    : result ((nat -> nat -> Q) * store) :=
  let? st := hessian_loop l n (mkH (fun _ _ => 0%Q) 0 s) ds in
  Ok (fun i j => if (i =? j) && Qeq_bool (h_mat st i i) 0 then 1%Q else h_mat st i j, h_store st).

(** gptq.py:373-375: damping of the diagonal *)
Definition dampen (n : nat) (perc_damp : Q) (h : nat -> nat -> Q) : nat -> nat -> Q :=
  let mean := (qsum (map (fun i => h i i) (seq 0 n)) / inject_Z (Z.of_nat n))%Q in
  fun i j => if i =? j then (h i j + perc_damp * mean)%Q else h i j.

(** ** Column quantizer *)

(** The module's LinearQuantizer: granularity, settings and parameters. *)
Record quantizer := mkQuant { q_gran : granularity; q_bits : positive; q_symmetric : bool; q_one_sided : bool;
                              q_out : dtype; q_scale : list Q; q_offset : option (list Q) }.

Definition with_params (q : quantizer) (s : list Q) (o : option (list Q)) : quantizer :=
  mkQuant (q_gran q) (q_bits q) (q_symmetric q) (q_one_sided q) (q_out q) s o.

(** [row_block_size, col_block_size = granularity.tile_size(shape)] *)
Definition block_sides (g : granularity) (rows cols : nat) : result (nat * nat) :=
  let? t := tile_size g [rows; cols] in
  match resolve_tile [rows; cols] t with
  | [rb; cb] => Ok (rb, cb)
  | _ => Err ValueError
  end.

(** gptq.py:170-221: the entries of a parameter vector for the rows of one column *)
Definition column_params (g : granularity) (rows cols : nat) (v : list Q) (col : nat) : result (list Q) :=
  match g with
  | PerTensor =>
      match v with
      | [x] => Ok (repeat x rows)
      | _ => if length v =? rows then Ok v else Err RuntimeError
      end
  | PerChannel [0%Z] => if length v =? rows then Ok v else Err RuntimeError
  | PerChannel [1%Z] => match nth_error v col with Some x => Ok (repeat x rows) | None => Err IndexError end
  | PerChannel [0%Z; 1%Z] =>
      if length v =? rows * cols then Ok (map (fun r => nth (r * cols + col) v 0%Q) (seq 0 rows)) else Err RuntimeError
  | PerBlock _ _ _ false => Err ValueError
  | PerBlock _ _ _ true | PerTile _ =>
      let? (rb, cb) := block_sides g rows cols in
      if (rb =? 0) || (cb =? 0) then Err ZeroDivisionError else
      let nrb := rows / rb in
      let ncb := cols / cb in
      if negb (length v =? nrb * ncb) then Err RuntimeError else
      if ncb <=? col / cb then Err IndexError else
      Ok (flat_map (fun r => repeat (nth (r * ncb + col / cb) v 0%Q) rb) (seq 0 nrb))
  | _ => Err TypeError
  end.

(** gptq.py:149-235 [column_quantizer], applied to a column: quantize-dequantize of the
    column as a matrix with one column, one parameter per row. *)
Definition column_quantizer (q : quantizer) (rows cols col : nat) (x : list Q) : result (list Q) :=
  let? s := column_params (q_gran q) rows cols (q_scale q) col in
  let? o := match q_offset q with
            | None => Ok None
            | Some v => rmap Some (column_params (q_gran q) rows cols v col)
            end in
  let? t := tile_size (PerChannel [0%Z]) [length x; 1] in
  let? y := affine_qdq Exact (mkAffine s o t (q_bits q) (q_out q)) (mkT [length x; 1] x) in
  Ok (data y).

(** [view[:, k] = vals] on a flat vector seen as (nr, nc) *)
Definition set_column (v : list Q) (nr nc k : nat) (vals : list Q) : result (list Q) :=
  if negb (length v =? nr * nc) then Err RuntimeError else
  if nc <=? k then Err IndexError else
  if negb ((length vals =? nr) || (length vals =? 1)) then Err RuntimeError else
  Ok (map (fun i => if i mod nc =? k then nth (if length vals =? 1 then 0 else i / nc) vals 0%Q else nth i v 0%Q)
          (seq 0 (length v))).

(** gptq.py:238-277 [update_partial_range] for [param_view_index = (slice(None), k)] *)
Definition update_partial_range (q : quantizer) (ranges : list (Q * Q)) (nr nc k : nat) : result quantizer :=
  let? (s, o) := parameters_for_range ranges (q_bits q) (q_symmetric q) (q_one_sided q) in
  let? s' := set_column (q_scale q) nr nc k s in
  let? o' := match q_offset q with
             | None => Ok None
             | Some v => rmap Some (set_column v nr nc k (match o with Some o => o | None => [0%Q] end))
             end in
  Ok (with_params q s' o').

(** ** The column loop *)

(** A matrix as a function from column numbers to columns. *)
Definition matrix := nat -> list Q.
Definition get (m : matrix) (r c : nat) : Q := nth r (m c) 0%Q.
Definition set (m : matrix) (c : nat) (x : list Q) : matrix := fun c' => if c' =? c then x else m c'.

(** gptq.py:111-115: [weights[:, p : p + cb].reshape(nrb, -1)], one list per row block *)
Definition group_rows (w : matrix) (rows cols p cb nrb : nat) : result (list (list Q)) :=
  let flat := flat_map (fun r => map (fun c => get w r c) (seq p (Nat.min cb (cols - p)))) (seq 0 rows) in
  if nrb =? 0 then Err RuntimeError else
  if negb (length flat mod nrb =? 0) then Err RuntimeError else
  let m := length flat / nrb in
  Ok (map (fun k => firstn m (skipn (k * m) flat)) (seq 0 nrb)).

(** gptq.py:109-122 *)
Definition recompute (q : quantizer) (w : matrix) (rows cols p cb nrb ncb : nat) : result quantizer :=
  let? g := group_rows w rows cols p cb nrb in
  let? mins := rmapM list_min g in
  let? maxs := rmapM list_max g in
  update_partial_range q (combine mins maxs) nrb ncb (p / cb).

(** Group sizes when scales are recomputed (gptq.py:92-99): column block size, numbers of
    row and column blocks. *)
Definition groups_of (q : quantizer) (rows cols : nat) (actorder : bool) : result (option (nat * nat * nat)) :=
  match q_gran q with
  | PerBlock _ _ _ _ | PerTile _ =>
      let? (rb, cb) := block_sides (q_gran q) rows cols in
      if (rb =? 0) || (cb =? 0) then Err ZeroDivisionError else
      Ok (if (1 <? cols / cb) && negb actorder then Some (cb, rows / rb, cols / cb) else None)
  | _ => Ok None
  end.

Record gstate := mkG { g_block : matrix; g_quant : matrix; g_err : matrix; g_q : quantizer }.

Section Loop.
  Variables (rows cols : nat) (order : list nat) (hinv : nat -> nat -> Q) (grp : option (nat * nat * nat)).

  (** gptq.py:107-134: column [p] of the block that ends at [stop]; [w] is [weights]. *)
  Definition column_step (w : matrix) (stop : nat) (st : gstate) (p : nat) : result gstate :=
    let? q := match grp with
              | Some (cb, nrb, ncb) =>
                  if p mod cb =? 0 then recompute (g_q st) w rows cols p cb nrb ncb else Ok (g_q st)
              | None => Ok (g_q st)
              end in
    match nth_error order p with
    | None => Err IndexError
    | Some col =>
        let? y := column_quantizer q rows cols col (g_block st p) in
        let? e := rmapM (fun r => qdiv (get (g_block st) r p - nth r y 0%Q)%Q (hinv p p)) (seq 0 rows) in
        let block' := fun c =>
          if (p <? c) && (c <? stop)
          then map (fun r => get (g_block st) r c - nth r e 0 * hinv p c)%Q (seq 0 rows)
          else g_block st c in
        Ok (mkG block' (set (g_quant st) p y) (set (g_err st) p e) q)
    end.

  Fixpoint columns_loop (w : matrix) (stop : nat) (st : gstate) (ps : list nat) : result gstate :=
    match ps with
    | [] => Ok st
    | p :: ps' => let? st' := column_step w stop st p in columns_loop w stop st' ps'
    end.

  (** gptq.py:101-136: the block that starts at [i] *)
  Definition block_step (block_size : nat) (wst : matrix * gstate) (i : nat) : result (matrix * gstate) :=
    let '(w, st) := wst in
    let stop := Nat.min (i + block_size) cols in
    let? st' := columns_loop w stop (mkG w (g_quant st) (g_err st) (g_q st)) (seq i (stop - i)) in
    let w' := fun c =>
      if stop <=? c
      then map (fun r => get w r c - qsum (map (fun k => get (g_err st') r k * hinv k c) (seq i (stop - i))))%Q (seq 0 rows)
      else w c in
    Ok (w', st').

  Fixpoint blocks_loop (block_size : nat) (wst : matrix * gstate) (starts : list nat) : result (matrix * gstate) :=
    match starts with
    | [] => Ok wst
    | i :: is => let? wst' := block_step block_size wst i in blocks_loop block_size wst' is
    end.
End Loop.

(** [range(0, n, step)], step > 0 *)
Definition range_step (n step : nat) : list nat := map (fun k => k * step) (seq 0 ((n + step - 1) / step)).

(** (rows, columns) of the flattened weight: gptq.py:65-72 *)
Definition flat_shape (l : layer) (s : list nat) : result (nat * nat) :=
  match l, s with
  | Linear, [o; i] => Ok (o, i)
  | Conv2d _, [o; i; kh; kw] => Ok (o, i * kh * kw)
  | _, _ => Err RuntimeError
  end.

(** gptq.py:50-63 *)
Definition check_granularity (l : layer) (g : granularity) : result unit :=
  match g, l with
  | PerTensor, _ => Ok tt
  | PerChannel [0%Z], _ => Ok tt
  | _, Conv2d _ => Err NotImplementedError
  | PerBlock _ _ _ false, Linear => Err ValueError
  | _, _ => Ok tt
  end.

Section Top.
  (** [estimate_ranges(weight_quantizer, smoothed_minmax)] on the flattened weight *)
  Variable estimate : quantizer -> tensor Q -> result quantizer.
  (** [torch.argsort(diag, descending=True)] *)
  Variable argsort : list Q -> list nat.
  (** gptq.py:378-380: the Cholesky factorisations *)
  Variable cholesky : nat -> (nat -> nat -> Q) -> result (nat -> nat -> Q).

  (** gptq.py:24-146 [gptq].  [wq] is None if the weight quantizer is no LinearQuantizer.
      [fmt] is the storage format of the weight.  The result is the weight, the quantizer
      and the caller's tensors. *)
  Definition gptq (l : layer) (fmt : format) (weight : tensor Q) (wq : option quantizer) (s : store)
      (ds : list (list nat)) (block_size : Z) (perc_damp : Q) (actorder : bool)
      : result (tensor Q * quantizer * store) :=
    match wq with
    | None => Err ValueError
    | Some q0 =>
        let? _ := check_granularity l (q_gran q0) in
        let? (rows, cols) := flat_shape l (shape weight) in
        let? q := estimate q0 (mkT [rows; cols] (data weight)) in
        let? (h, s') := calculate_hessian l cols s ds in
        let order := if actorder then argsort (map (fun i => h i i) (seq 0 cols)) else seq 0 cols in
        let at_order k := nth k order 0 in
        let w : matrix := fun p => map (fun r => nth (r * cols + at_order p) (data weight) 0%Q) (seq 0 rows) in
        let? hinv := cholesky cols (dampen cols perc_damp (fun i j => h (at_order i) (at_order j))) in
        let? grp := groups_of q rows cols actorder in
        if (block_size =? 0)%Z then Err ValueError else
        let zeros : matrix := fun _ => repeat 0%Q rows in
        let st := mkG zeros zeros zeros q in
        let? (_, st') := blocks_loop rows cols order hinv grp (Z.to_nat block_size) (w, st)
                           (if (block_size <? 0)%Z then [] else range_step cols (Z.to_nat block_size)) in
        let position c := match index_of c order with Some k => k | None => 0 end in
        Ok (mkT (shape weight)
              (flat_map (fun r => map (fun c => cast fmt (get (g_quant st') r (position c))) (seq 0 cols)) (seq 0 rows)),
            g_q st', s')
    end.
End Top.
