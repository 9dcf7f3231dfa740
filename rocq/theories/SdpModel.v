(** Models scaled dot product attention: fastforward/nn/functional/custom/sdpa.py. *)
From Verif Require Import Prelude.
From Coq Require Import QArith.
Local Open Scope nat_scope.
Local Open Scope list_scope.

(** Numbers in tensors.  There is no plus infinity: a product with an infinity, which can only arise from infinite
    inputs, counts as not a number. *)
Inductive num := Fin (x : Q) | NInf | NaN.
Definition nadd (a b : num) : num :=
  match a, b with Fin x, Fin y => Fin (x + y) | NaN, _ | _, NaN => NaN | _, _ => NInf end.
Definition nmul (a b : num) : num := match a, b with Fin x, Fin y => Fin (x * y) | _, _ => NaN end.
Definition is_nan (a : num) : bool := match a with NaN => true | _ => false end.
(** [torch.Tensor.isneginf], [a <= b] *)
Definition is_neginf (a : num) : bool := match a with NInf => true | _ => false end.
Definition nle (a b : num) : bool := match a, b with NaN, _ | _, NaN => false | NInf, _ => true | Fin _, NInf => false | Fin x, Fin y => Qle_bool x y end.

(** A tensor with head, row and column; other batch dimensions are as heads, and are left out.  Numbers are exact, so
    that changes of dtype (219-227, 295) change nothing. *)
Record tensor := mkT { t_quant : bool; t_heads : nat; t_rows : nat; t_cols : nat; t_at : nat -> nat -> nat -> num }.
Definition quantizer := tensor -> result tensor.
Fixpoint nsum (f : nat -> num) (n : nat) : num := match n with 0 => Fin 0 | S n' => nadd (nsum f n') (f n') end.
(** Broadcasting *)
Definition bdim (a b : nat) : result nat := if a =? b then Ok a else if a =? 1 then Ok b else if b =? 1 then Ok a else Err RuntimeError.
Definition bidx (n i : nat) : nat := if n =? 1 then 0 else i.
Definition bat (t : tensor) (h i j : nat) : num := t_at t (bidx (t_heads t) h) (bidx (t_rows t) i) (bidx (t_cols t) j).

(** torch functions *)
Definition scaled (t : tensor) (x : Q) : tensor := mkT false (t_heads t) (t_rows t) (t_cols t) (fun h i j => nmul (t_at t h i j) (Fin x)).
Definition transpose (t : tensor) : tensor := mkT (t_quant t) (t_heads t) (t_cols t) (t_rows t) (fun h i j => t_at t h j i).
Definition matmul (a b : tensor) : result tensor :=
  if t_cols a =? t_rows b then
    let? h := bdim (t_heads a) (t_heads b) in
    Ok (mkT false h (t_rows a) (t_cols b) (fun h i j => nsum (fun k => nmul (t_at a (bidx (t_heads a) h) i k) (t_at b (bidx (t_heads b) h) k j)) (t_cols a)))
  else Err RuntimeError.
Definition tadd (a b : tensor) : result tensor :=
  let? h := bdim (t_heads a) (t_heads b) in
  let? r := bdim (t_rows a) (t_rows b) in
  let? c := bdim (t_cols a) (t_cols b) in
  Ok (mkT false h r c (fun h i j => nadd (bat a h i j) (bat b h i j))).
(** [repeat_interleave(n, -3)] *)
Definition repeat_heads (t : tensor) (n : nat) : tensor := mkT (t_quant t) (t_heads t * n) (t_rows t) (t_cols t) (fun h i j => t_at t (h / n) i j).

(** Masks: of booleans, or numbers to add (which may be quantized) *)
Inductive mask := MBool (heads rows cols : nat) (at_ : nat -> nat -> nat -> bool) | MFloat (t : tensor).

Record quantizers := mkQs {
  q_scores : option quantizer; q_mask : option quantizer; q_masked : option quantizer; q_weights : option quantizer;
  q_query : option quantizer; q_key : option quantizer; q_dropout : option quantizer; q_output : option quantizer }.

Section Sdpa.
  (** [exp]; [math.sqrt] of a number that is not negative; dropout with a probability that is not 0, whatever it draws *)
  Variable exp : Q -> Q.
  Variable root : Q -> Q.
  Variable drop : Q -> tensor -> tensor.

  (** The fallback of an operator all of whose tensors must be quantized (generate.py, see OpsModel and C104) *)
  Definition guarded (strict : bool) (inputs : list tensor) (q : option quantizer) (compute : result tensor) : result tensor :=
    if strict && match q with None => true | Some _ => false end then Err QuantizationError
    else if strict && existsb (fun t => negb (t_quant t)) inputs then Err QuantizationError
    else let? t := compute in match q with Some f => f t | None => Ok t end.

  Definition nexp (a : num) : num := match a with Fin x => Fin (exp x) | NInf => Fin 0 | NaN => NaN end.
  Definition ndiv (a b : num) : num := match a, b with Fin x, Fin y => if Qeq_bool y 0 then NaN else Fin (x / y) | _, _ => NaN end.
  Definition nall (p : nat -> bool) (n : nat) : bool := forallb p (seq 0 n).
  (** softmax along columns: a row of minus infinities gives nans *)
  Definition softmax (t : tensor) : tensor :=
    mkT false (t_heads t) (t_rows t) (t_cols t) (fun h i j =>
      if nall (fun k => is_neginf (t_at t h i k)) (t_cols t) then NaN
      else ndiv (nexp (t_at t h i j)) (nsum (fun k => nexp (t_at t h i k)) (t_cols t))).

  (** 299-334 *)
  Definition attn_bias (m : option mask) (is_causal : bool) (L S : nat) (neg_inf : num) (q : option quantizer) : result tensor :=
    let? bias :=
      match m, is_causal with
      | Some _, true => Err ValueError
      | Some (MBool h r c p), false => Ok (mkT false h r c (fun h i j => if p h i j then Fin 0 else neg_inf))
      | Some (MFloat t), false => Ok t
      | None, true => Ok (mkT false 1 L S (fun _ i j => if j <=? i then Fin 0 else neg_inf))
      | None, false => Ok (mkT false 1 L S (fun _ _ _ => Fin 0))
      end in
    match q with Some f => f bias | None => Ok bias end.
  (** 337-360 *)
  Definition safe_softmax (t : tensor) (q : option quantizer) (neg_inf : num) : result tensor :=
    let out := softmax t in
    let masked a := match neg_inf with NInf => is_neginf a | _ => nle a neg_inf end in
    let res := mkT false (t_heads out) (t_rows out) (t_cols out) (fun h i j =>
      if nall (fun k => masked (t_at t h i k)) (t_cols t) then Fin 0 else t_at out h i j) in
    match q with Some f => f res | None => Ok res end.

  (** 237-239 *)
  Definition scale_factor (scale : option Q) (E : nat) : result Q :=
    let? s := match scale with
              | Some s => Ok s
              | None => let r := root (inject_Z (Z.of_nat E)) in if Qeq_bool r 0 then Err ZeroDivisionError else Ok (1 / r)%Q
              end in
    if Qle_bool 0 s then Ok (root s) else Err ValueError.
  Definition floordiv (a b : nat) : result nat := if b =? 0 then Err ZeroDivisionError else Ok (a / b).
  (** 126-296: scaled_dot_product_attention_math *)
  Definition sdpa_math (query key value : tensor) (m : option mask) (p : Q) (is_causal : bool) (scale : option Q) (gqa : bool) (neg_inf : num) (qs : quantizers) (strict : bool) : result tensor :=
    let? kv :=
      if gqa then
        if strict then Err QuantizationError
        else
          let? nk := floordiv (t_heads query) (t_heads key) in
          let? nv := floordiv (t_heads query) (t_heads value) in
          Ok (repeat_heads key nk, repeat_heads value nv)
      else Ok (key, value) in
    let key' := fst kv in
    let value' := snd kv in
    let? r := scale_factor scale (t_cols query) in
    let? query' := guarded strict [query] (q_query qs) (Ok (scaled query r)) in
    let? key'' := guarded strict [key'] (q_key qs) (Ok (scaled (transpose key') r)) in
    let? scores := guarded strict [query'; key''] (q_scores qs) (matmul query' key'') in
    let? bias := attn_bias m is_causal (t_rows query) (t_rows key) neg_inf (q_mask qs) in
    let? masked := guarded strict [scores; bias] (q_masked qs) (tadd scores bias) in
    let? weights := safe_softmax masked (q_weights qs) neg_inf in
    let? dropped := guarded strict [weights] (q_dropout qs) (Ok (if Qeq_bool p 0 then mkT false (t_heads weights) (t_rows weights) (t_cols weights) (t_at weights) else drop p weights)) in
    guarded strict [dropped; value'] (q_output qs) (matmul dropped value').

  (** 22-121.  [stub]: which quantizers are stubs; [torch]: torch's own function, whose result is not used (67-76);
      [kernel]: another kernel found by the dispatcher *)
  Variable torch : tensor -> tensor -> tensor -> option mask -> Q -> bool -> option Q -> bool -> result tensor.
  Definition active (stub : quantizer -> bool) (q : option quantizer) : bool := match q with Some f => negb (stub f) | None => false end.
  Definition all_quantizers (qs : quantizers) : list (option quantizer) :=
    [q_scores qs; q_mask qs; q_masked qs; q_weights qs; q_query qs; q_key qs; q_dropout qs; q_output qs].
  Definition sdpa (flag_strict flag_fallback : bool) (stub : quantizer -> bool) (kernel : option (result tensor))
      (query key value : tensor) (m : option mask) (p : Q) (is_causal : bool) (scale : option Q) (gqa : bool) (neg_inf : num) (qs : quantizers) (strict fallback : option bool) : result tensor :=
    let strict := match strict with Some b => b | None => flag_strict end in
    let fallback := match fallback with Some b => b | None => flag_fallback end in
    let? _ :=
      if negb strict && fallback && negb (existsb (active stub) (all_quantizers qs))
      then let? _ := torch query key value m p is_causal scale gqa in Ok tt
      else Ok tt in
    match kernel with
    | Some r => r
    | None => sdpa_math query key value m p is_causal scale gqa neg_inf qs strict
    end.
End Sdpa.

(** ** 420-466: the context manager for the dtype *)
(** A dtype, or [None] for no upcasting; [DTrue]/[DFalse]: [sdpa_upcast(True)], [sdpa_upcast(False)] or [(None)].  The
    default is float32, dtype 0. *)
Inductive asked := DType (d : nat) | DTrue | DFalse.
Definition dtype_of (a : asked) : option nat := match a with DType d => Some d | DTrue => Some 0 | DFalse => None end.
(** The object remembers the dtype it found when it was made. *)
Record upcast := mkUp { u_new : option nat; u_old : option nat }.
Inductive uprog := UDone | URaise | UGet (rest : uprog) | UWith (a : asked) (body rest : uprog) | UNew (x : nat) (a : asked) (rest : uprog) | UEnter (x : nat) (body rest : uprog).
Record ures := mkU { u_state : option nat; u_vars : nat -> option upcast; u_failed : bool; u_log : list (option nat) }.
Fixpoint urun (s : option nat) (vars : nat -> option upcast) (p : uprog) : ures :=
  let scoped c body k :=
    let r := body (u_new c) in
    if u_failed r then mkU (u_old c) (u_vars r) true (u_log r)
    else let r' := k (u_old c) (u_vars r) in mkU (u_state r') (u_vars r') (u_failed r') (u_log r ++ u_log r') in
  match p with
  | UDone => mkU s vars false []
  | URaise => mkU s vars true []
  | UGet rest => let r := urun s vars rest in mkU (u_state r) (u_vars r) (u_failed r) (s :: u_log r)
  | UWith a body rest => scoped (mkUp (dtype_of a) s) (fun s' => urun s' vars body) (fun s' v => urun s' v rest)
  | UNew x a rest => urun s (fun y => if y =? x then Some (mkUp (dtype_of a) s) else vars y) rest
  | UEnter x body rest =>
      match vars x with
      | None => mkU s vars true []
      | Some c => scoped c (fun s' => urun s' vars body) (fun s' v => urun s' v rest)
      end
  end.
