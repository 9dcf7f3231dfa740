(** Vocabulary for C107, C108 and C109: attention over exact numbers. *)
From Verif Require Import Prelude SdpModel.
From Coq Require Import QArith.
Local Open Scope nat_scope.
Local Open Scope list_scope.

Fixpoint qsum (f : nat -> Q) (n : nat) : Q := match n with 0 => 0 | S n' => qsum f n' + f n' end.
(** Attention of one row: [logit j] is the score of key [j], or nothing if it is masked; [v j] is the value of key [j].
    The mean of the values with weights [exp (logit j)], and 0 if every key is masked. *)
Definition attend (exp : Q -> Q) (S : nat) (logit : nat -> option Q) (v : nat -> Q) : Q :=
  let weight j := match logit j with Some x => exp x | None => 0%Q end in
  if forallb (fun j => match logit j with Some _ => false | None => true end) (seq 0 S) then 0%Q
  else (qsum (fun j => weight j * v j) S / qsum weight S)%Q.

(** Tensors of finite numbers *)
Definition holds (t : tensor) (f : nat -> nat -> nat -> Q) : Prop :=
  forall h i j, h < t_heads t -> i < t_rows t -> j < t_cols t -> t_at t h i j = Fin (f h i j).
Definition equals (t : tensor) (heads rows cols : nat) (f : nat -> nat -> nat -> Q) : Prop :=
  t_heads t = heads /\ t_rows t = rows /\ t_cols t = cols /\
  forall h i j, h < heads -> i < rows -> j < cols -> exists y, t_at t h i j = Fin y /\ (y == f h i j)%Q.

(** What a mask says about key [j] for row [i] of head [h]: masked, or a number to add. *)
Definition says (m : option mask) (is_causal : bool) (h i j : nat) : option Q :=
  match m with
  | Some (MBool hs rs cs p) => if p (bidx hs h) (bidx rs i) (bidx cs j) then Some 0%Q else None
  | Some (MFloat t) => match bat t h i j with Fin x => Some x | _ => None end
  | None => if is_causal && (i <? j) then None else Some 0%Q
  end.
Definition size_fits (n m : nat) : Prop := n = 1 \/ n = m.
Definition mask_fits (m : option mask) (is_causal : bool) (H L S : nat) : Prop :=
  match m with
  | None => True
  | Some (MBool hs rs cs _) => is_causal = false /\ size_fits hs H /\ size_fits rs L /\ size_fits cs S
  | Some (MFloat t) => is_causal = false /\ size_fits (t_heads t) H /\ size_fits (t_rows t) L /\ size_fits (t_cols t) S /\ forall h i j, is_nan (t_at t h i j) = false
  end.
(** Sizes: [H] heads, [L] rows and [E] columns of the query, [S] keys, [V] columns of the value. *)
Definition sizes (query key value : tensor) (gqa : bool) : Prop :=
  t_cols query = t_cols key /\ t_rows key = t_rows value /\ t_heads key = t_heads value /\
  if gqa then 0 < t_heads key /\ exists n, 0 < n /\ t_heads query = t_heads key * n else t_heads key = t_heads query.
(** The head of key and value for head [h] of the query: heads are shared by neighbours. *)
Definition kv_head (query key : tensor) (gqa : bool) (h : nat) : nat := if gqa then h / (t_heads query / t_heads key) else h.
Definition no_quantizers : quantizers := mkQs None None None None None None None None.
(** The number by which scores are multiplied, before it is split into two square roots. *)
Definition scale_is (root : Q -> Q) (scale : option Q) (E : nat) (s : Q) : Prop :=
  (0 <= s)%Q /\ match scale with Some x => s = x | None => ~ (root (inject_Z (Z.of_nat E)) == 0)%Q /\ s = (1 / root (inject_Z (Z.of_nat E)))%Q end.
Definition dot (a b : nat -> Q) (n : nat) : Q := qsum (fun k => a k * b k)%Q n.
(** The score of key [j] of head [g] for row [i] of head [h] of the query, with what the mask adds. *)
Definition logits (root : Q -> Q) (s : Q) (q k : nat -> nat -> nat -> Q) (E : nat) (m : option mask) (is_causal : bool) (g h i j : nat) : option Q :=
  option_map (fun b => root s * root s * dot (q h i) (k g j) E + b)%Q (says m is_causal h i j).
(** The same where masked keys get a penalty [c] instead. *)
Definition penalised (root : Q -> Q) (s : Q) (q k : nat -> nat -> nat -> Q) (E : nat) (m : option mask) (is_causal : bool) (c : Q) (g h i j : nat) : Q :=
  (root s * root s * dot (q h i) (k g j) E + match says m is_causal h i j with Some b => b | None => c end)%Q.

(** Programs that make a context manager only to enter it at once. *)
Fixpoint inline (p : uprog) : Prop :=
  match p with UDone | URaise => True | UGet rest => inline rest | UWith _ body rest => inline body /\ inline rest | UNew _ _ _ | UEnter _ _ _ => False end.
(** What such a program reads: the dtype of the innermost [with] around. *)
Fixpoint reads (s : option nat) (p : uprog) : list (option nat) * bool :=
  match p with
  | UGet rest => (s :: fst (reads s rest), snd (reads s rest))
  | UWith a body rest =>
      let inside := reads (match a with DType d => Some d | DTrue => Some 0 | DFalse => None end) body in
      if snd inside then inside else (fst inside ++ fst (reads s rest), snd (reads s rest))
  | URaise => ([], true)
  | _ => ([], false)
  end.

(** A step: a tensor as described, passed through the quantizer, if there is one. *)
Definition stage (q : option quantizer) (described : tensor -> Prop) (post : tensor) : Prop :=
  exists pre, described pre /\ match q with Some f => f pre = Ok post | None => post = pre end.
Definition entries (t : tensor) (H R C : nat) (f : nat -> nat -> nat -> SdpModel.num) : Prop :=
  t_heads t = H /\ t_rows t = R /\ t_cols t = C /\ forall h i j, t_at t h i j = f h i j.
(** A number of a tensor that is repeated where it has one head, row or column. *)
Definition repeated (t : tensor) (h i j : nat) : SdpModel.num :=
  t_at t (if t_heads t =? 1 then 0 else h) (if t_rows t =? 1 then 0 else i) (if t_cols t =? 1 then 0 else j).
Definition common (a b : nat) : nat := if a =? 1 then b else a.
Definition product (a b : tensor) (t : tensor) : Prop :=
  t_cols a = t_rows b /\ entries t (common (t_heads a) (t_heads b)) (t_rows a) (t_cols b) (fun h i j =>
    nsum (fun k => nmul (t_at a (if t_heads a =? 1 then 0 else h) i k) (t_at b (if t_heads b =? 1 then 0 else h) k j)) (t_cols a)).
Definition sum (a b : tensor) (t : tensor) : Prop :=
  entries t (common (t_heads a) (t_heads b)) (common (t_rows a) (t_rows b)) (common (t_cols a) (t_cols b)) (fun h i j => nadd (repeated a h i j) (repeated b h i j)).
(** What is added for the mask. *)
Definition bias (m : option mask) (is_causal : bool) (L S : nat) (neg_inf : SdpModel.num) (t : tensor) : Prop :=
  match m with
  | Some (MBool h r c p) => is_causal = false /\ entries t h r c (fun h i j => if p h i j then Fin 0 else neg_inf)
  | Some (MFloat u) => is_causal = false /\ t = u
  | None => entries t 1 L S (fun _ i j => if is_causal && (i <? j) then neg_inf else Fin 0)
  end.
(** Weights of a row. *)
Definition weighted (exp : Q -> Q) (neg_inf : SdpModel.num) (x : tensor) (t : tensor) : Prop :=
  let hidden a := match neg_inf with NInf => is_neginf a | _ => nle a neg_inf end in
  let e a := match a with Fin x => Fin (exp x) | NInf => Fin 0 | NaN => NaN end in
  t_heads t = t_heads x /\ t_rows t = t_rows x /\ t_cols t = t_cols x /\ forall h i j,
  ((forall k, k < t_cols x -> hidden (t_at x h i k) = true) -> t_at t h i j = Fin 0) /\
  (forall k0, k0 < t_cols x -> hidden (t_at x h i k0) = false ->
   ((forall k, k < t_cols x -> is_neginf (t_at x h i k) = true) -> t_at t h i j = NaN) /\
   (forall k1 z y, k1 < t_cols x -> is_neginf (t_at x h i k1) = false -> e (t_at x h i j) = Fin z -> nsum (fun k => e (t_at x h i k)) (t_cols x) = Fin y -> ~ (y == 0)%Q -> t_at t h i j = Fin (z / y)%Q)).
