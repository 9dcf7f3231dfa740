(** Specification vocabulary for exported encodings. *)
From Coq Require Import String.
From Verif Require Import Prelude TilingModel TilingSpec AffineModel AffineSpec EncModel.
From Coq Require Import QArith Qabs.
Local Open Scope nat_scope.
Local Open Scope list_scope.

(** ** Decoding *)

(** QNN's reading of an unsigned integer [q] with scale [s] and (negative) offset [o]. *)
Definition qnn_decode (s o : Q) (q : Z) : Q := (s * (inject_Z q + o))%Q.

(** The unsigned integer stored for FastForward's signed code [z] of [b] bits. *)
Definition stored (b : positive) (z : Z) : Z := (z + 2 ^ (Zpos b - 1))%Z.

(** [e] holds the parameters of a quantizer with [b] bits, scales [ss], optional offsets
    [oo] and tile size [tile], for data of shape [shape]. *)
Record describes (e : quant_params) (b : positive) (ss : list Q) (oo : option (list Q))
    (shape tile : list nat) : Prop := {
  d_scale : q_scale e = Vec ss;
  d_offset : q_offset e = option_map Vec oo;
  d_bits : q_bits e = IntBits b;
  d_shape : q_shape e = Some shape;
  d_tile : q_tile e = Some tile;
  d_positive : Forall (fun n => 0 < n) shape;
  d_divides : tile_divides shape tile;
  d_scales : length ss = prod (grid shape tile);
  d_offsets : forall os, oo = Some os -> length os = length ss
}.

(** All (no) offsets are zero, as integers. *)
Definition offsets_zero (oo : option (list Q)) : Prop :=
  forall os, oo = Some os -> Forall (fun o => round_half_even o = 0%Z) os.
Definition offsets_nonzero (oo : option (list Q)) : Prop :=
  exists os, oo = Some os /\ Forall (fun o => round_half_even o <> 0%Z) os.

(** Position, in the lists of a 1.0.0 entry, of the parameters of the element at [idx]: one
    parameter per tensor, one per index of the first dimension, or one per block in row-major
    order.  A block encoding does not record its axis; the blocks run along dimension 1 if
    the quantizer's tiles have one row, else along dimension 0. *)
Definition v1_position (k : v1_kind) (shape tile idx : list nat) : nat :=
  match k with
  | K_per_tensor => 0
  | K_per_channel => nth 0 idx 0
  | K_per_block bs =>
      if nth 0 tile 0 =? 1 then nth 0 idx 0 * (nth 1 shape 0 / bs) + nth 1 idx 0 / bs
      else (nth 0 idx 0 / bs) * nth 1 shape 0 + nth 1 idx 0
  end.

(** Position in a list of legacy entries: one entry, or one per index of dimension 0. *)
Definition legacy_position (n : nat) (idx : list nat) : nat := if n =? 1 then 0 else nth 0 idx 0.

(** Value of a 2.0.0 parameter for the element at [idx]: a number for all, a list along
    [axis], or nested lists in which dimension [axis] counts blocks and dimensions of size 1
    are broadcast. *)
Definition v2_coord (axis : Z) (bs : nat) (k i n : nat) : nat :=
  if (Z.of_nat k =? axis)%Z then i / bs else if n =? 1 then 0 else i.
Fixpoint v2_coords (axis : Z) (bs k : nat) (idx s : list nat) : list nat :=
  match idx, s with
  | i :: idx', n :: s' => v2_coord axis bs k i n :: v2_coords axis bs (S k) idx' s'
  | _, _ => []
  end.
Definition v2_value (x : v2_entry) (y : nested Q) (idx : list nat) : option Q :=
  match y with
  | Single a => Some a
  | Many l => match v2_axis x with Some a => nth_error l (nth (Z.to_nat a) idx 0) | None => None end
  | Nested t =>
      match v2_axis x, v2_block x with
      | Some a, Some bs => at_index t (v2_coords a bs 0 idx (shape t))
      | _, _ => None
      end
  end.

(** Reading of a 2.0.0 entry: signed codes without zero point, unsigned codes with one. *)
Definition v2_decode (x : v2_entry) (idx : list nat) (z : Z) (v : Q) : Prop :=
  exists s, v2_value x (v2_scale x) idx = Some s /\
    match v2_zero_point x with
    | None => v2_unsigned x = false /\ (v == s * inject_Z z)%Q
    | Some y => exists o, v2_value x y idx = Some o /\ v2_unsigned x = true /\
                  (v == qnn_decode s o (stored (v2_bw x) z))%Q
    end.

(** ** LPBQ *)

(** The two layouts of blocks in a matrix: blocks along the rows (dimension 1, one channel
    per row) or along the columns. *)
Inductive layout := Row_blocks | Column_blocks.

(** Shape and tile of a quantizer with [chans] channels of [blks] blocks of size [bs]. *)
Definition lpbq_shape (l : layout) (chans blks bs : nat) (rest : list nat) : list nat :=
  match l with Row_blocks => chans :: blks * bs :: rest | Column_blocks => blks * bs :: chans :: rest end.
Definition lpbq_tile (l : layout) (bs : nat) (rest : list nat) : list nat :=
  match l with Row_blocks => 1 :: bs :: rest | Column_blocks => bs :: 1 :: rest end.

(** Position of block [j] of channel [c] in the list of block scales. *)
Definition block_at (l : layout) (chans blks c j : nat) : nat :=
  match l with Row_blocks => c * blks + j | Column_blocks => j * chans + c end.

(** Channel of an element, and its block in the channel. *)
Definition channel_of (l : layout) (idx : list nat) : nat :=
  match l with Row_blocks => nth 0 idx 0 | Column_blocks => nth 1 idx 0 end.
Definition block_of (l : layout) (bs : nat) (idx : list nat) : nat :=
  match l with Row_blocks => nth 1 idx 0 / bs | Column_blocks => nth 0 idx 0 / bs end.

(** The integers [ints] and channel scales [floats] approximate the block scales [ss] of
    [chans] channels with [blks] blocks each, using [b] bits per block: every integer is in
    [1, 2^b], the error is at most half the channel scale (less than the channel scale for
    blocks whose scale is below that half), and the largest block scale is exact. *)
Definition compresses (b : positive) (l : layout) (chans blks : nat) (ss : list Q) (ints : list Z) (floats : list Q) : Prop :=
  length ss = chans * blks /\ length ints = chans * blks /\ length floats = chans /\
  forall c, c < chans -> exists S, nth_error floats c = Some S /\ (0 < S)%Q /\
    (exists j s, j < blks /\ nth_error ss (block_at l chans blks c j) = Some s /\
       nth_error ints (block_at l chans blks c j) = Some (2 ^ Zpos b)%Z /\ (inject_Z (2 ^ Zpos b) * S == s)%Q /\
       forall j' s', j' < blks -> nth_error ss (block_at l chans blks c j') = Some s' -> (s' <= s)%Q) /\
    forall j, j < blks -> exists s n, nth_error ss (block_at l chans blks c j) = Some s /\
       nth_error ints (block_at l chans blks c j) = Some n /\ (1 <= n <= 2 ^ Zpos b)%Z /\
       ((Qabs (inject_Z n * S - s) <= S / 2)%Q \/ (s <= S / 2)%Q /\ n = 1%Z /\ (Qabs (inject_Z n * S - s) < S)%Q).

(** ** Handlers *)

Inductive op := Add (name : string) (e : quant_params) (is_param : bool) | Clear.

(** A call that raises leaves the handler as it was. *)
Definition step (h : handler) (o : op) : handler :=
  match o with
  | Add n e p => match add_encoding h n e p with Ok h' => h' | Err _ => h end
  | Clear => clear h
  end.
Definition run (h : handler) (ops : list op) : handler := fold_left step ops h.

(** New handlers. *)
Inductive fresh : handler -> Prop :=
| fresh_legacy : fresh (HLegacy legacy_init)
| fresh_v1 l : fresh (HV1 l v1_init)
| fresh_v2 : fresh (HV2 v2_init).

(** The categories of two calls coincide; 2.0.0 has only one category. *)
Definition same_category (h : handler) (p p' : bool) : Prop :=
  match h with HV2 _ => True | _ => p = p' end.

(** The calls after the last [Clear]. *)
Fixpoint since_clear (ops : list op) : list op :=
  match ops with
  | [] => []
  | o :: ops' => if existsb (fun o => match o with Clear => true | _ => false end) ops' then since_clear ops'
                 else match o with Clear => ops' | _ => o :: ops' end
  end.

(** [e], [p] are the arguments of the first call adding [name] in category [q] that does not
    raise on a new handler [h0]. *)
Definition first_added (h0 : handler) (calls : list op) (name : string) (q : bool) (e : quant_params) (p : bool) : Prop :=
  exists pre post, calls = pre ++ Add name e p :: post /\ same_category h0 p q /\
    (exists h, add_encoding h0 name e p = Ok h) /\
    forall e' p', In (Add name e' p') pre -> same_category h0 p' q -> exists x, add_encoding h0 name e' p' = Err x.

(** The symmetry flag of an entry (LPBQ entries are always flagged symmetric). *)
Definition flagged (x : any_entry) (sym : bool) : Prop :=
  match x with
  | ELegacy es => Forall (fun en => le_symmetric en = sym) es
  | EV1 (V1Plain _ s _ _ _) => s = sym
  | EV1 (V1Lpbq _) => sym = true
  | EV2 x => v2_unsigned x = negb sym
  end.

(** The annotated objects of a graph in the order in which they are exported: initializers
    (parameters), inputs that are not initializers, outputs of nodes, outputs of the graph. *)
Definition annotated (g : proto) : list (string * metadata * bool) :=
  let named p := flat_map (fun '(n, m) => match m with Some m => [(n, m, p)] | None => [] end) in
  named true (g_init g) ++
  named false (filter (fun '(n, _) => negb (existsb (String.eqb n) (map fst (g_init g)))) (g_input g)) ++
  flat_map (fun '(m, ns) => match m with Some m => map (fun n => (n, m, false)) ns | None => [] end) (g_node g) ++
  named false (g_output g).
