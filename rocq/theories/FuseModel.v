(** Model of fastforward/quantization/fuse.py: writing quantize-dequantize (QDQ) values
    into the weights of a model.

    Memory is a map from addresses to exact rationals; a weight parameter is a view: the
    addresses of its elements in row-major order (so strided, transposed and overlapping
    views of one storage can be expressed).  Quantizers are functions from tensors to
    QDQ values; what they read besides the weight (scale, offset, overrides) does not
    change while fusing. *)
From Coq Require Import String.
From Verif Require Import Prelude TilingModel AffineModel.
From Coq Require Import QArith Qround Qabs.
Local Open Scope nat_scope.

(** ** Floating point formats *)

(** Largest [e] with [2 ^ e <= |x|], for [x] not zero. *)
Definition exponent (x : Q) : Z :=
  let e := (Z.log2 (Z.abs (Qnum x)) - Z.log2 (Zpos (Qden x)))%Z in
  if Qle_bool (Qpower 2 e) (Qabs x) then e else (e - 1)%Z.

(** Storage formats of a weight: binary floating point with [p] significant bits, round
    to nearest even.  Overflow and subnormal numbers are not modelled.  [Exact] is a
    format that represents every value. *)
Inductive format := Exact | Bits (p : positive).

(** [tensor.to(dtype)], one element *)
Definition cast (d : format) (x : Q) : Q :=
  match d with
  | Exact => x
  | Bits p =>
      if Qeq_bool x 0 then 0%Q else
      let unit := Qpower 2 (exponent x - Zpos p + 1) in
      (QofZ (round_half_even (x / unit)) * unit)%Q
  end.

(** A LinearQuantizer's parameters: nn/linear_quantizer.py:147-173, 228-236. *)
Record affine := mkAffine { a_scale : list Q; a_offset : option (list Q); a_tile : tile_arg;
                            a_bits : positive; a_out : dtype }.

(** [quantizer(weight).dequantize()] for a LinearQuantizer: affine/function.py:119-135 and
    184-195.  The result has the dtype of the weight ([dequantize_dtype]).  Arithmetic
    before the final cast is exact here. *)
Definition affine_qdq (d : format) (a : affine) (w : tensor Q) : result (tensor Q) :=
  let? z := quantize_by_tile w (a_scale a) (a_tile a) (a_bits a) (a_out a) (a_offset a) in
  let? v := dequantize_by_tile z (a_scale a) (a_tile a) (a_offset a) in
  Ok (tmap (cast d) v).

(** ** The model being fused *)

(** Result of [quantizer(weight).dequantize()]: the weight object itself (a disabled
    quantizer) or a new tensor. *)
Inductive outcome := Same | New (t : tensor Q).

Definition value (w : tensor Q) (o : outcome) : tensor Q := match o with Same => w | New t => t end.

Definition memory := nat -> Q.

(** A parameter: [data_ptr()], [shape] and the addresses of its elements. *)
Record view := mkView { ptr : nat; vshape : list nat; addrs : list nat }.

Definition read (m : memory) (v : view) : tensor Q := mkT (vshape v) (map m (addrs v)).

(** [weight.copy_(t)] (same shape) *)
Definition write (m : memory) (v : view) (t : tensor Q) : memory :=
  fold_left (fun m p => fun a => if a =? fst p then snd p else m a) (combine (addrs v) (data t)) m.

(** Children of a module: quantizers by identity, stubs (which keep the metadata of the
    quantizer they replace) and other modules. *)
Inductive child := CQuant (q : nat) | CStub (metadata_of : nat) | COther (m : nat).

Record module := mkMod { weight : option view; children : list (string * child) }.

(** A weight-fuse target, fuse.py:36: module, its weight (the attribute is looked up
    when it is used; no step of this file rebinds it) and quantizer. *)
Record target := mkTarget { t_mod : nat; t_weight : view; t_quant : nat }.

Record state := mkState { mem : memory; mods : list module }.

Section Fuse.
  (** [quantizer(weight).dequantize()] of the quantizer with an identity. *)
  Variable call : nat -> tensor Q -> result outcome.

  (** fuse.py:72-89 [ConventionDiscovery.__call__] on the quantizers found by the mpath
      search: pairs of a quantizer child and its parent module. *)
  Definition convention (ms : list module) (found : list (nat * child)) : list target :=
    flat_map (fun r => match r with
      | (p, CQuant q) =>
          match nth_error ms p with
          | Some m => match weight m with Some w => [mkTarget p w q] | None => [] end
          | None => []
          end
      | (_, _) => []
      end) found.

  (** fuse.py:132-135 [_stub_target]: the first child that is the quantizer. *)
  Fixpoint stub_child (q : nat) (cs : list (string * child)) : list (string * child) :=
    match cs with
    | [] => []
    | (n, c) :: cs' =>
        match c with
        | CQuant q' => if q' =? q then (n, CStub q) :: cs' else (n, c) :: stub_child q cs'
        | _ => (n, c) :: stub_child q cs'
        end
    end.

  Definition stub_target (ms : list module) (p q : nat) : list module :=
    map (fun '(i, m) => if i =? p then mkMod (weight m) (stub_child q (children m)) else m)
        (combine (seq 0 (length ms)) ms).

  (** fuse.py:107-121 [_fuse_target] *)
  Definition fuse_target (stub : bool) (st : state) (t : target) : result state :=
    let? o := call (t_quant t) (read (mem st) (t_weight t)) in
    match o with
    | Same => Ok st
    | New v =>
        Ok (mkState (write (mem st) (t_weight t) v)
              (if stub then stub_target (mods st) (t_mod t) (t_quant t) else mods st))
    end.

  (** torch.equal *)
  Definition torch_equal (a b : tensor Q) : bool :=
    size_eqb (shape a) (shape b) && (length (data a) =? length (data b)) &&
    forallb (fun '(x, y) => Qeq_bool x y) (combine (data a) (data b)).

  (** fuse.py:164: the dictionary key *)
  Definition same_key (a b : view) : bool := (ptr a =? ptr b) && size_eqb (vshape a) (vshape b).

  (** fuse.py:161-164: groups by key, in order of first occurrence *)
  Fixpoint add_group (t : target) (gs : list (list target)) : list (list target) :=
    match gs with
    | [] => [[t]]
    | g :: gs' =>
        match g with
        | h :: _ => if same_key (t_weight h) (t_weight t) then (g ++ [t]) :: gs' else g :: add_group t gs'
        | [] => g :: add_group t gs'
        end
    end.

  Definition groups (ts : list target) : list (list target) := fold_left (fun gs t => add_group t gs) ts [].

  (** fuse.py:178-196: every quantizer is applied to the weight of the group's first target *)
  Fixpoint check_members (w : tensor Q) (reference : option (tensor Q)) (g : list target) : result unit :=
    match g with
    | [] => Ok tt
    | t :: g' =>
        let? o := call (t_quant t) w in
        match reference with
        | None => check_members w (Some (value w o)) g'
        | Some r => if torch_equal r (value w o) then check_members w reference g' else Err QuantizationError
        end
    end.

  (** fuse.py:168-178 *)
  Definition check_group (m : memory) (g : list target) : result unit :=
    match g with
    | [] => Ok tt
    | [_] => Ok tt
    | t :: _ => check_members (read m (t_weight t)) None g
    end.

  (** fuse.py:138-196 [_check_tied_weight_targets] *)
  Definition check_tied (m : memory) (ts : list target) : result unit :=
    rmap (fun _ => tt) (rmapM (check_group m) (groups ts)).

  Fixpoint fuse_all (stub : bool) (st : state) (ts : list target) : result state :=
    match ts with
    | [] => Ok st
    | t :: ts' => let? st' := fuse_target stub st t in fuse_all stub st' ts'
    end.

  (** fuse.py:199-243 [fuse_qdq_weights], [targets] = list(discovery(model)) *)
  Definition fuse_qdq_weights (stub : bool) (st : state) (ts : list target) : result state :=
    let? _ := check_tied (mem st) ts in
    fuse_all stub st ts.

  (** fuse.py:269-299 [stub_weight_quantizers] *)
  Definition stub_weight_quantizers (st : state) (ts : list target) : state :=
    mkState (mem st) (fold_left (fun ms t => stub_target ms (t_mod t) (t_quant t)) ts (mods st)).

  (** What a module computes with in its forward pass (nn/linear.py:38 and the other
      quantized modules): the result of its weight quantizer, registered under [name];
      a stub returns the weight (nn/quantizer.py, outside strict mode). *)
  Definition forward_weight (st : state) (m : module) (name : string) : result (tensor Q) :=
    match weight m with
    | None => Err AttributeError
    | Some w =>
        match find (fun c => String.eqb (fst c) name) (children m) with
        | Some (_, CQuant q) => rmap (value (read (mem st) w)) (call q (read (mem st) w))
        | Some (_, CStub _) => Ok (read (mem st) w)
        | _ => Err AttributeError
        end
    end.
End Fuse.
