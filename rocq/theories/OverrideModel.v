(** Model of [src/fastforward/forward_override.py], of the override part of
    [src/fastforward/nn/quantizer.py], of [src/fastforward/overrides.py] and of
    [src/fastforward/quantization/freeze.py]. *)
From Verif Require Import Prelude.

(** What an override function does when called with an argument (forward_override.py:16-41):
    it may call the function it is given any number of times, read and write state [S]
    (whatever it can reach), return or raise. [a] stands for all the call's arguments. *)
Inductive beh (V S : Type) :=
| BRet (r : result V)
| BCall (a : V) (k : result V -> beh V S)
| BGet (k : S -> beh V S)
| BPut (s : S) (b : beh V S).
Arguments BRet {V S}. Arguments BCall {V S}. Arguments BGet {V S}. Arguments BPut {V S}.

Section Wrapped.
  Context {V S : Type}.
  Local Notation override := (V -> beh V S).
  (** The quantizer's own [quantize] method. *)
  Variable base : V -> S -> result V * S.

  (** Running an override whose callback is [inv]; the callback shares the stack. *)
  Fixpoint run_beh (inv : list override -> V -> S -> result V * S * list override)
      (b : beh V S) (st : list override) (s : S) : result V * S * list override :=
    match b with
    | BRet r => (r, s, st)
    | BCall a k => let '(r, s', st') := inv st a s in run_beh inv (k r) st' s'
    | BGet k => run_beh inv (k s) st s
    | BPut s' b' => run_beh inv b' st s'
    end.

  (** forward_override.py:73-91 [_WrappedOverriddenFn.__call__]: one shared stack (top
      first here; the Python list pops from its end); each call of the callback pops one
      override. [fuel] bounds the stack depth (its length suffices). *)
  Fixpoint invoke (fuel : nat) (st : list override) (a : V) (s : S)
      : result V * S * list override :=
    match st with
    | [] => let (r, s') := base a s in (r, s', [])
    | top :: rest =>
        match fuel with
        | 0 => (Err RuntimeError, s, st)
        | Datatypes.S fuel' => run_beh (invoke fuel') (top a) rest s
        end
    end.
End Wrapped.

(** [sorted(override_map.items())]: by handle id (ids are distinct). *)
Fixpoint insert_sorted {O} (x : nat * O) (l : list (nat * O)) : list (nat * O) :=
  match l with
  | [] => [x]
  | y :: l' => if fst x <=? fst y then x :: y :: l' else y :: insert_sorted x l'
  end.
Fixpoint sort_items {O} (l : list (nat * O)) : list (nat * O) :=
  match l with [] => [] | x :: l' => insert_sorted x (sort_items l') end.

(** forward_override.py:73-83, 94-124 [apply_overrides] and quantizer.py:405-408
    [Quantizer.forward]: [map] is the quantizer's [_quantizer_overrides]. *)
Definition forward {V S O} (sem : O -> V -> beh V S) (base : V -> S -> result V * S)
    (map_ : list (nat * O)) (a : V) (s : S) : result V * S :=
  let stack := rev (map (fun it => sem (snd it)) (sort_items map_)) in
  fst (invoke base (length stack) stack a s).

(** quantizer.py:366-398: registration and removal; forward_override.py:44-70: handle ids
    come from one global counter, a handle knows its quantizer. (Weak references to dead
    quantizers are not modelled.) *)
Record oworld (O : Type) := mkOW { octr : nat; omap : nat -> list (nat * O) }.
Arguments mkOW {O}. Arguments octr {O}. Arguments omap {O}.
Record handle := mkHandle { hq : nat; hid : nat }.

Definition upd {A} (f : nat -> A) (q : nat) (a : A) : nat -> A := fun q' => if q' =? q then a else f q'.

Definition register_override {O} (w : oworld O) (q : nat) (o : O) : oworld O * handle :=
  (mkOW (S (octr w)) (upd (omap w) q (omap w q ++ [(octr w, o)])), mkHandle q (octr w)).
(** [dict.pop(id, None)] *)
Definition pop_id {O} (id : nat) (l : list (nat * O)) : option O * list (nat * O) :=
  (option_map snd (find (fun it => fst it =? id) l), filter (fun it => negb (fst it =? id)) l).
Definition handle_remove {O} (w : oworld O) (h : handle) : option O * oworld O :=
  let (o, l) := pop_id (hid h) (omap w (hq h)) in
  (o, mkOW (octr w) (upd (omap w) (hq h) l)).

(** Histories over any number of quantizers: [HRemove k] removes the k-th handle. *)
Inductive hop_ (O : Type) := HRegister (q : nat) (o : O) | HRemove (k : nat).
Arguments HRegister {O}. Arguments HRemove {O}.
Definition hstep {O} (st : oworld O * list handle) (o : hop_ O) : oworld O * list handle :=
  let (w, hs) := st in
  match o with
  | HRegister q o => let (w', h) := register_override w q o in (w', hs ++ [h])
  | HRemove k => match nth_error hs k with
                 | Some h => (snd (handle_remove w h), hs)
                 | None => st
                 end
  end.
Definition hinit {O} : oworld O * list handle := (mkOW 0 (fun _ => []), []).
Definition hrun {O} (l : list (hop_ O)) : oworld O * list handle := fold_left hstep l hinit.

(** ** overrides.py *)
(** An override object is a [DisableQuantizationOverride] (identified by a number) or one
    given by the user. *)
Inductive ovr (V S : Type) := Dis (d : nat) | User (f : V -> beh V S).
Arguments Dis {V S}. Arguments User {V S}.

(** overrides.py:109-120 [DisableQuantizationOverride.__call__]; [enabled] is the
    object's [_quantization_enabled]. The user's overrides do not touch these flags. *)
Definition osem {V S} (enabled : nat -> bool) (o : ovr V S) : V -> beh V S :=
  match o with
  | Dis d => fun x => if enabled d then BCall x BRet else BRet (Ok x)
  | User f => f
  end.

Record dworld (V S : Type) := mkDW {
  dw : oworld (ovr V S);
  denabled : nat -> bool;       (* per disable-object *)
  dnext : nat;                  (* next disable-object *)
  dstrict : bool;               (* global strict_quantization flag *)
  dst : S }.                    (* state reached by user overrides and quantizers *)
Arguments mkDW {V S}. Arguments dw {V S}. Arguments denabled {V S}. Arguments dnext {V S}.
Arguments dstrict {V S}. Arguments dst {V S}.

Section Disable.
  Context {V S : Type}.
  Variable base : nat -> V -> S -> result V * S.   (* each quantizer's quantize *)

  Definition dforward (w : dworld V S) (q : nat) (x : V) : result V * S :=
    forward (osem (denabled w)) (base q) (omap (dw w) q) x (dst w).
  Definition set_st (w : dworld V S) (s : S) : dworld V S :=
    mkDW (dw w) (denabled w) (dnext w) (dstrict w) s.
  Definition set_enabled (w : dworld V S) (d : nat) (b : bool) : dworld V S :=
    mkDW (dw w) (upd (denabled w) d b) (dnext w) (dstrict w) (dst w).

  (** overrides.py:30-33: a fresh disable-object (not enabled) on each quantizer. *)
  Fixpoint disable_all (w : dworld V S) (model : list nat) : dworld V S * list handle :=
    match model with
    | [] => (w, [])
    | q :: model' =>
        let (ow, h) := register_override (dw w) q (Dis (dnext w)) in
        let w1 := mkDW ow (upd (denabled w) (dnext w) false) (Datatypes.S (dnext w)) (dstrict w) (dst w) in
        let (w2, hs) := disable_all w1 model' in (w2, h :: hs)
    end.
  (** overrides.py:39-41 *)
  Definition remove_all (w : dworld V S) (hs : list handle) : dworld V S :=
    mkDW (fold_left (fun ow h => snd (handle_remove ow h)) hs (dw w))
         (denabled w) (dnext w) (dstrict w) (dst w).

  (** overrides.py:56-60 and 84-97: enable every disable-override of every quantizer; the
      ExitStack holds (object, previous value), most recent first. *)
  Fixpoint enable_ovrs (w : dworld V S) (l : list (nat * ovr V S)) (stack : list (nat * bool))
      : dworld V S * list (nat * bool) :=
    match l with
    | [] => (w, stack)
    | (_, Dis d) :: l' => enable_ovrs (set_enabled w d true) l' ((d, denabled w d) :: stack)
    | (_, User _) :: l' => enable_ovrs w l' stack
    end.
  Fixpoint enable_all (w : dworld V S) (model : list nat) (stack : list (nat * bool))
      : dworld V S * list (nat * bool) :=
    match model with
    | [] => (w, stack)
    | q :: model' => let (w', st') := enable_ovrs w (omap (dw w) q) stack in enable_all w' model' st'
    end.
  (** overrides.py:157-158, unwound by the ExitStack *)
  Definition restore_all (w : dworld V S) (stack : list (nat * bool)) : dworld V S :=
    fold_left (fun w it => set_enabled w (fst it) (snd it)) stack w.

  (** Programs of nested blocks. A model is the list of quantizers that
      [named_quantizers(model)] yields. Quantizer calls may raise. *)
  Inductive oprog :=
  | ODone
  | ORaise
  | OForward (q : nat) (x : V) (rest : oprog)
  | ODisable (model : list nat) (body rest : oprog)
  | OEnable (model : list nat) (body rest : oprog).

  Record ores := mkOR { owd : dworld V S; oexc : bool; olog : list (result V * bool) }.

  (** overrides.py:22-60. The log records each result and the strict flag it was
      computed under. *)
  Fixpoint oexec (w : dworld V S) (p : oprog) : ores :=
    match p with
    | ODone => mkOR w false []
    | ORaise => mkOR w true []
    | OForward q x rest =>
        let (r, s) := dforward w q x in
        let w1 := set_st w s in
        match r with
        | Err _ => mkOR w1 true [(r, dstrict w)]
        | Ok _ => let r2 := oexec w1 rest in mkOR (owd r2) (oexc r2) ((r, dstrict w) :: olog r2)
        end
    | ODisable model body rest =>
        let (w1, hs) := disable_all w model in
        let w1' := mkDW (dw w1) (denabled w1) (dnext w1) false (dst w1) in
        let r1 := oexec w1' body in
        let w2 := remove_all (mkDW (dw (owd r1)) (denabled (owd r1)) (dnext (owd r1)) (dstrict w) (dst (owd r1))) hs in
        if oexc r1 then mkOR w2 true (olog r1)
        else let r2 := oexec w2 rest in mkOR (owd r2) (oexc r2) (olog r1 ++ olog r2)
    | OEnable model body rest =>
        let (w1, stack) := enable_all w model [] in
        let r1 := oexec w1 body in
        let w2 := restore_all (owd r1) stack in
        if oexc r1 then mkOR w2 true (olog r1)
        else let r2 := oexec w2 rest in mkOR (owd r2) (oexc r2) (olog r1 ++ olog r2)
    end.
End Disable.
Arguments oprog : clear implicits.
Arguments ODone {V}. Arguments ORaise {V}. Arguments OForward {V}.
Arguments ODisable {V}. Arguments OEnable {V}.

(** ** freeze.py *)
(** Tensors with identity: a parameter (its value lives in the parameter store), a plain
    tensor object, or a quantized tensor (dequantizing one always creates a new object). *)
Inductive tv (D : Type) := TParam (p : nat) | TTensor (id : nat) (v : D) | TQuantized (v : D).
Arguments TParam {D}. Arguments TTensor {D}. Arguments TQuantized {D}.

(** Parameter values, and the slot of each quantizer in its module: still the quantizer or
    replaced by a stub. *)
Record fstore (D : Type) := mkFS { params : nat -> D; stubbed : nat -> bool }.
Arguments mkFS {D}. Arguments params {D}. Arguments stubbed {D}.

(** freeze.py:23-61 [_FreezeParametersOverride.__call__] for quantizer [q]. [value] of a
    result: dequantized data; [is] tests object identity. *)
Definition same_object {D} (x y : tv D) : bool :=
  match x, y with
  | TParam p, TParam p' => p =? p'
  | TTensor i _, TTensor j _ => i =? j
  | _, _ => false
  end.
Definition data_of {D} (s : fstore D) (x : tv D) : D :=
  match x with TParam p => params s p | TTensor _ v => v | TQuantized v => v end.
Definition freeze_override {D} (q : nat) (remove_quantizer : bool) : tv D -> beh (tv D) (fstore D) :=
  fun x => BCall x (fun r =>
    match r with
    | Err e => BRet (Err e)
    | Ok y =>
        if same_object x y then BRet (Ok x)
        else BGet (fun s =>
          let s1 := match x with
                    | TParam p => mkFS (upd (params s) p (data_of s y)) (stubbed s)
                    | _ => s
                    end in
          let s2 := if remove_quantizer then mkFS (params s1) (upd (stubbed s1) q true) else s1 in
          BPut s2 (BRet (Ok x)))
    end).

(** freeze.py:103-122 [freeze_parameters]: the overrides are registered, but the handles
    are not appended to [hooks], which is still empty when the block ends. (That the strict
    flag is off inside is C18.) Override objects here: [Some remove] is a freeze override. *)
Definition freeze_enter {D} (w : oworld (tv D -> beh (tv D) (fstore D))) (model : list nat) (remove_q : bool)
    : oworld (tv D -> beh (tv D) (fstore D)) * list handle :=
  (fold_left (fun w q => fst (register_override w q (freeze_override q remove_q))) model w,
   [] (* hooks *)).
Definition freeze_exit {D} (w : oworld (tv D -> beh (tv D) (fstore D))) (hooks : list handle) :=
  fold_left (fun w h => snd (handle_remove w h)) hooks w.

(** Calling the quantizer sitting in its module's slot: a stub returns its argument
    (quantizer.py:514-523), otherwise the quantizer with its overrides runs. *)
Definition slot_call {D} (base : nat -> tv D -> fstore D -> result (tv D) * fstore D)
    (w : oworld (tv D -> beh (tv D) (fstore D))) (q : nat) (x : tv D) (s : fstore D) : result (tv D) * fstore D :=
  if stubbed s q then (Ok x, s)
  else forward (fun o => o) (base q) (omap w q) x s.
