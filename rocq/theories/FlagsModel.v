(** Model of [src/fastforward/flags.py] and of
    [src/fastforward/quantization/strict_quantization.py]. *)
From Verif Require Import Prelude.

(** flags.py:25 [_FLAGS: dict[str, bool]]; flag names are numbers. Every flag used has been
    created by [_context_flag] (28-32), so a lookup never fails: the store is total. *)
Definition flags := nat -> bool.
Definition set_flag (s : flags) (f : nat) (v : bool) : flags := fun g => if g =? f then v else s g.

(** flags.py:40-49: a context object stores the value it found when it was *constructed*
    and sets the new value there and then; [__enter__] does nothing; [__exit__] writes the
    stored value back. *)
Record ctx := mkCtx { cflag : nat; csaved : bool }.
Definition construct (s : flags) (f : nat) (v : bool) : flags * ctx := (set_flag s f v, mkCtx f (s f)).
Definition ctx_exit (s : flags) (c : ctx) : flags := set_flag s (cflag c) (csaved c).

(** Programs. [FWith f v body rest] is [with flag(v): body] followed by [rest]; the
    decorator form ([context], 61-82) is the same. [FSet] is a bare call of the setter
    (51-52; the returned context is dropped). [FNew x f v] keeps the context object in
    variable [x]; [FWithVar x] enters an object made before. [FGet] logs the getter. *)
Inductive fprog :=
| FDone
| FRaise
| FGet (f : nat) (rest : fprog)
| FSet (f : nat) (v : bool) (rest : fprog)
| FWith (f : nat) (v : bool) (body rest : fprog)
| FNew (x f : nat) (v : bool) (rest : fprog)
| FWithVar (x : nat) (body rest : fprog).

Record fres := mkF { fst_flags : flags; fvars : nat -> option ctx; fexc : bool; flog : list (nat * bool) }.

Fixpoint fexec (s : flags) (vars : nat -> option ctx) (p : fprog) : fres :=
  match p with
  | FDone => mkF s vars false []
  | FRaise => mkF s vars true []
  | FGet f rest => let r := fexec s vars rest in
                   mkF (fst_flags r) (fvars r) (fexc r) ((f, s f) :: flog r)
  | FSet f v rest => fexec (fst (construct s f v)) vars rest
  | FWith f v body rest =>
      let (s1, c) := construct s f v in
      let r1 := fexec s1 vars body in
      let s2 := ctx_exit (fst_flags r1) c in
      if fexc r1 then mkF s2 (fvars r1) true (flog r1)
      else let r2 := fexec s2 (fvars r1) rest in
           mkF (fst_flags r2) (fvars r2) (fexc r2) (flog r1 ++ flog r2)
  | FNew x f v rest =>
      let (s1, c) := construct s f v in
      fexec s1 (fun y => if y =? x then Some c else vars y) rest
  | FWithVar x body rest =>
      match vars x with
      | None => mkF s vars true []   (* NameError *)
      | Some c =>
          let r1 := fexec s vars body in
          let s2 := ctx_exit (fst_flags r1) c in
          if fexc r1 then mkF s2 (fvars r1) true (flog r1)
          else let r2 := fexec s2 (fvars r1) rest in
               mkF (fst_flags r2) (fvars r2) (fexc r2) (flog r1 ++ flog r2)
      end
  end.

(** Interleaved executions (threads, or suspended generators holding a block open): a trace
    of block entries and exits. Entry [EEnter b f v] opens block [b]; the context objects
    of open blocks live in [vars]. *)
Inductive fevent := EEnter (b f : nat) (v : bool) | EExit (b : nat).
Definition estep (st : flags * (nat -> option ctx)) (e : fevent) : flags * (nat -> option ctx) :=
  let (s, vars) := st in
  match e with
  | EEnter b f v => let (s1, c) := construct s f v in
                    (s1, fun y => if y =? b then Some c else vars y)
  | EExit b => match vars b with Some c => (ctx_exit s c, vars) | None => st end
  end.
Definition erun (s : flags) (l : list fevent) : flags := fst (fold_left estep l (s, fun _ => None)).

(** ** strict_quantization.py: [ModuleStrictQuantHandle]

    A handle (19-36) has a mode and, per module, the last value it saved. Modules carry
    an ordered list of attached handles: torch runs forward-pre-hooks and forward-hooks in
    registration order, and skips forward hooks when [forward] raises. *)
Record sstate := mkS {
  sflag : bool;                              (* the global strict flag *)
  smode : nat -> bool;                       (* handle -> mode requested *)
  ssaved : nat -> nat -> option bool;        (* handle -> module -> saved flag *)
  sattached : nat -> list nat }.             (* module -> handles, in order of attachment *)

(** lines 38-47 [_pre_forward_hook] *)
Definition pre_hook (m : nat) (s : sstate) (h : nat) : sstate :=
  mkS (smode s h) (smode s)
      (fun h' m' => if (h' =? h) && (m' =? m) then Some (sflag s) else ssaved s h' m')
      (sattached s).
(** lines 49-61 [_post_forward_hook] *)
Definition post_hook (m : nat) (s : sstate) (h : nat) : sstate :=
  match ssaved s h m with
  | Some v => mkS v (smode s) (ssaved s) (sattached s)
  | None => s
  end.
(** lines 63-72 [attach] *)
Definition attach (s : sstate) (h m : nat) : sstate :=
  mkS (sflag s) (smode s) (ssaved s)
      (fun m' => if m' =? m then sattached s m ++ [h] else sattached s m').

(** Call trees: [TCall m body rest] calls module [m], whose forward runs [body]. [TObs]
    observes the flag. *)
Inductive ctree :=
| TDone
| TRaise
| TObs (rest : ctree)
| TCall (m : nat) (body rest : ctree).

Record sres := mkSR { sst : sstate; sexc : bool; slog : list bool }.
Fixpoint scall (s : sstate) (p : ctree) : sres :=
  match p with
  | TDone => mkSR s false []
  | TRaise => mkSR s true []
  | TObs rest => let r := scall s rest in mkSR (sst r) (sexc r) (sflag s :: slog r)
  | TCall m body rest =>
      let s1 := fold_left (pre_hook m) (sattached s m) s in
      let r1 := scall s1 body in
      if sexc r1 then mkSR (sst r1) true (slog r1)
      else
        let s2 := fold_left (post_hook m) (sattached s m) (sst r1) in
        let r2 := scall s2 rest in
        mkSR (sst r2) (sexc r2) (slog r1 ++ slog r2)
  end.
