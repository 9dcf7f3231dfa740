(** Models [src/fastforward/quantization/quantizer_annotations.py]: tracing tensors, the override
    that annotates quantizers and [annotate_operator_metadata]. Overrides, their registration and
    their order are those of OverrideModel; tags are those of ModulesModel. *)
From Coq Require Import String.
From Verif Require Import Prelude OverrideModel.
From Verif Require ModulesModel.
Local Open Scope nat_scope.
Local Open Scope list_scope.

(** A tensor object: a plain tensor (also a parameter), or a [TraceTensor] (15-33) with its
    [previous_function] (by name) and its [previous_quantizer]. Identity is the index in [objs]. *)
Inductive obj := Plain | Trace (previous_function : option string) (previous_quantizer : option nat).
(** [metas q]: the tags of the [quant_metadata] of quantizer [q], [None] if it has none.
    [strict] is the global [strict_quantization] flag. *)
Record st := mkSt { objs : list obj; metas : nat -> option (list string); strict : bool }.

(** [quant_metadata.add_tag(...)], under [if ... quant_metadata is not None] (45-46 and 83-87) *)
Definition tag (s : st) (q : nat) (t : string) : st :=
  mkSt (objs s)
       (match metas s q with
        | Some ts => upd (metas s) q (Some (ModulesModel.add_tag ts t))
        | None => metas s
        end) (strict s).
Fixpoint set_obj (n : nat) (x : obj) (l : list obj) : list obj :=
  match l, n with
  | [], _ => []
  | _ :: l', 0 => x :: l'
  | y :: l', S n' => y :: set_obj n' x l'
  end.
Definition put_obj (s : st) (n : nat) (x : obj) : st := mkSt (set_obj n x (objs s)) (metas s) (strict s).
(** A new tensor object and its identity *)
Definition new_obj (s : st) (x : obj) : nat * st :=
  (length (objs s), mkSt (objs s ++ [x]) (metas s) (strict s)).
(** [Tag("before") / name] and [Tag("after") / name] *)
Definition before (f : string) : string := String.append "before/" f.
Definition after (f : string) : string := String.append "after/" f.

(** 63-94 [quantizer_override]; the data is the call's only argument. *)
Definition annotate_override (q : nat) : nat -> beh nat st := fun x =>
  BGet (fun s =>
    BPut (match nth_error (objs s) x with
          | Some (Trace (Some f) _) => tag s q (after f)
          | _ => s
          end)
      (BCall x (fun r =>
        match r with
        | Err e => BRet (Err e)
        | Ok y => BGet (fun s' =>
            match nth_error (objs s') y with
            | Some (Trace pf _) => BPut (put_obj s' y (Trace pf (Some q))) (BRet (Ok y))
            | _ => let (z, s2) := new_obj s' (Trace None (Some q)) in BPut s2 (BRet (Ok z))
            end)
        end))).

(** Overrides on quantizers: this one, that of [disable_quantization] (overrides.py:109-120,
    with quantization not enabled), and others the user has registered. *)
Inductive ov := Annotate | Disable | Other (f : nat -> beh nat st).
Definition ov_sem (q : nat) (o : ov) : nat -> beh nat st :=
  match o with
  | Annotate => annotate_override q
  | Disable => fun x => BRet (Ok x)
  | Other f => f
  end.

(** What the forward pass of the model does, in order: it applies a torch function to tensors
    (those found anywhere in its arguments, 57: [optree.tree_map]) or calls a quantizer. Tensors
    are named by variables: 0 is the sample input, then come the plain tensors that the model
    holds, then the results of the steps. A torch function raises or returns tensors, each either
    a new one ([None]) or one of its arguments ([Some i]: in-place and no-op functions). *)
Inductive step :=
| Apply (f : string) (args : list nat) (outs : result (list (option nat)))
| Quantize (q : nat) (x : nat).

Section Run.
  (** The model's own [quantize] of quantizers that are not stubs, and which are stubs. *)
  Variable is_stub : nat -> bool.
  Variable own : nat -> nat -> st -> result nat * st.
  Variable w : oworld ov.

  (** nn/quantizer.py:405-408 [Quantizer.forward]; 512-523 [QuantizerStub.quantize] *)
  Definition quantize (q : nat) (x : nat) (s : st) : result nat * st :=
    if is_stub q then (Ok x, s) else own q x s.
  Definition call_quantizer (q : nat) (x : nat) (s : st) : result nat * st :=
    forward (ov_sem q) (quantize q) (omap w q) x s.

  Definition is_trace (s : st) (o : nat) : bool :=
    match nth_error (objs s) o with Some (Trace _ _) => true | _ => false end.
  (** 43-47 [_annotate_input] *)
  Definition annotate_input (f : string) (s : st) (o : nat) : st :=
    match nth_error (objs s) o with
    | Some (Trace _ (Some q)) => tag s q (before f)
    | _ => s
    end.
  (** 49-54 [_annotate_output], for a result the function has just made or was given *)
  Definition annotate_output (f : string) (s : st) (args : list nat) (o : option nat) : result (nat * st) :=
    match o with
    | None => Ok (new_obj s (Trace (Some f) None))
    | Some i =>
        match nth_error args i with
        | None => Err RuntimeError
        | Some a =>
            match nth_error (objs s) a with
            | Some (Trace _ pq) => Ok (a, put_obj s a (Trace (Some f) pq))
            | _ => Ok (new_obj s (Trace (Some f) None))
            end
        end
    end.
  (** A result when no argument is a [TraceTensor]: torch does not call [__torch_function__]. *)
  Definition plain_output (s : st) (args : list nat) (o : option nat) : result (nat * st) :=
    match o with
    | None => Ok (new_obj s Plain)
    | Some i => match nth_error args i with Some a => Ok (a, s) | None => Err RuntimeError end
    end.
  Fixpoint outputs (one : st -> option nat -> result (nat * st)) (s : st) (outs : list (option nat))
    : result (list nat * st) :=
    match outs with
    | [] => Ok ([], s)
    | o :: outs' =>
        let? (a, s1) := one s o in
        let? (l, s2) := outputs one s1 outs' in Ok (a :: l, s2)
    end.

  (** 35-60 [__torch_function__] *)
  Definition apply (f : string) (args : list nat) (outs : result (list (option nat))) (s : st)
    : result (list nat) * st :=
    if existsb (is_trace s) args then
      let s1 := fold_left (annotate_input f) args s in
      match outs with
      | Err e => (Err e, s1)
      | Ok os => match outputs (fun s o => annotate_output f s args o) s1 os with
                 | Ok (l, s2) => (Ok l, s2)
                 | Err e => (Err e, s1)
                 end
      end
    else
      match outs with
      | Err e => (Err e, s)
      | Ok os => match outputs (fun s o => plain_output s args o) s os with
                 | Ok (l, s2) => (Ok l, s2)
                 | Err e => (Err e, s)
                 end
      end.

  (** The values of variables *)
  Fixpoint values (env : list nat) (vs : list nat) : result (list nat) :=
    match vs with
    | [] => Ok []
    | v :: vs' => match nth_error env v with
                  | None => Err NameError
                  | Some o => let? l := values env vs' in Ok (o :: l)
                  end
    end.
  Definition do_step (env : list nat) (s : st) (e : step) : result (list nat) * st :=
    match e with
    | Apply f args outs =>
        match values env args with
        | Err x => (Err x, s)
        | Ok os => apply f os outs s
        end
    | Quantize q x =>
        match nth_error env x with
        | None => (Err NameError, s)
        | Some o => match call_quantizer q o s with
                    | (Ok y, s') => (Ok [y], s')
                    | (Err e, s') => (Err e, s')
                    end
        end
    end.
  (** The forward pass stops at the first step that raises. *)
  Fixpoint run (env : list nat) (s : st) (es : list step) : result (list nat) * st :=
    match es with
    | [] => (Ok env, s)
    | e :: es' => match do_step env s e with
                  | (Ok l, s') => run (env ++ l) s' es'
                  | (Err x, s') => (Err x, s')
                  end
    end.
End Run.

(** Registering one override on each quantizer of a list *)
Fixpoint register_all (w : oworld ov) (o : ov) (qs : list nat) : oworld ov * list handle :=
  match qs with
  | [] => (w, [])
  | q :: qs' => let (w1, h) := register_override w q o in
                let (w2, hs) := register_all w1 o qs' in (w2, h :: hs)
  end.
Definition remove_all (w : oworld ov) (hs : list handle) : oworld ov :=
  fold_left (fun w h => snd (handle_remove w h)) hs w.
Definition set_strict (s : st) (b : bool) : st := mkSt (objs s) (metas s) b.

(** 97-130 [annotate_operator_metadata] and overrides.py:22-41 [disable_quantization]. [qs] is what
    [model.named_quantizers(skip_stubs=False)] yields; [disable_quantization] leaves the stubs
    out (nn/quantized_module.py:69-70). [n] is the number of plain tensors the model holds. The
    objects of the run are the tracing input and these tensors. [torch.no_grad] and the result of
    the forward pass are not modelled. *)
Definition annotate (is_stub : nat -> bool) (own : nat -> nat -> st -> result nat * st)
    (w : oworld ov) (ms : nat -> option (list string)) (strict_ : bool) (qs : list nat)
    (n : nat) (es : list step) : option exn * oworld ov * st :=
  let s := mkSt (Trace None None :: repeat Plain n) ms strict_ in
  let (w1, hs1) := register_all w Annotate qs in
  let (w2, hs2) := register_all w1 Disable (filter (fun q => negb (is_stub q)) qs) in
  let (r, s') := run is_stub own w2 (seq 0 (S n)) (set_strict s false) es in
  (match r with Ok _ => None | Err e => Some e end,
   remove_all (remove_all w2 hs2) hs1, set_strict s' (strict s)).
