(** Models what tracing does to the module that is traced, and the cache of traced graphs:
    fastforward/_orchestration/trace.py:27-63 and 465-544. *)
From Coq Require Import String Ascii.
From Verif Require Import Prelude.
Local Open Scope nat_scope.
Local Open Scope list_scope.

(** A tensor: its identity, and whether it is an [UninitializedParameter] or [UninitializedBuffer]. *)
Record tensor := mkT { t_id : nat; t_uninit : bool }.
(** A dictionary of parameters or buffers, in insertion order. *)
Definition table := list (string * option tensor).
(** [nn.Module]: [_parameters], [_buffers], [_non_persistent_buffers_set] and the names of all its other
    attributes (submodules, attributes of the object and of its class). *)
Record umod := mkU { u_params : table; u_buffers : table; u_transient : list string; u_other : list string }.

Definition has (l : list string) (k : string) : bool := existsb (String.eqb k) l.
Definition without {A} (k : string) (l : list (string * A)) : list (string * A) := filter (fun e => negb (String.eqb k (fst e))) l.

(** [nn.Module.__delattr__], of parameters and buffers; other attributes are deleted too, which is not modelled: the
    names given below are parameters or buffers *)
Definition delattr (u : umod) (k : string) : result umod :=
  if has (map fst (u_params u)) k then Ok (mkU (without k (u_params u)) (u_buffers u) (u_transient u) (u_other u))
  else if has (map fst (u_buffers u)) k
  then Ok (mkU (u_params u) (without k (u_buffers u)) (filter (fun k' => negb (String.eqb k k')) (u_transient u)) (u_other u))
  else Err AttributeError.
(** [dict.__setitem__] *)
Fixpoint put (k : string) (v : option tensor) (l : table) : table :=
  match l with
  | [] => [(k, v)]
  | (k', v') :: l' => if String.eqb k k' then (k', v) :: l' else (k', v') :: put k v l'
  end.
(** [nn.Module.register_parameter], [nn.Module.register_buffer] (persistent): a name that is another attribute is refused *)
Definition register (is_param : bool) (u : umod) (k : string) (t : tensor) : result umod :=
  if is_param then
    if has (map fst (u_buffers u)) k || has (u_other u) k then Err KeyError
    else Ok (mkU (put k (Some t) (u_params u)) (u_buffers u) (u_transient u) (u_other u))
  else
    if has (map fst (u_params u)) k || has (u_other u) k then Err KeyError
    else Ok (mkU (u_params u) (put k (Some t) (u_buffers u)) (filter (fun k' => negb (String.eqb k k')) (u_transient u)) (u_other u)).

(** [nn.Module._named_members] without recursion: entries that are [None] and tensors met before are left out *)
Fixpoint members (seen : list nat) (l : table) : list (string * tensor) :=
  match l with
  | [] => []
  | (k, Some t) :: l' => if existsb (Nat.eqb (t_id t)) seen then members seen l' else (k, t) :: members (t_id t :: seen) l'
  | (_, None) :: l' => members seen l'
  end.

(** Modules by identity, and the identity of the next tensor that is made. *)
Definition heap := nat -> umod.
Definition upd (w : heap) (m : nat) (u : umod) : heap := fun m' => if m' =? m then u else w m'.
(** 41: [saved] *)
Definition item := (nat * string * tensor * bool)%type.

(** a loop whose body may raise: the state it leaves, and the exception *)
Fixpoint each {S A} (f : S -> A -> S * option exn) (s : S) (l : list A) : S * option exn :=
  match l with
  | [] => (s, None)
  | x :: l' => match f s x with (s', None) => each f s' l' | r => r end
  end.

(** 46-49, 53-54, 59-63: [delattr] and [register_parameter] or [register_buffer] *)
Definition replace (w : heap) (m : nat) (k : string) (t : tensor) (is_param : bool) : heap * option exn :=
  match delattr (w m) k with
  | Err e => (w, Some e)
  | Ok u =>
      match register is_param u k t with
      | Err e => (upd w m u, Some e)
      | Ok u' => (upd w m u', None)
      end
  end.

Definition state := (heap * nat * list item)%type.
(** 44-49, 51-54: the body of the loops over parameters and buffers *)
Definition swap (is_param : bool) (m : nat) (s : state) (e : string * tensor) : state * option exn :=
  let '(w, next, saved) := s in
  if t_uninit (snd e) then
    let saved := saved ++ [(m, fst e, snd e, is_param)] in
    let '(w', r) := replace w m (fst e) (mkT next false) is_param in (w', S next, saved, r)
  else (s, None).
(** 42-54 *)
Definition swap_module (s : state) (m : nat) : state * option exn :=
  match each (swap true m) s (members [] (u_params (fst (fst s) m))) with
  | (s, None) => each (swap false m) s (members [] (u_buffers (fst (fst s) m)))
  | r => r
  end.
(** 59-63 *)
Definition restore (w : heap) (i : item) : heap * option exn :=
  let '(m, k, t, is_param) := i in replace w m k t is_param.

(** 27-63 [_placeholder_uninitialized_params] around [body], for the modules [ms] of the module *)
Definition with_placeholders {A} (ms : list nat) (body : heap -> nat -> result A * (heap * nat)) (w : heap) (next : nat) : result A * (heap * nat) :=
  match each swap_module (w, next, []) ms with
  | ((w, next, _), Some e) => (Err e, (w, next))
  | ((w, next, saved), None) =>
      let '(r, (w, next)) := body w next in
      match each restore w saved with
      | (w, Some e) => (Err e, (w, next))
      | (w, None) => (r, (w, next))
      end
  end.

(** ** The cache *)

(** The flag [strict_quantization], modules, the next tensor, and [_graph_cache] (465-467). *)
Record tstate (G : Type) := mkS { s_strict : bool; s_heap : heap; s_next : nat; s_cache : list (nat * G) }.
Arguments mkS {G}. Arguments s_strict {G}. Arguments s_heap {G}. Arguments s_next {G}. Arguments s_cache {G}.
Definition cached {G} (m : nat) (l : list (nat * G)) : option G := option_map snd (find (fun e => fst e =? m) l).

(** 470-544 [trace] of a module [m] whose modules are [ms], under a supported version of PyTorch.  [capture] is lines 513-535, run with the flag off;
    quantization is also disabled, which is not modelled here.  [build] is 537-543. *)
Definition trace {E G} (capture : bool -> heap -> nat -> result E * (heap * nat)) (build : E -> result G) (m : nat) (ms : list nat) (s : tstate G) : result G * tstate G :=
  match cached m (s_cache s) with
  | Some g => (Ok g, s)
  | None =>
      let '(r, (w, next)) := with_placeholders ms (capture false) (s_heap s) (s_next s) in
      match rbind r build with
      | Ok g => (Ok g, mkS (s_strict s) w next ((m, g) :: s_cache s))
      | Err e => (Err e, mkS (s_strict s) w next (s_cache s))
      end
  end.

(** A history of calls of [trace]: the module, its modules, and what capturing and building do for the given inputs at the
    time; and modules that are destroyed, which removes them from the cache. *)
Inductive event E G := Traced (m : nat) (ms : list nat) (capture : bool -> heap -> nat -> result E * (heap * nat)) (build : E -> result G) | Destroyed (m : nat).
Arguments Traced {E G}. Arguments Destroyed {E G}.
Fixpoint run {E G} (l : list (event E G)) (s : tstate G) : list (nat * result G) * tstate G :=
  match l with
  | [] => ([], s)
  | Traced m ms c b :: l' => let '(r, s1) := trace c b m ms s in let '(rs, s2) := run l' s1 in ((m, r) :: rs, s2)
  | Destroyed m :: l' => run l' (mkS (s_strict s) (s_heap s) (s_next s) (filter (fun e => negb (fst e =? m)) (s_cache s)))
  end.
