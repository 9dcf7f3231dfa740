(** Models the work queue of autoquant: fastforward/_autoquant/autoquant.py:100-260 [autoquant],
    440-460 [_find_unquantized_submodules], and the table of functions of [_discover_quantized_functions] (672-706).
    Classes, member names and function objects are numbers. *)
From Verif Require Import Prelude.
Local Open Scope nat_scope.
Local Open Scope list_scope.

(** 440-460: types of the modules of a model, each once, without those that have a quantized version *)
Fixpoint unquantized (discovered types : list nat) : list nat :=
  match types with
  | [] => []
  | t :: types' => if existsb (Nat.eqb t) discovered then unquantized discovered types' else t :: unquantized (t :: discovered) types'
  end.

(** 263-270 [_AqTask]: a function of a Python module, or a member of a module class *)
Inductive task := Helper (f : nat) | Method (c n : nat).
Definition task_eqb (a b : task) : bool :=
  match a, b with Helper f, Helper g => f =? g | Method c n, Method d m => (c =? d) && (n =? m) | _, _ => false end.

Section Queue.
  (** [getattr(c, n)] *)
  Variable member : nat -> nat -> nat.
  (** Functions that are converted for a task and the tasks then found in its source, as far as their search gets;
      [None] if conversion raises, which is logged, or if the task is for a class *)
  Variable convert : task -> option (list task).

  Definition function (t : task) : nat := match t with Helper f => f | Method c n => member c n end.
  (** 156: the builders looked through are those of helpers, as classes are added at the end (237-238) *)
  Definition is_helper (f : nat) (t : task) : bool := match t with Helper g => f =? g | Method _ _ => false end.
  Definition skip (done : list task) (t : task) : bool := existsb (is_helper (function t)) done || existsb (task_eqb t) done.
  (** 143-235; [None] if the queue is not empty after [fuel] turns *)
  Fixpoint work (fuel : nat) (queue done : list task) : option (list task) :=
    match queue with
    | [] => Some done
    | t :: queue' =>
        match fuel with
        | 0 => None
        | S n =>
            if skip done t then work n queue' done
            else match convert t with
                 | Some found => work n (queue' ++ found) (done ++ [t])
                 | None => work n queue' done
                 end
        end
    end.
  (** 133-141 *)
  Definition first_tasks (forward : nat) (types : list nat) : list task := map (fun c => Method c forward) types.

  (** 691-698: the last builder of a function is the one that counts *)
  Fixpoint update (f : nat) (t : task) (l : list (nat * task)) : list (nat * task) :=
    match l with [] => [(f, t)] | (g, u) :: l' => if f =? g then (f, t) :: l' else (g, u) :: update f t l' end.
  Definition discover (builders : list task) : list (nat * task) := fold_left (fun l t => update (function t) t l) builders [].
  (** builder.py:104-112: helpers first, then the methods of classes *)
  Definition is_method (t : task) : bool := match t with Method _ _ => true | Helper _ => false end.
  Definition builders (done : list task) : list task := filter (fun t => negb (is_method t)) done ++ filter is_method done.
  (** 660-668: functions whose calls are resolved *)
  Definition resolved (done : list task) : list task := map snd (discover (builders done)).
End Queue.
