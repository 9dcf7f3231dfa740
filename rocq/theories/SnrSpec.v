(** Errors of tensors. *)
From Coq Require Import List Arith QArith.
From Verif Require Import Prelude.
Import ListNotations.
Local Open Scope Q_scope.

(** The sum of the squared differences. *)
Fixpoint squared_error (a b : list Q) : Q :=
  match a, b with x :: r, y :: s => (x - y) * (x - y) + squared_error r s | _, _ => 0 end.

(** The sum of the squares. *)
Fixpoint energy (a : list Q) : Q := match a with x :: r => x * x + energy r | [] => 0 end.

(** In each entry [y] is at least as near to [x] as [z]. *)
Inductive nearer : list (list Q) -> list (list Q) -> list (list Q) -> Prop :=
| nearer_nil : nearer [] [] []
| nearer_cons : forall a b c x y z, length b = length a -> length c = length a ->
    squared_error a b <= squared_error a c -> nearer x y z -> nearer (a :: x) (b :: y) (c :: z).
