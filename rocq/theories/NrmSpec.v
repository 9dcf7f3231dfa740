(** What an assignment binds. *)
From Coq Require Import List Arith Bool.
From Verif Require Import Prelude NrmModel.
Import ListNotations.

(** The values: what iterating over a value gives, and the tuple or list of some values. *)
Record world := mkWorld {
  val : Type;
  items : val -> option (list val);
  display : kind -> list val -> val;
  items_display : forall k l, items (display k l) = Some l }.

Section Assign.
Variable w : world.

(** Evaluation of an expression, given the values of atoms. *)
Fixpoint eval (g : nat -> option (val w)) (e : expr) : option (val w) :=
  match e with
  | Atom a => g a
  | Seq k l => option_map (display w k) (eval_elems g l)
  end
with eval_elems (g : nat -> option (val w)) (l : elems) : option (list (val w)) :=
  match l with
  | ENil => Some []
  | ECons s e r =>
      match eval g e with
      | None => None
      | Some v =>
          match (if s then items w v else Some [v]) with
          | None => None
          | Some vs => option_map (app vs) (eval_elems g r)
          end
      end
  end.

(** Python's assignment of a value to a target: which atoms get which values, in order. *)
Fixpoint bind (t : expr) (v : val w) {struct t} : option (list (nat * val w)) :=
  match t with
  | Atom a => Some [(a, v)]
  | Seq _ ts => match items w v with Some l => bind_elems ts l | None => None end
  end
with bind_elems (ts : elems) (l : list (val w)) {struct ts} : option (list (nat * val w)) :=
  match ts with
  | ENil => match l with [] => Some [] | _ => None end
  | ECons false t r =>
      match l with
      | [] => None
      | v :: l' => match bind t v with
                   | Some b => option_map (app b) (bind_elems r l')
                   | None => None
                   end
      end
  | ECons true t r =>
      if length l <? size r then None
      else match bind t (display w KList (firstn (length l - size r) l)) with
           | Some b => option_map (app b) (bind_elems r (skipn (length l - size r) l))
           | None => None
           end
  end.

(** Several targets, from left to right, get the same value. *)
Fixpoint bind_all (ts : list expr) (v : val w) : option (list (nat * val w)) :=
  match ts with
  | [] => Some []
  | t :: r => match bind t v with
              | Some b => option_map (app b) (bind_all r v)
              | None => None
              end
  end.
End Assign.

(** The atoms of a target. *)
Fixpoint atoms (e : expr) : list nat :=
  match e with Atom a => [a] | Seq _ l => atoms_elems l end
with atoms_elems (l : elems) : list nat :=
  match l with ENil => [] | ECons _ e r => atoms e ++ atoms_elems r end.

Definition part_atoms (p : part) : list nat := flat_map atoms (p_targets p).

(** What a part says about the bindings it stands for: a single target gets the value of the part;
    of several targets it is only said that they are bound. *)
Definition says (w : world) (g : nat -> option (val w)) (p : part) (b : list (nat * val w)) : Prop :=
  exists u, eval w g (p_value p) = Some u
  /\ match p_targets p with
     | [t] => bind w t u = Some b
     | ts => map fst b = flat_map atoms ts
     end.

(** No element is starred. *)
Fixpoint unstarred (e : expr) : Prop :=
  match e with Atom _ => True | Seq _ l => unstarred_elems l end
with unstarred_elems (l : elems) : Prop :=
  match l with ENil => True | ECons s e r => s = false /\ unstarred e /\ unstarred_elems r end.

(** A starred element only in the outermost display, not in one that is an element. *)
Definition outer_stars (e : expr) : Prop :=
  match e with Atom _ => True | Seq _ l => forall x, In x (values l) -> unstarred x end.

(** As Python demands, at most one element of a display is starred. *)
Definition one_star (e : expr) : Prop :=
  match e with Atom _ => True | Seq _ l => length (filter fst (to_list l)) <= 1 end.

(** No display of the target has a single atom, as in [(x,) = y]. *)
Fixpoint no_single (e : expr) : Prop :=
  match e with Atom _ => True | Seq _ l => length (atoms_elems l) <> 1 /\ no_single_elems l end
with no_single_elems (l : elems) : Prop :=
  match l with ENil => True | ECons _ e r => no_single e /\ no_single_elems r end.
