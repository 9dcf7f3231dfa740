(** Specification vocabulary for saved states. *)
From Coq Require Import String Ascii QArith.
From Verif Require Import Prelude SaveModel.
Local Open Scope nat_scope.
Local Open Scope list_scope.

(** Two tensors over the same memory with the same layout. *)
Definition same_memory (a b : tref) : Prop :=
  r_ptr a = r_ptr b /\ r_shape a = r_shape b /\ r_stride a = r_stride b /\ r_device a = r_device b.

(** No comma, equals sign or colon in a name; no dot. *)
Fixpoint chars (s : string) : list ascii :=
  match s with EmptyString => [] | String c r => c :: chars r end.
Definition plain (s : string) : Prop := forall c, In c (chars s) -> c <> ","%char /\ c <> "="%char /\ c <> ":"%char.
Definition no_dot (s : string) : Prop := ~ In "."%char (chars s).

(** The rebuilt parameter can take over the saved one unchanged. *)
Definition takes (fresh saved : slot) : Prop :=
  match fresh, saved with
  | Uninit d, Init t => t_dtype t = d
  | Init t0, Init t => t_dtype t = t_dtype t0 /\ t_shape t = t_shape t0
  | Uninit d, Uninit d' => d = d'
  | Init _, Uninit _ => False
  end.
(** YAML rebuilds a quantizer with the parameters the saved one has. *)
Definition rebuilds {C} (rebuild : C -> list (string * slot)) (q : qobj C) : Prop :=
  Forall2 (fun a b => fst a = fst b /\ takes (snd a) (snd b)) (rebuild (q_config q)) (q_params q).

(** A cast to the own dtype changes nothing. *)
Definition keeps (cast : nat -> nat -> list Q -> list Q) : Prop := forall d v, cast d d v = v.

(** Name [n] of model [w] is a (non-stub) quantizer: object [q]. *)
Definition quantizer_at {C} (w : world C) (n : string) (q : nat) : Prop :=
  exists c, In (n, c) (w_names w) /\ w_at w c = Concrete q.

(** Quantizers the metadata format can describe: at least one parameter, distinct simple names. *)
Definition describable {C} (q : qobj C) : Prop :=
  q_params q <> [] /\ NoDup (map fst (q_params q)) /\
  forall p, In p (map fst (q_params q)) -> plain p /\ no_dot p.

Definition lazy_free {C} (q : qobj C) : Prop := forall p s, In (p, s) (q_params q) -> exists t, s = Init t.

(** Names whose directory is theirs alone: of the characters that file systems dislike only "/"
    occurs, and hyphens and slashes are never adjacent. *)
Definition bar (c : ascii) : Prop := c = "-"%char \/ c = "/"%char.
Fixpoint spaced (s : string) : Prop :=
  match s with
  | String a ((String b _) as r) => ~ (bar a /\ bar b) /\ spaced r
  | _ => True
  end.
Definition tame (s : string) : Prop :=
  (forall c, In c (chars s) -> unsafe_char c = true -> c = "/"%char) /\ spaced s.
(** A tag that is a directory name of its own. *)
Definition proper_tag (t : string) : Prop := t <> ""%string /\ t <> "."%string /\ t <> ".."%string.

(** The state saved last under a name and a tag. *)
Fixpoint last_saved {F} (n t : string) (h : list (string * string * F)) : option F :=
  match h with
  | [] => None
  | (n', t', f) :: h' =>
      match last_saved n t h' with
      | Some g => Some g
      | None => if string_dec n n' then if string_dec t t' then Some f else None else None
      end
  end.
