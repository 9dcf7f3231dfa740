(** Specification vocabulary for query texts. *)
From Coq Require Import String Ascii.
From Verif Require Import Prelude MpathModel MpathSpec.
Local Open Scope nat_scope.
Local Open Scope list_scope.

Definition between (lo hi : nat) (c : ascii) : Prop := lo <= nat_of_ascii c <= hi.
Definition is_digit (c : ascii) : Prop := between 48 57 c.
(** A letter or an underscore. *)
Definition is_letter (c : ascii) : Prop := between 65 90 c \/ between 97 122 c \/ nat_of_ascii c = 95.
Definition is_white (c : ascii) : Prop := between 9 13 c \/ between 28 32 c.
Definition every (P : ascii -> Prop) (s : string) : Prop := forall c, In c (list_ascii_of_string s) -> P c.

(** An identifier, or a number without sign. *)
Definition word (s : string) : Prop :=
  (exists c r, s = String c r /\ is_letter c /\ every (fun c => is_letter c \/ is_digit c) r) \/
  (s <> ""%string /\ every is_digit s).
(** A pattern without brackets and double quotes that ends neither in a backslash nor in white space. *)
Definition plain_pattern (p : string) : Prop :=
  every (fun c => c <> "["%char /\ c <> "]"%char /\ c <> """"%char) p /\
  (forall p' c, p = (p' ++ String c "")%string -> c <> "\"%char /\ ~ is_white c).

Section Writable.
  Variable re_valid : string -> bool.
  (** Wildcards, names, plain patterns and inversions of them. *)
  Inductive writable_frag : frag -> Prop :=
  | wf_wild b : writable_frag (Wild b)
  | wf_name s : word s -> writable_frag (Name s)
  | wf_regex p : plain_pattern p -> re_valid p = true -> writable_frag (Regex p)
  | wf_inv f : writable_frag f -> writable_frag (Inv f).
  (** Non-empty sequences of such fragments and of groups of such sequences. *)
  Inductive writable_node : node -> Prop :=
  | wn_frag i f : writable_frag f -> writable_node (NFrag i f)
  | wn_multi alts : alts <> [] ->
      (forall alt, In alt alts -> alt <> []) ->
      (forall alt n, In alt alts -> In n alt -> writable_node n) -> writable_node (NMulti alts).
  Definition writable (s : sel) : Prop := s <> [] /\ forall n, In n s -> writable_node n.
End Writable.

(** The query without the identities of its fragment objects. *)
Fixpoint forget_node (n : node) : node :=
  match n with NFrag _ f => NFrag 0 f | NMulti alts => NMulti (map (map forget_node) alts) end.
Definition forget (s : sel) : sel := map forget_node s.
