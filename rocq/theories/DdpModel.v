(** Sharing of repeated quantizer calls.

    Modelled code: src/fastforward/_autoquant/cst/quantizer_analysis/transformer.py, the class
    _QuantizerCallDedup and where it is applied. Operators have two operands and quantizer calls one
    argument. Statements are assignments to a variable, conditionals and for loops; comprehensions,
    while, with, return and nested functions are not modelled. *)
From Coq Require Import List Arith Bool.
From Verif Require Import Prelude.
Import ListNotations.

(** Names of variables: [Tmp n] is [_tmp_n], every other name is a [User] name. *)
Inductive name := User (n : nat) | Tmp (n : nat).

(** Expressions: [EQuant q a] is [self.quantizer_q(a)] and [ECond a c b] is [a if c else b]. *)
Inductive expr :=
| EVar (x : name)
| EOp (f : nat) (a b : expr)
| EQuant (q : nat) (a : expr)
| ECond (a c b : expr).

(** Statements. An [elif] is not a block of its own but part of the conditional. *)
Inductive stmt :=
| SAsg (x : name) (e : expr)
| SIf (test : expr) (body : block) (els : orelse)
| SFor (x : name) (it : expr) (body : block)
with orelse :=
| ONone
| OElse (b : block)
| OElif (test : expr) (body : block) (els : orelse)
with block :=
| BNil
| BCons (s : stmt) (b : block).

Fixpoint to_list (b : block) : list stmt :=
  match b with BNil => [] | BCons s r => s :: to_list r end.
Fixpoint of_list (l : list stmt) : block :=
  match l with [] => BNil | s :: r => BCons s (of_list r) end.

Definition name_eqb (x y : name) : bool :=
  match x, y with
  | User a, User b => a =? b
  | Tmp a, Tmp b => a =? b
  | _, _ => false
  end.

Fixpoint expr_eqb (a b : expr) : bool :=
  match a, b with
  | EVar x, EVar y => name_eqb x y
  | EOp f a1 a2, EOp g b1 b2 => (f =? g) && expr_eqb a1 b1 && expr_eqb a2 b2
  | EQuant q a1, EQuant r b1 => (q =? r) && expr_eqb a1 b1
  | ECond a1 a2 a3, ECond b1 b2 b3 => expr_eqb a1 b1 && expr_eqb a2 b2 && expr_eqb a3 b3
  | _, _ => false
  end.

(** transformer.py:679-701 _call_key: the reference and the source text of the call. Two calls have
    the same key exactly if they call the same quantizer with the same argument. *)
Definition key := (nat * expr)%type.
Definition key_eqb (a b : key) : bool := (fst a =? fst b) && expr_eqb (snd a) (snd b).

(** ** Names that are taken *)

(** transformer.py:704-711 _tmp_suffix *)
Definition suffix (x : name) : list nat := match x with Tmp n => [n] | User _ => [] end.

Fixpoint expr_names (e : expr) : list name :=
  match e with
  | EVar x => [x]
  | EOp _ a b => expr_names a ++ expr_names b
  | EQuant _ a => expr_names a
  | ECond a c b => expr_names a ++ expr_names c ++ expr_names b
  end.

(** transformer.py:739-749 _TmpScan visits all names of a statement, in nested blocks as well. *)
Fixpoint stmt_names (s : stmt) : list name :=
  match s with
  | SAsg x e => x :: expr_names e
  | SIf e b o => expr_names e ++ block_names b ++ orelse_names o
  | SFor x e b => x :: expr_names e ++ block_names b
  end
with orelse_names (o : orelse) : list name :=
  match o with
  | ONone => []
  | OElse b => block_names b
  | OElif e b o' => expr_names e ++ block_names b ++ orelse_names o'
  end
with block_names (b : block) : list name :=
  match b with BNil => [] | BCons s r => stmt_names s ++ block_names r end.

Definition mem (n : nat) (l : list nat) : bool := existsb (Nat.eqb n) l.

(** transformer.py:713-719 _next_tmp_name: the first suffix from 1 on that is not taken. One of the
    first [length created + 1] is free. *)
Definition next_suffix (created : list nat) : option nat :=
  find (fun n => negb (mem n created)) (seq 1 (S (length created))).

(** ** Repeated calls *)

(** transformer.py:780-788 visit_Call: the calls in an expression, the outer before the inner. *)
Fixpoint expr_calls (e : expr) : list key :=
  match e with
  | EVar _ => []
  | EOp _ a b => expr_calls a ++ expr_calls b
  | EQuant q a => (q, a) :: expr_calls a
  | ECond a c b => expr_calls a ++ expr_calls c ++ expr_calls b
  end.

(** transformer.py:757-778 _CallScan: nested blocks are not entered, but the tests of elif are. *)
Fixpoint orelse_calls (o : orelse) : list key :=
  match o with
  | ONone | OElse _ => []
  | OElif e _ o' => expr_calls e ++ orelse_calls o'
  end.

Definition stmt_calls (s : stmt) : list key :=
  match s with
  | SAsg _ e => expr_calls e
  | SIf e _ o => expr_calls e ++ orelse_calls o
  | SFor _ e _ => expr_calls e
  end.

(** transformer.py:755-790: all calls of a block with the index of their statement. *)
Fixpoint occurrences (i : nat) (l : list stmt) : list (key * nat) :=
  match l with
  | [] => []
  | s :: r => map (fun k => (k, i)) (stmt_calls s) ++ occurrences (S i) r
  end.

Definition count (k : key) (occ : list (key * nat)) : nat :=
  length (filter (fun p => key_eqb k (fst p)) occ).

(** transformer.py:785-787 first_stmt_idx: the first occurrence of each key, in order. *)
Fixpoint firsts (seen : list key) (occ : list (key * nat)) : list (key * nat) :=
  match occ with
  | [] => []
  | p :: r => if existsb (key_eqb (fst p)) seen then firsts seen r
              else p :: firsts (fst p :: seen) r
  end.

(** transformer.py:792 repeated_keys *)
Definition repeated (l : list stmt) : list (key * nat) :=
  let occ := occurrences 0 l in
  filter (fun p => 1 <? count (fst p) occ) (firsts [] occ).

(** transformer.py:796 temp_by_call: a name for each repeated call. *)
Definition entry := (key * nat * nat)%type.

Fixpoint allocate (created : list nat) (ks : list (key * nat)) : option (list entry * list nat) :=
  match ks with
  | [] => Some ([], created)
  | (k, i) :: r =>
      match next_suffix created with
      | None => None
      | Some n =>
          match allocate (n :: created) r with
          | None => None
          | Some (es, c) => Some ((k, i, n) :: es, c)
          end
      end
  end.

Definition lookup (k : key) (es : list entry) : option nat :=
  match find (fun p => key_eqb k (fst (fst p))) es with
  | Some p => Some (snd p)
  | None => None
  end.

(** transformer.py:798-833 _ReplaceCall. The key is that of the original call. *)
Fixpoint rp_expr (es : list entry) (e : expr) : expr :=
  match e with
  | EVar x => EVar x
  | EOp f a b => EOp f (rp_expr es a) (rp_expr es b)
  | EQuant q a => match lookup (q, a) es with
                  | Some n => EVar (Tmp n)
                  | None => EQuant q (rp_expr es a)
                  end
  | ECond a c b => ECond (rp_expr es a) (rp_expr es c) (rp_expr es b)
  end.

Fixpoint rp_orelse (es : list entry) (o : orelse) : orelse :=
  match o with
  | ONone => ONone
  | OElse b => OElse b
  | OElif e b o' => OElif (rp_expr es e) b (rp_orelse es o')
  end.

Definition rp_stmt (es : list entry) (s : stmt) : stmt :=
  match s with
  | SAsg x e => SAsg x (rp_expr es e)
  | SIf e b o => SIf (rp_expr es e) b (rp_orelse es o)
  | SFor x e b => SFor x (rp_expr es e) b
  end.

(** transformer.py:835-849: the assignment of a shared variable; the call is the original one. *)
Definition new_stmt (p : entry) : nat * stmt :=
  let '((q, a), i, n) := p in (i, SAsg (Tmp n) (EQuant q a)).

(** Python's sorted with a key, stable. *)
Fixpoint insert_sorted (p : nat * stmt) (l : list (nat * stmt)) : list (nat * stmt) :=
  match l with
  | [] => [p]
  | q :: r => if fst p <=? fst q then p :: l else q :: insert_sorted p r
  end.
Definition sort_new (l : list (nat * stmt)) : list (nat * stmt) := fold_right insert_sorted [] l.

(** Python's list.insert. *)
Definition insert_at {A} (i : nat) (x : A) (l : list A) : list A := firstn i l ++ x :: skipn i l.

(** transformer.py:851-854 *)
Fixpoint insert_all (off : nat) (new : list (nat * stmt)) (body : list stmt) : list stmt :=
  match new with
  | [] => body
  | (i, s) :: r => insert_all (S off) r (insert_at (i + off) s body)
  end.

(** transformer.py:722-856 leave_IndentedBlock, given the suffixes that are taken. *)
Definition dedup (created : list nat) (l : list stmt) : list stmt * list nat :=
  let created := flat_map suffix (flat_map stmt_names l) ++ created in
  match repeated l with
  | [] => (l, created)
  | ks =>
      match allocate created ks with
      | None => (l, created)
      | Some (es, c) => (insert_all 0 (sort_new (map new_stmt es)) (map (rp_stmt es) l), c)
      end
  end.

Definition dedup_block (p : block * list nat) : block * list nat :=
  let '(l, c) := dedup (snd p) (to_list (fst p)) in (of_list l, c).

(** The visit by one _QuantizerCallDedup: nested blocks first. *)
Fixpoint visit_stmt (c : list nat) (s : stmt) : stmt * list nat :=
  match s with
  | SAsg x e => (SAsg x e, c)
  | SIf e b o =>
      let '(b', c1) := dedup_block (visit_items c b) in
      let '(o', c2) := visit_orelse c1 o in (SIf e b' o', c2)
  | SFor x e b => let '(b', c1) := dedup_block (visit_items c b) in (SFor x e b', c1)
  end
with visit_orelse (c : list nat) (o : orelse) : orelse * list nat :=
  match o with
  | ONone => (ONone, c)
  | OElse b => let '(b', c1) := dedup_block (visit_items c b) in (OElse b', c1)
  | OElif e b o' =>
      let '(b', c1) := dedup_block (visit_items c b) in
      let '(o2, c2) := visit_orelse c1 o' in (OElif e b' o2, c2)
  end
with visit_items (c : list nat) (b : block) : block * list nat :=
  match b with
  | BNil => (BNil, c)
  | BCons s r => let '(s', c1) := visit_stmt c s in
                 let '(r', c2) := visit_items c1 r in (BCons s' r', c2)
  end.

(** transformer.py:859-864 _dedup_repeated_quantizer_calls *)
Definition visit_block (b : block) : block := fst (dedup_block (visit_items [] b)).

(** transformer.py:264-290: every block is treated when it is left, by an object of its own, so the
    blocks in it have been treated before. *)
Fixpoint share_stmt (s : stmt) : stmt :=
  match s with
  | SAsg x e => SAsg x e
  | SIf e b o => SIf e (visit_block (share_items b)) (share_orelse o)
  | SFor x e b => SFor x e (visit_block (share_items b))
  end
with share_orelse (o : orelse) : orelse :=
  match o with
  | ONone => ONone
  | OElse b => OElse (visit_block (share_items b))
  | OElif e b o' => OElif e (visit_block (share_items b)) (share_orelse o')
  end
with share_items (b : block) : block :=
  match b with BNil => BNil | BCons s r => BCons (share_stmt s) (share_items r) end.

Definition share_calls (b : block) : block := visit_block (share_items b).
