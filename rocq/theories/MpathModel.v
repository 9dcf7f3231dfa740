(** Models module path queries: fastforward/mpath/fragments.py, selector.py and _search.py. *)
From Coq Require Import String Ascii.
From Verif Require Import Prelude ModulesModel.
Local Open Scope nat_scope.
Local Open Scope list_scope.

(** fragments.py: the fragment classes. Regular expressions, classes and predicates are given by
    their text or a number; what they accept is a parameter below. *)
Inductive frag :=
| Wild (match_multiple : bool)      (* fragments.py:15-35 *)
| Name (s : string)                 (* fragments.py:38-58 *)
| Regex (pattern : string)          (* fragments.py:61-94 *)
| Cls (c : nat)                     (* fragments.py:97-142 *)
| Pred (p : nat)                    (* fragments.py:145-162 *)
| Joint (fs : list frag)            (* fragments.py:165-195 *)
| Disjoint (fs : list frag)         (* fragments.py:198-223 *)
| Inv (f : frag).                   (* fragments.py:226-247 *)

(** selector.py:53-219 [BaseSelector] with its subclasses [Selector] (220-362) and [MultiSelector]
    (365-463). The chain of [next] references is a list of nodes. [NFrag] carries the identity of
    its fragment object: fragments define [__hash__] but not [__eq__], so they compare by identity. *)
Inductive node :=
| NFrag (i : nat) (f : frag)
| NMulti (alts : list (list node)).
Definition sel := list node.

Section Mpath.
  (** what a pattern, a class and a predicate accept; modules are heap indices *)
  Variable re_fullmatch : string -> string -> bool.
  Variable is_instance : nat -> nat -> bool.         (* module, class *)
  Variable predicate : nat -> string -> nat -> bool.

  (** fragments.py [match] of each class *)
  Fixpoint fmatch (f : frag) (name : string) (m : nat) : bool :=
    match f with
    | Wild _ => true
    | Name s => String.eqb name s
    | Regex p => re_fullmatch p name
    | Cls c => is_instance m c
    | Pred p => predicate p name m
    | Joint fs => forallb (fun g => fmatch g name m) fs
    | Disjoint fs => existsb (fun g => fmatch g name m) fs
    | Inv g => negb (fmatch g name m)
    end.

  (** selector.py:541-551 and the overrides in fragments.py. The joint and disjoint fragments
      (fragments.py:173-174, 206-207) write [fragment.must_advance] without calling it, which is
      always true. *)
  Fixpoint must_advance (f : frag) : bool :=
    match f with
    | Wild mm => negb mm
    | Inv g => must_advance g
    | _ => true
    end.

  (** [isinstance(fragment, WildcardFragment) and fragment.match_multiple] *)
  Definition is_mw (f : frag) : bool := match f with Wild true => true | _ => false end.

  (** selector.py:276-284, 457-463 [has_multi_wildcard_root] *)
  Fixpoint root_node (n : node) : bool :=
    match n with
    | NFrag _ f => is_mw f
    | NMulti alts => forallb (fun alt => match alt with [] => true | a :: _ => root_node a end) alts
    end.
  Definition has_root (s : sel) : bool := match s with [] => true | n :: _ => root_node n end.

  (** selector.py:286-296, 445-455 [remove_multi_wildcard_root]: [strip] acts on the first node,
      None when nothing of it is left. *)
  Definition remove_with (strip : node -> option node) : sel -> option sel :=
    fix go s := match s with
                | [] => None
                | n :: nx => match strip n with None => go nx | Some n' => Some (n' :: nx) end
                end.
  Fixpoint strip (n : node) : option node :=
    match n with
    | NFrag _ f => if is_mw f then None else Some n
    | NMulti alts => Some (NMulti (flat_map (fun alt => match remove_with strip alt with
                                                         | Some a => [a] | None => [] end) alts))
    end.
  Definition remove_root : sel -> option sel := remove_with strip.

  (** selector.py:199-218 [simplify]; the new "**" fragment is a new object, numbered [c] *)
  Definition simplify (c : nat) (s : sel) : sel * nat :=
    if has_root s then
      match remove_root s with
      | Some r => (NFrag c (Wild true) :: r, S c)
      | None => ([NFrag c (Wild true)], S c)
      end
    else (s, c).

  (** selector.py:344-352, 420-429 [fragments]; that of a multi-selector leaves out its [next] *)
  Definition frags_with (fnode : node -> list frag) : sel -> list frag :=
    fix go s := match s with
                | [] => []
                | NFrag i f :: nx => f :: go nx
                | (NMulti _ as n) :: _ => fnode n
                end.
  Fixpoint frags_node (n : node) : list frag :=
    match n with
    | NFrag _ f => [f]
    | NMulti alts => flat_map (frags_with frags_node) alts
    end.
  Definition fragments : sel -> list frag := frags_with frags_node.

  (** selector.py:466-480 [_is_multi_wildcard] *)
  Definition is_multi_wildcard (s : sel) : bool := forallb is_mw (fragments s).

  (** selector.py:354-362, 431-443 [fragment_list]: nested tuples of fragment objects, written as a
      token list with parentheses *)
  Inductive tok := TI (i : nat) | TOpen | TClose.
  Fixpoint toks_node (n : node) : list tok :=
    match n with
    | NFrag i _ => [TI i]
    | NMulti alts => TOpen :: flat_map (flat_map toks_node) alts ++ [TClose]
    end.
  Definition fragment_list (s : sel) : list tok := flat_map toks_node s.
  Definition tok_eqb (a b : tok) : bool :=
    match a, b with
    | TI i, TI j => i =? j
    | TOpen, TOpen | TClose, TClose => true
    | _, _ => false
    end.

  (** selector.py:34-47 [_SelectorContinuation] *)
  Record cont := mkC { k_sel : sel; k_frag : nat * frag; k_consume : bool }.

  (** selector.py:298-342, 398-418 [matches_and_continuations] of the selector [n :: next]; the
      counter numbers new fragment objects. A multi-selector asks every alternative, extended by its
      [next] (selector.py:571-574 [_duplicate_extend]). *)
  Fixpoint matches_conts (name : string) (m : nat) (c : nat) (n : node) (next : sel)
    : list (nat * frag) * list cont * nat :=
    match n with
    | NFrag i f =>
        if negb (fmatch f name m) then ([], [], c)
        else
          let '(k1, c1) :=
            if must_advance f then ([], c)
            else match next with
                 | [] => ([mkC (n :: next) (i, f) true], c)
                 | _ => let (s, c') := simplify c next in
                        ([mkC (n :: next) (i, f) true; mkC s (i, f) false], c')
                 end in
          let '(k2, c2) :=
            match next with
            | [] => ([], c1)
            | _ => let (s, c') := simplify c1 next in ([mkC s (i, f) true], c')
            end in
          let ms := match next with
                    | [] => [(i, f)]
                    | _ => if is_multi_wildcard next then [(i, f)] else []
                    end in
          (ms, k1 ++ k2, c2)
    | NMulti alts =>
        fold_left (fun acc alt =>
          let '(ms, ks, c0) := acc in
          match alt with
          | [] => (ms, ks, c0)
          | a :: tl => let '(ms', ks', c') := matches_conts name m c0 a (tl ++ next) in
                       (ms ++ ms', ks ++ ks', c')
          end) alts ([], [], c)
    end.
  Definition sel_matches_conts (name : string) (m c : nat) (s : sel) : list (nat * frag) * list cont * nat :=
    match s with [] => ([], [], c) | n :: next => matches_conts name m c n next end.

  (** _search.py:19-42 [FilterResult] *)
  Record fres := mkR { r_name : string; r_mod : nat; r_parent : nat; r_attr : string; r_frags : list (nat * frag) }.

  (** _search.py:231-243 [_child_result] *)
  Definition child_result (parent : fres) (m : nat) (name : string) (f : nat * frag) : fres :=
    mkR ((if String.eqb (r_name parent) "" then "" else r_name parent ++ ".") ++ name)%string
        m (r_mod parent) name (r_frags parent ++ [f]).

  Record sstate := mkS { s_results : list fres; s_active : list (sel * fres);
                         s_explored : list (list tok * nat); s_count : nat }.
  Definition marker_eqb (a b : list tok * nat) : bool := list_eqb tok_eqb (fst a) (fst b) && (snd a =? snd b).

  (** _search.py:334-339: the matches of one child. [selected_modules] always holds the modules of
      the results. *)
  Definition add_match (it : sel * fres) (name : string) (child : nat) (st : sstate) (f : nat * frag) : sstate :=
    if existsb (fun r => r_mod r =? child) (s_results st) then st
    else mkS (s_results st ++ [child_result (snd it) child name f]) (s_active st) (s_explored st) (s_count st).
  (** _search.py:341-356: the continuations of one child; the end of the Python list, where items
      are pushed and popped, is the head of [s_active] *)
  Definition add_cont (it : sel * fres) (name : string) (child : nat) (st : sstate) (k : cont) : sstate :=
    let r := if k_consume k then child_result (snd it) child name (k_frag k)
             else mkR (r_name (snd it)) (r_mod (snd it)) (r_parent (snd it)) (r_attr (snd it))
                      (r_frags (snd it) ++ [k_frag k]) in
    let marker := (fragment_list (k_sel k), r_mod r) in
    if existsb (marker_eqb marker) (s_explored st) then st
    else mkS (s_results st) ((k_sel k, r) :: s_active st) (marker :: s_explored st) (s_count st).
  (** _search.py:331-356: one child of the active item's module *)
  Definition visit_child (it : sel * fres) (st : sstate) (ch : string * nat) : sstate :=
    let '(ms, ks, c') := sel_matches_conts (fst ch) (snd ch) (s_count st) (fst it) in
    let st1 := mkS (s_results st) (s_active st) (s_explored st) c' in
    let st2 := fold_left (add_match it (fst ch) (snd ch)) ms st1 in
    fold_left (add_cont it (fst ch) (snd ch)) ks st2.

  (** _search.py:327-356: the while loop; [fuel] bounds the number of iterations *)
  Fixpoint search_loop (fuel : nat) (h : heap) (st : sstate) : result (list fres) :=
    match s_active st with
    | [] => Ok (s_results st)
    | it :: rest =>
        match fuel with
        | 0 => Err RecursionError
        | S n =>
            match nth_error h (r_mod (snd it)) with
            | None => Err AttributeError
            | Some m =>
                search_loop n h (fold_left (visit_child it) (named_children m)
                  (mkS (s_results st) rest (s_explored st) (s_count st)))
            end
        end
    end.

  (** the numbers from [fresh_from s] on are not used by fragments of [s] *)
  Fixpoint ids_node (n : node) : list nat :=
    match n with NFrag i _ => [i] | NMulti alts => flat_map (flat_map ids_node) alts end.
  Definition ids (s : sel) : list nat := flat_map ids_node s.
  Definition fresh_from (s : sel) : nat := S (list_max (ids s)).

  (** _search.py:288-358 [search] of a selector, without aliases *)
  Definition search (fuel : nat) (h : heap) (root : nat) (query : sel) : result (list fres) :=
    let (q, c) := simplify (fresh_from query) query in
    search_loop fuel h (mkS [] [(q, mkR "" root root "" [])] [(fragment_list q, root)] c).
End Mpath.
