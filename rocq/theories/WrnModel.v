(** Warnings about what is not implemented, as comments in generated code.

    Modelled code: src/fastforward/_autoquant/cst/quantizer_analysis/unimplemented.py:9-93 NotImplementedMixin. A
    node of the tree has an identity, may have lines before it ([lines]: it has the attribute leading_lines), and
    is visited, with its children, and left. What the transformer that uses the mixin does there is arbitrary:
    the warnings that it gives, and whether the node keeps its type. Changes that drop other nodes are not
    modelled. *)
From Coq Require Import List Arith Bool.
From Verif Require Import Prelude.
Import ListNotations.

Section Wrn.
  Variable msg : Type.

  Inductive node := Node (id : nat) (lines : bool) (on_visit : list msg) (children : list node) (on_leave : list msg) (keeps : bool).

  (** unimplemented.py:75-93 warn_not_implemented; the state is the warnings of the nodes on the stack, the
      innermost first. *)
  Definition warn (stack : list (list msg)) (m : msg) : result (list (list msg)) :=
    match stack with [] => Err RuntimeError | w :: r => Ok ((w ++ [m]) :: r) end.
  Fixpoint warn_all (stack : list (list msg)) (ms : list msg) : result (list (list msg)) :=
    match ms with [] => Ok stack | m :: r => let? s := warn stack m in warn_all s r end.

  (** unimplemented.py:26-73 on_visit and on_leave; the comments that are put before nodes, in the order in which
      nodes are left. *)
  Fixpoint visit (n : node) (stack : list (list msg)) : result (list (list msg) * list (nat * list msg)) :=
    match n with
    | Node id lines before cs after keeps =>
        let stack := if lines then [] :: stack else stack in
        let? stack := warn_all stack before in
        let? sc := (fix visit_all (l : list node) (s : list (list msg)) : result (list (list msg) * list (nat * list msg)) :=
                      match l with
                      | [] => Ok (s, [])
                      | c :: r => let? a := visit c s in let? b := visit_all r (fst a) in Ok (fst b, snd a ++ snd b)
                      end) cs stack in
        let? stack := warn_all (fst sc) after in
        if lines then
          match stack with
          | [] => Err RuntimeError
          | remaining :: rest =>
              if keeps then Ok (rest, snd sc ++ [(id, rev remaining)])
              else match rest with
                   | [] => Ok ([], snd sc)
                   | w :: r => Ok ((w ++ remaining) :: r, snd sc)
                   end
          end
        else Ok (stack, snd sc)
    end.
End Wrn.
Arguments Node {msg}. Arguments visit {msg}. Arguments warn {msg}. Arguments warn_all {msg}.
