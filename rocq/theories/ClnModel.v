(** Removal of quantizer artifacts from a captured graph.

    Modelled code: src/fastforward/export/stages/base_pipeline_stages.py. A graph module is its graph,
    the paths of its submodules and the paths of its parameters and buffers. Paths are lists of names,
    names are numbers. What torch.fx does (lint, dead code elimination, deletion of unused submodules)
    is modelled from its documented behaviour, as torch is no part of the repository. *)
From Coq Require Import List Arith Bool.
From Verif Require Import Prelude.
Import ListNotations.

Definition path := list nat.
Definition path_eqb : path -> path -> bool := list_eqb Nat.eqb.
Definition mem_path (p : path) (l : list path) : bool := existsb (path_eqb p) l.
Definition mem_nat (a : nat) (l : list nat) : bool := existsb (Nat.eqb a) l.

(** torch.fx nodes; arguments are the nodes among the arguments. *)
Inductive op :=
| Placeholder
| GetAttr (p : path)
| CallModule (p : path)
| CallFunction (f : nat)
| Output.
Record node := mkNode { nname : nat; nop : op; nargs : list nat }.
Definition graph := list node.

(** A torch.fx.GraphModule: graph, named_modules without the root, parameters and buffers. *)
Record gmodule := mkGM { gm_graph : graph; gm_modules : list path; gm_attrs : list path }.

(** Which functions and modules torch.fx takes to have side effects (Node.is_impure). *)
Record purity := mkPurity { impure_fn : nat -> bool; impure_mod : path -> bool }.

(** base_pipeline_stages.py:25-30 _collect_quantizer_module_paths. The source module is given by its
    named modules, with a mark for quantizers. *)
Definition collect_quantizer_module_paths (source : list (path * bool)) : list path :=
  map fst (filter (fun x => negb (path_eqb (fst x) []) && snd x) source).

(** base_pipeline_stages.py:33-38 _module_path_prefixes *)
Definition module_path_prefixes (p : path) (include_full_path : bool) : list path :=
  let max_length := if include_full_path then length p else length p - 1 in
  map (fun i => firstn i p) (seq 1 max_length).

(** base_pipeline_stages.py:41-51 _module_prefixes_from_get_attr_target *)
Definition module_prefixes_from_get_attr_target (mods : list path) (p : path) : list path :=
  filter (fun q => mem_path q mods) (map (fun i => firstn i p) (seq 1 (length p))).

(** base_pipeline_stages.py:54-69 _collect_graph_referenced_module_paths *)
Definition collect_graph_referenced_module_paths (m : gmodule) : list path :=
  flat_map (fun n => match nop n with
                     | CallModule p => module_path_prefixes p true
                     | GetAttr p => module_prefixes_from_get_attr_target (gm_modules m) p
                     | _ => []
                     end) (gm_graph m).

(** torch.fx Node.users *)
Definition users (g : graph) (n : node) : list node := filter (fun m => mem_nat (nname n) (nargs m)) g.
(** torch.fx Graph.erase_node, of a node without users *)
Definition erase_node (g : graph) (n : node) : graph := filter (fun m => negb (nname m =? nname n)) g.
(** torch.fx Node.is_impure *)
Definition is_impure (w : purity) (n : node) : bool :=
  match nop n with
  | Placeholder | Output => true
  | GetAttr _ => false
  | CallModule p => impure_mod w p
  | CallFunction f => impure_fn w f
  end.

(** torch.fx Graph.lint: nodes are used after their definition, names are unique, targets exist. *)
Fixpoint lint_order (seen : list nat) (g : graph) : bool :=
  match g with
  | [] => true
  | n :: r => forallb (fun a => mem_nat a seen) (nargs n) && negb (mem_nat (nname n) seen)
              && lint_order (nname n :: seen) r
  end.
Definition is_module (mods : list path) (p : path) : bool :=
  match p with [] => true | _ => mem_path p mods end.
Definition lint_target (m : gmodule) (n : node) : bool :=
  match nop n with
  | CallModule p => forallb (is_module (gm_modules m)) (module_path_prefixes p true)
  | GetAttr p => forallb (is_module (gm_modules m)) (module_path_prefixes p false)
                 && (is_module (gm_modules m) p || mem_path p (gm_attrs m))
  | _ => true
  end.
Definition lint (m : gmodule) : bool := lint_order [] (gm_graph m) && forallb (lint_target m) (gm_graph m).

(** torch.fx Graph.eliminate_dead_code: nodes from last to first; [before] are the nodes still to visit,
    last one first, [kept] the nodes that stay. *)
Fixpoint dead_code (w : purity) (before kept : graph) : graph :=
  match before with
  | [] => kept
  | n :: r =>
      if negb (is_impure w n) && (length (users (rev r ++ n :: kept) n) =? 0) then dead_code w r kept
      else dead_code w r (n :: kept)
  end.
Definition eliminate_dead_code (w : purity) (m : gmodule) : result gmodule :=
  if lint m then Ok (mkGM (dead_code w (rev (gm_graph m)) []) (gm_modules m) (gm_attrs m)) else Err RuntimeError.

(** base_pipeline_stages.py:72-88 PruneUnusedGetAttrsPass; compiling again is left out. *)
Definition is_get_attr (n : node) : bool := match nop n with GetAttr _ => true | _ => false end.
Definition nodes_to_remove (g : graph) : list node :=
  filter (fun n => is_get_attr n && (length (users g n) =? 0)) g.
Definition prune_unused_get_attrs (w : purity) (m : gmodule) : result gmodule :=
  let g := fold_left erase_node (nodes_to_remove (gm_graph m)) (gm_graph m) in
  eliminate_dead_code w (mkGM g (gm_modules m) (gm_attrs m)).

(** torch.fx GraphModule.delete_all_unused_submodules: paths of targets and what is above them are used,
    and what is below a called module. Deleting a submodule deletes what is below it. *)
Fixpoint is_prefix (p q : path) : bool :=
  match p, q with
  | [], _ => true
  | a :: p', b :: q' => (a =? b) && is_prefix p' q'
  | _, [] => false
  end.
Definition used_submodules (m : gmodule) : list path :=
  flat_map (fun n => match nop n with
                     | CallModule p => module_path_prefixes p true ++ filter (is_prefix p) (gm_modules m)
                     | GetAttr p => module_path_prefixes p true
                     | _ => []
                     end) (gm_graph m).
Definition delete_submodule (l : list path) (p : path) : list path := filter (fun q => negb (is_prefix p q)) l.
Definition delete_all_unused_submodules (m : gmodule) : gmodule :=
  let to_delete := filter (fun p => negb (mem_path p (used_submodules m))) (gm_modules m) in
  mkGM (gm_graph m) (fold_left delete_submodule to_delete (gm_modules m))
       (fold_left delete_submodule to_delete (gm_attrs m)).

(** base_pipeline_stages.py:91-99 FinalizeGraphModulePass *)
Definition finalize_graph_module (w : purity) (m : gmodule) : result gmodule :=
  eliminate_dead_code w (delete_all_unused_submodules m).

(** base_pipeline_stages.py:272-306 stage_cleanup_ff_quantizer_artifacts *)
Definition stage_cleanup_ff_quantizer_artifacts (w : purity) (m : gmodule) (source : list (path * bool))
  : result gmodule :=
  let quantizer_module_paths := collect_quantizer_module_paths source in
  let? pruned := prune_unused_get_attrs w m in
  let referenced := collect_graph_referenced_module_paths pruned in
  match filter (fun p => mem_path p referenced) quantizer_module_paths with
  | [] => finalize_graph_module w pruned
  | _ => Err RuntimeError
  end.
