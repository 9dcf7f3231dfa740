(** Models the module tree, conversion to quantized modules and quantizer initialization:
    fastforward/nn/quantized_module.py, nn/quantizer.py (tags) and
    quantization/quant_init.py. A model is a heap of modules; identity is the heap index. *)
From Coq Require Import String Ascii.
From Verif Require Import Prelude.
Local Open Scope nat_scope.
Local Open Scope list_scope.

(** A [torch.nn.Module]: its class, its [_modules] dictionary in insertion order (entries may be
    None) and its parameters and buffers (only copied around). Simplification: other
    instance attributes and the per-module quantizer metadata are not part of the record. *)
Record modrec := mkM { mcls : nat; mkids : list (string * option nat); mparams : list (string * nat) }.
Definition heap := list modrec.

Definition kid_ids (kids : list (string * option nat)) : list nat :=
  flat_map (fun k => match snd k with Some c => [c] | None => [] end) kids.
Fixpoint dedup_names (seen : list nat) (kids : list (string * option nat)) : list (string * nat) :=
  match kids with
  | [] => []
  | (n, None) :: l => dedup_names seen l
  | (n, Some c) :: l => if existsb (Nat.eqb c) seen then dedup_names seen l
                        else (n, c) :: dedup_names (c :: seen) l
  end.
(** [torch.nn.Module.named_children]: skips None and modules already seen (called in
    quantized_module.py:66, 223 and mpath/_search.py:331). *)
Definition named_children (m : modrec) : list (string * nat) := dedup_names [] (mkids m).

(** [torch.nn.Module.named_modules(memo, prefix, remove_duplicate)] (called in
    quantized_module.py:64, 386): pre-order, with one shared memo. Names are kept as lists of
    attribute names; Python joins them with dots. [fuel] stands for the recursion limit. *)
Fixpoint named_modules (fuel : nat) (h : heap) (remove_dup : bool) (memo : list nat) (path : list string) (id : nat)
  : result (list nat * list (list string * nat)) :=
  match fuel with
  | 0 => Err RecursionError
  | S f =>
      if existsb (Nat.eqb id) memo then Ok (memo, [])
      else match nth_error h id with
           | None => Err AttributeError
           | Some m =>
               let memo1 := if remove_dup then id :: memo else memo in
               fold_left (fun r k =>
                 let? (mm, acc) := r in
                 match snd k with
                 | None => Ok (mm, acc)
                 | Some c => let? (mm', l) := named_modules f h remove_dup mm (path ++ [fst k]) c in
                             Ok (mm', acc ++ l)
                 end) (mkids m) (Ok (memo1, [(path, id)]))
           end
  end.

Section Classes.
  (** [isinstance]/[issubclass] tests on classes. *)
  Variables (is_quantizer is_stub is_qmodule : nat -> bool).
  Variable base_module : nat.   (* torch.nn.Module itself *)

  Definition cls_of (h : heap) (id : nat) : nat := match nth_error h id with Some m => mcls m | None => 0 end.

  (** quantized_module.py:38-71 [named_quantizers] *)
  Definition wanted (h : heap) (skip_stubs : bool) (id : nat) : bool :=
    is_quantizer (cls_of h id) && negb (skip_stubs && is_stub (cls_of h id)).
  Definition named_quantizers (fuel : nat) (h : heap) (root : nat) (prefix : list string)
    (recurse remove_dup skip_stubs : bool) : result (list (list string * nat)) :=
    let? l := (if recurse then rmap snd (named_modules fuel h remove_dup [] [] root)
               else match nth_error h root with
                    | Some m => Ok (map (fun k => ([fst k], snd k)) (named_children m))
                    | None => Err AttributeError
                    end) in
    Ok (map (fun pm => (prefix ++ fst pm, snd pm)) (filter (fun pm => wanted h skip_stubs (snd pm)) l)).

  (** ** Conversion *)
  Inductive entry := Skip | To (c : nat).
  Variable mm : nat -> option entry.           (* the merged conversion map *)
  Variable skip_quantized : bool.
  Variable stub_names : nat -> list string.    (* stubs created by __init_quantization__ *)
  Variable stub_cls : nat.

  (** quantized_module.py:376-397 [_missing_modules] is empty, for every class in the model *)
  Definition class_ok (c : nat) : bool :=
    match mm c with Some _ => true | None =>
      (c =? base_module) || is_quantizer c || (skip_quantized && is_qmodule c) end.
  Definition quantizable (h : heap) (root : nat) : bool :=
    match named_modules (S (length h)) h true [] [] root with
    | Ok (_, l) => forallb (fun pm => class_ok (cls_of h (snd pm))) l
    | Err _ => false
    end.

  (** dictionary assignment *)
  Fixpoint set_kid (n : string) (c : nat) (kids : list (string * option nat)) : list (string * option nat) :=
    match kids with
    | [] => [(n, Some c)]
    | (n', c') :: l => if String.eqb n n' then (n, Some c) :: l else (n', c') :: set_kid n c l
    end.
  Fixpoint set_mod (id : nat) (m : modrec) (h : heap) : heap :=
    match h, id with
    | [], _ => []
    | _ :: l, 0 => m :: l
    | x :: l, S id' => x :: set_mod id' m l
    end.
  Definition upd_mod (id : nat) (f : modrec -> modrec) (h : heap) : heap :=
    match nth_error h id with Some m => set_mod id (f m) h | None => h end.
  Definition setattr_mod (h : heap) (id : nat) (n : string) (c : nat) : heap :=
    upd_mod id (fun m => mkM (mcls m) (set_kid n c (mkids m)) (mparams m)) h.

  (** [__init_quantization__] of quantized classes assigns new [QuantizerStub]s to attributes
      (e.g. nn/linear.py:20-33). Simplification: it does nothing else. *)
  Definition add_stub (id : nat) (h : heap) (n : string) : heap :=
    setattr_mod (h ++ [mkM stub_cls [] []]) id n (length h).
  Definition init_quantization (h : heap) (id : nat) (c : nat) : heap :=
    fold_left (add_stub id) (stub_names c) h.

  (** quantized_module.py:542-564 [_quantize_module] *)
  Definition quantize_module (h : heap) (id : nat) : heap * result unit :=
    match mm (cls_of h id) with
    | None => (h, Err QuantizationError)
    | Some Skip => (h, Ok tt)
    | Some (To c) =>
        (init_quantization (upd_mod id (fun m => mkM c (mkids m) (mparams m)) h) id c, Ok tt)
    end.

  (** quantized_module.py:491-539 [quantize_model] and 193-230 [quantize_children] *)
  Fixpoint quantize_model (fuel : nat) (recursive : bool) (h : heap) (id : nat) : heap * result unit :=
    match fuel with
    | 0 => (h, Err RecursionError)
    | S f =>
        if negb (quantizable h id) then (h, Err QuantizationError)
        else
          let (h1, r1) := if skip_quantized && is_qmodule (cls_of h id) then (h, Ok tt) else quantize_module h id in
          match r1 with
          | Err e => (h1, Err e)
          | Ok _ =>
              if is_qmodule (cls_of h1 id) && recursive then
                match nth_error h1 id with
                | None => (h1, Err AttributeError)
                | Some m =>
                    fold_left (fun st k =>
                      match st with
                      | (hc, Err e) => (hc, Err e)
                      | (hc, Ok _) => if is_quantizer (cls_of hc (snd k)) then (hc, Ok tt)
                                      else quantize_model f true hc (snd k)
                      end) (named_children m) (h1, Ok tt)
                end
              else (h1, Ok tt)
          end
    end.
End Classes.

(** ** The global conversion map: quantized_module.py:92-127, 567-638 *)
(** [_QUANTIZED_MODULE_MAP]: module class to quantized classes, in registration order. *)
Definition qmap := list (nat * list nat).
(** [dict.setdefault(module, []).append(cls)] *)
Fixpoint record_entry (m c : nat) (q : qmap) : qmap :=
  match q with
  | [] => [(m, [c])]
  | (m', cs) :: q' => if m =? m' then (m', cs ++ [c]) :: q' else (m', cs) :: record_entry m c q'
  end.
(** quantized_module.py:99-127 [_record_quantized_module]: [bases] are the direct base classes,
    [mro] the method resolution order without the class itself. *)
Section Record_.
  Variables (is_module is_qmodule : nat -> bool) (base_module : nat).
  Definition module_bases (bases mro : list nat) : list nat :=
    match filter (fun b => negb (is_qmodule b) && is_module b) bases with
    | [] => filter (fun b => negb (is_qmodule b) && (is_module b && negb (b =? base_module))) mro
    | l => l
    end.
  Definition record_quantized_module (q : qmap) (c : nat) (bases mro : list nat) : qmap :=
    match module_bases bases mro with
    | [m] => record_entry m c q
    | _ => q
    end.
End Record_.
(** quantized_module.py:567-594: classes filtered by the allow list; the last one is used *)
Fixpoint last_opt {A} (l : list A) : option A :=
  match l with [] => None | [x] => Some x | _ :: l' => last_opt l' end.
Definition quantized_module_map (allowed : nat -> bool) (q : qmap) : list (nat * nat) :=
  flat_map (fun e => match last_opt (filter allowed (snd e)) with Some c => [(fst e, c)] | None => [] end) q.
Fixpoint lookup {B} (m : nat) (l : list (nat * B)) : option B :=
  match l with [] => None | (k, v) :: l' => if m =? k then Some v else lookup m l' end.

(** quantized_module.py:626-638 [_is_class_from_module] on module names *)
Definition from_module (class_module module_name : string) : bool :=
  String.eqb class_module module_name || String.prefix (module_name ++ ".") class_module.
(** quantized_module.py:620-623: [filters] is [_QUANTIZED_MODULE_MAP_FILTER] *)
Definition allow_listed (mod_of : nat -> string) (filters : option (list string)) (c : nat) : bool :=
  match filters with
  | None => true
  | Some ms => existsb (from_module (mod_of c)) ms
  end.

(** Programs with registrations, filter blocks and queries (598-617). A block may end by an
    exception ([raises]), which is caught outside it. *)
Inductive fprog :=
| FEnd
| FRegister (c : nat) (bases mro : list nat) (rest : fprog)
| FQuery (rest : fprog)
| FFilter (ms : list string) (raises : bool) (body rest : fprog).
Section FProg.
  Variables (is_module is_qmodule : nat -> bool) (base_module : nat) (mod_of : nat -> string).
  Fixpoint frun (q : qmap) (flt : option (list string)) (p : fprog) : qmap * option (list string) * list (list (nat * nat)) :=
    match p with
    | FEnd => (q, flt, [])
    | FRegister c bases mro rest => frun (record_quantized_module is_module is_qmodule base_module q c bases mro) flt rest
    | FQuery rest =>
        let '(q', flt', out) := frun q flt rest in
        (q', flt', quantized_module_map (allow_listed mod_of flt) q :: out)
    | FFilter ms raises body rest =>
        let current := flt in
        let '(q1, _, out1) := frun q (Some ms) body in
        let '(q2, flt2, out2) := frun q1 current rest in
        (q2, flt2, out1 ++ out2)
    end.
End FProg.

(** ** Tags: nn/quantizer.py:22-94, 190-204 *)
(** [str.split("/")] *)
Fixpoint split_slash (cur : string) (s : string) : list string :=
  match s with
  | EmptyString => [cur]
  | String c s' => if Ascii.eqb c "/" then cur :: split_slash EmptyString s'
                   else split_slash (cur ++ String c EmptyString) s'
  end.
Definition split (s : string) : list string := split_slash EmptyString s.
(** ["/".join(...)] *)
Fixpoint join (l : list string) : string :=
  match l with
  | [] => EmptyString
  | [x] => x
  | x :: l' => (x ++ "/" ++ join l')%string
  end.
(** nn/quantizer.py:68-80 [Tag.hierarchy]; a tag is its symbol, since symbols are interned *)
Definition hierarchy (t : string) : list string :=
  let fs := split t in
  map (fun i => join (firstn i fs)) (rev (seq 1 (length fs))).
(** nn/quantizer.py:82-92 [Tag.__truediv__] *)
Definition tag_div (a b : string) : string := (a ++ "/" ++ b)%string.
(** nn/quantizer.py:190-204 [add_tag], [__contains__]: the set of tags as a list *)
Definition add_tag (ts : list string) (t : string) : list string := hierarchy t ++ ts.
Definition metadata_tags (ts : list string) : list string := fold_left add_tag ts [].
Definition has_tag (ts : list string) (t : string) : bool := existsb (String.eqb t) ts.
(** quant_init.py:34-51 [QuantizerTagSelectorFragment.match]; [None]: not a quantizer or no
    metadata *)
Definition tag_fragment_match (tags : list string) (meta : option (list string)) : bool :=
  match meta with
  | None => false
  | Some ts => forallb (has_tag ts) tags
  end.
(** nn/quantizer.py:220-243 [is_extension]: attributes are a dictionary; values are numbers,
    [None] only for "shape" *)
Definition meta := (list string * list (string * option nat))%type.
Fixpoint slookup {B} (k : string) (l : list (string * B)) : option B :=
  match l with [] => None | (k', v) :: l' => if String.eqb k k' then Some v else slookup k l' end.
Fixpoint attrs_extend (self other : list (string * option nat)) : result bool :=
  match self with
  | [] => Ok true
  | (k, v) :: l =>
      if String.eqb k "shape" && match v with None => true | _ => false end then attrs_extend l other
      else match slookup k other with
           | None => Err KeyError
           | Some v' =>
               match v, v' with
               | Some a, Some b => if a =? b then attrs_extend l other else Ok false
               | None, None => attrs_extend l other
               | _, _ => Ok false
               end
           end
  end.
Definition is_extension (a b : meta) : result bool :=
  if forallb (has_tag (fst b)) (fst a) then attrs_extend (snd a) (snd b) else Ok false.

(** ** Quantizer initialization: quant_init.py *)
(** mpath/_search.py:19-39 [FilterResult] without the matched fragments *)
Record fresult := mkF { f_name : string; f_mod : nat; f_parent : nat; f_attr : string }.
Inductive policy := POverwrite | PSkip | PError | POther.

Fixpoint getattr_mod (n : string) (kids : list (string * option nat)) : option nat :=
  match kids with
  | [] => None
  | (n', c) :: l => if String.eqb n n' then c else getattr_mod n l
  end.
(** _search.py:27-39 [update_module]: the replacement is a new object *)
Definition update_module (h : heap) (r : fresult) (new : modrec) (safe : bool) : heap * result fresult :=
  match nth_error h (f_parent r) with
  | None => (h, Err AttributeError)
  | Some p =>
      if safe && negb (match getattr_mod (f_attr r) (mkids p) with Some c => c =? f_mod r | None => false end)
      then (h, Err ValueError)
      else (setattr_mod (h ++ [new]) (f_parent r) (f_attr r) (length h),
            Ok (mkF (f_name r) (length h) (f_parent r) (f_attr r)))
  end.

Section Init.
  Variables (is_quantizer is_stub : nat -> bool).
  Variable factory : nat -> string -> modrec -> result modrec.  (* rule, full name, existing *)

  (** quant_init.py:72-101 [_initialize_quantizer]; the log records factory calls *)
  Definition initialize_quantizer (h : heap) (r : fresult) (rule : nat) (pol : policy) (safe : bool)
    : heap * result fresult * list (nat * nat) :=
    match nth_error h (f_mod r) with
    | None => (h, Err AttributeError, [])
    | Some m =>
        if negb (is_quantizer (mcls m)) then (h, Err TypeError, [])
        else
          let go := match factory rule (f_name r) m with
                    | Err e => (h, Err e, [(f_mod r, rule)])
                    | Ok new => let (h', res) := update_module h r new safe in (h', res, [(f_mod r, rule)])
                    end in
          if is_stub (mcls m) then go
          else match pol with
               | PError => (h, Err QuantizationError, [])
               | PSkip => (h, Ok r, [])
               | POverwrite => go
               | POther => (h, Err ValueError, [])
               end
    end.

  (** quant_init.py:151-167 [_initialize_with_factory] and 380-387, the second loop of
      [QuantizationConfig.initialize] *)
  Fixpoint initialize_all (h : heap) (items : list (fresult * nat)) (pol : policy) (safe : bool)
    : heap * result (list fresult) * list (nat * nat) :=
    match items with
    | [] => (h, Ok [], [])
    | (r, rule) :: items' =>
        match initialize_quantizer h r rule pol safe with
        | (h1, Err e, log) => (h1, Err e, log)
        | (h1, Ok r', log) =>
            match initialize_all h1 items' pol safe with
            | (h2, Err e, log') => (h2, Err e, log ++ log')
            | (h2, Ok rs, log') => (h2, Ok (r' :: rs), log ++ log')
            end
        end
    end.
  (** quant_init.py:169-211 [QuantizerCollection.initialize]: one factory *)
  Definition collection_initialize (h : heap) (rs : list fresult) (pol : policy) (safe : bool) :=
    initialize_all h (map (fun r => (r, 0)) rs) pol safe.

  (** quant_init.py:372-378, the first loop: [matches] as an insertion-ordered dictionary keyed by
      module identity *)
  Variable score : nat -> fresult -> Z.
  Fixpoint upsert (q : nat) (it : fresult * nat) (ms : list (nat * (fresult * nat))) : list (nat * (fresult * nat)) :=
    match ms with
    | [] => [(q, it)]
    | (q', it') :: l =>
        if q =? q' then
          (if (score (snd it') (fst it') <=? score (snd it) (fst it))%Z then (q', it) :: l else (q', it') :: l)
        else (q', it') :: upsert q it l
    end.
  Definition collect (cands : list (fresult * nat)) : list (nat * (fresult * nat)) :=
    fold_left (fun ms it => upsert (f_mod (fst it)) it ms) cands [].

  (** quant_init.py:343-387; [find rule h] is the result of [find_quantizers(model, rule.query)] *)
  Definition config_initialize (find : nat -> heap -> list fresult) (h : heap) (rules : list nat) (pol : policy) (safe : bool)
    : heap * result (list fresult) * list (nat * nat) :=
    let cands := flat_map (fun rule => map (fun r => (r, rule)) (find rule h)) rules in
    initialize_all h (map snd (collect cands)) pol safe.
End Init.
