(** Models surrogate classes, registration of quantizers on modules and summaries of quantizers:
    fastforward/nn/quantized_module.py:232-296, 376-397, 422-488, 641-713. The module graph and
    conversion are those of ModulesModel. *)
From Coq Require Import String Ascii.
From Verif Require Import Prelude ModulesModel.
Local Open Scope nat_scope.
Local Open Scope list_scope.

(** ** Surrogates *)
Section Surrogates.
  Variables (is_quantizer is_qmodule : nat -> bool) (base_module : nat).

  (** quantized_module.py:386: the set of classes in the model. Simplification: the set is
      iterated in the order of last occurrence. *)
  Definition classes (h : heap) (root : nat) : result (list nat) :=
    let? (_, l) := named_modules (S (length h)) h true [] [] root in
    Ok (nodup Nat.eq_dec (map (fun pm => cls_of h (snd pm)) l)).
  (** quantized_module.py:376-397 [_missing_modules] *)
  Definition missing_modules (mm : nat -> option entry) (skip_quantized : bool) (h : heap) (root : nat)
    : result (list nat) :=
    let? cs := classes h root in
    Ok (filter (fun c => match mm c with
                         | Some _ => false
                         | None => if c =? base_module then false
                                   else if is_quantizer c then false
                                   else if skip_quantized && is_qmodule c then false
                                   else true
                         end) cs).
  (** The conversion map a call works with (quantized_module.py:466-468 and 518-520): entries of
      [extra_conversion] first, then the global map unless it is ignored. *)
  Definition merged (global : list (nat * nat)) (extra : list (nat * entry)) (ignore_global : bool) (c : nat)
    : option entry :=
    match lookup c extra with
    | Some e => Some e
    | None => if ignore_global then None else option_map To (lookup c global)
    end.
  (** quantized_module.py:422-488 [surrogate_quantized_modules]: one new class per missing class.
      [type(...)] makes a new class each time; new classes are numbered from [fresh]. *)
  Definition surrogate_quantized_modules (global : list (nat * nat)) (extra : list (nat * entry))
    (ignore_global : bool) (fresh : nat) (h : heap) (root : nat) : result (list (nat * nat)) :=
    let? ms := missing_modules (merged global extra ignore_global) true h root in
    Ok (combine ms (seq fresh (length ms))).
  (** The result as a conversion dictionary. *)
  Definition as_entries (s : list (nat * nat)) : list (nat * entry) := map (fun kc => (fst kc, To (snd kc))) s.
  (** A surrogate is a subclass of [QuantizedModule] and of the class it stands for, so it is a
      quantized module; the [__init_quantization__] it inherits first is that of
      [QuantizedModule] (167-173), which creates no quantizers. *)
  Definition is_surrogate (s : list (nat * nat)) (c : nat) : bool := existsb (Nat.eqb c) (map snd s).
  Definition is_qmodule' (s : list (nat * nat)) (c : nat) : bool := is_surrogate s c || is_qmodule c.
  Definition stub_names' (stub_names : nat -> list string) (s : list (nat * nat)) (c : nat) : list string :=
    if is_surrogate s c then [] else stub_names c.
  (** [quantize_model(model, extra_conversion=s, ...)] (491-539) for a result [s] *)
  Definition quantize_with (stub_names : nat -> list string) (stub_cls : nat) (global : list (nat * nat))
    (s : list (nat * nat)) (ignore_global skip_quantized : bool) (fuel : nat) (h : heap) (root : nat)
    : heap * result unit :=
    quantize_model is_quantizer (is_qmodule' s) base_module (merged global (as_entries s) ignore_global)
      skip_quantized (stub_names' stub_names s) stub_cls fuel true h root.
End Surrogates.

(** ** Registration of quantizers *)
(** A quantized module: its [_modules] entries that hold quantizers or None, and
    [_quantizer_metadata] (None before [__init_quantization__]), a dictionary of references to
    metadata objects. *)
Record qmod := mkQM { qattrs : list (string * option nat); qstore : option (list (string * nat)) }.
(** Metadata objects, quantizers (their [quant_metadata]) and modules; identity is the index. *)
Record world := mkW { metas : list meta; quants : list (option nat); qmods : list qmod }.

Fixpoint set_nth {A} (n : nat) (x : A) (l : list A) : list A :=
  match l, n with
  | [], _ => []
  | _ :: l', 0 => x :: l'
  | y :: l', S n' => y :: set_nth n' x l'
  end.
(** dictionary assignment *)
Fixpoint put {A} (k : string) (v : A) (l : list (string * A)) : list (string * A) :=
  match l with
  | [] => [(k, v)]
  | (k', v') :: l' => if String.eqb k k' then (k', v) :: l' else (k', v') :: put k v l'
  end.
Definition set_attr (w : world) (m : nat) (n : string) (q : option nat) : result world :=
  match nth_error (qmods w) m with
  | None => Err AttributeError
  | Some x => Ok (mkW (metas w) (quants w) (set_nth m (mkQM (put n q (qattrs x)) (qstore x)) (qmods w)))
  end.
Definition set_meta_of (w : world) (q r : nat) : world :=
  mkW (metas w) (set_nth q (Some r) (quants w)) (qmods w).
Definition set_store (w : world) (m : nat) (n : string) (r : nat) : result world :=
  match nth_error (qmods w) m with
  | Some x => match qstore x with
              | Some d => Ok (mkW (metas w) (quants w) (set_nth m (mkQM (qattrs x) (Some (put n r d))) (qmods w)))
              | None => Err AttributeError
              end
  | None => Err AttributeError
  end.
(** A call's effect: the world afterwards, also when it raises, and whether it warned. *)
Definition outcome := (world * result bool)%type.

(** quantized_module.py:232-288 [register_quantizer]; [q] is [None] or a quantizer, so the type
    check (247-249) passes *)
Definition register_quantizer (w : world) (m : nat) (n : string) (q : option nat) (register_module : bool) : outcome :=
  match nth_error (qmods w) m with
  | None => (w, Err AttributeError)
  | Some x =>
      match qstore x with
      | None => (w, Err AttributeError)
      | Some d =>
          match (if register_module then set_attr w m n q else Ok w) with
          | Err e => (w, Err e)
          | Ok w1 =>
              match q with
              | None => (w1, Ok false)
              | Some qi =>
                  match nth_error (quants w1) qi with
                  | None => (w1, Err AttributeError)
                  | Some own =>
                      match own, slookup n d with
                      | Some r, None =>
                          match set_store w1 m n r with
                          | Err e => (w1, Err e)
                          | Ok w2 => (set_meta_of w2 qi r, Ok false)
                          end
                      | Some r, Some r0 =>
                          match nth_error (metas w1) r0, nth_error (metas w1) r with
                          | Some a, Some b =>
                              match is_extension a b with
                              | Err e => (w1, Err e)
                              | Ok ext => (set_meta_of w1 qi r0, Ok (negb ext))
                              end
                          | _, _ => (w1, Err AttributeError)
                          end
                      | None, None =>
                          let w2 := mkW (metas w1 ++ [([], [("shape"%string, None)])]) (quants w1) (qmods w1) in
                          match set_store w2 m n (length (metas w1)) with
                          | Err e => (w2, Err e)
                          | Ok w3 => (set_meta_of w3 qi (length (metas w1)), Ok false)
                          end
                      | None, Some r0 => (set_meta_of w1 qi r0, Ok false)
                      end
                  end
              end
          end
      end
  end.
(** quantized_module.py:290-296 [__setattr__] with a quantizer; [torch.nn.Module.__setattr__] puts
    it in [_modules] first *)
Definition setattr_quantizer (w : world) (m : nat) (n : string) (q : nat) : outcome :=
  match set_attr w m n (Some q) with
  | Err e => (w, Err e)
  | Ok w1 => register_quantizer w1 m n (Some q) false
  end.

(** What a user does to modules and quantizers. *)
Inductive step :=
| NewModule                                 (* constructed, [__init_quantization__] not yet run *)
| Init (m : nat)                            (* [__init_quantization__] (167-173) *)
| NewQuantizer (md : option meta)           (* nn/quantizer.py:253-262, 460-476 *)
| Assign (m : nat) (n : string) (q : nat)   (* [setattr(m, n, q)] *)
| Register (m : nat) (n : string) (q : option nat)
| Clear (m : nat) (n : string)              (* [setattr(m, n, None)] on a registered name *)
| Delete (m : nat) (n : string)             (* [delattr(m, n)] *)
| Tag (q : nat) (t : string).               (* [q.quant_metadata.add_tag(t)], nn/quantizer.py:190-197 *)
Definition do_step (w : world) (s : step) : outcome :=
  match s with
  | NewModule => (mkW (metas w) (quants w) (qmods w ++ [mkQM [] None]), Ok false)
  | Init m =>
      match nth_error (qmods w) m with
      | None => (w, Err AttributeError)
      | Some x => (mkW (metas w) (quants w) (set_nth m (mkQM (qattrs x) (Some [])) (qmods w)), Ok false)
      end
  | NewQuantizer None => (mkW (metas w) (quants w ++ [None]) (qmods w), Ok false)
  | NewQuantizer (Some md) => (mkW (metas w ++ [md]) (quants w ++ [Some (length (metas w))]) (qmods w), Ok false)
  | Assign m n q => setattr_quantizer w m n q
  | Register m n q => register_quantizer w m n q true
  | Clear m n => match set_attr w m n None with Err e => (w, Err e) | Ok w1 => (w1, Ok false) end
  | Delete m n =>
      match nth_error (qmods w) m with
      | None => (w, Err AttributeError)
      | Some x =>
          match slookup n (qattrs x) with
          | None => (w, Err AttributeError)
          | Some _ => (mkW (metas w) (quants w)
                         (set_nth m (mkQM (filter (fun e => negb (String.eqb n (fst e))) (qattrs x)) (qstore x)) (qmods w)), Ok false)
          end
      end
  | Tag q t =>
      match nth_error (quants w) q with
      | Some (Some r) =>
          match nth_error (metas w) r with
          | Some md => (mkW (set_nth r (add_tag (fst md) t, snd md) (metas w)) (quants w) (qmods w), Ok false)
          | None => (w, Err AttributeError)
          end
      | _ => (w, Err AttributeError)
      end
  end.
(** A history: calls whose exceptions are caught. *)
Definition history (w : world) (ss : list step) : world := fold_left (fun w s => fst (do_step w s)) ss w.

(** ** Summaries *)
(** [str.split(".")] *)
Fixpoint split_dots (cur : string) (s : string) : list string :=
  match s with
  | EmptyString => [cur]
  | String c s' => if Ascii.eqb c "." then cur :: split_dots EmptyString s'
                   else split_dots (cur ++ String c EmptyString) s'
  end.
(** [".".join(...)] *)
Fixpoint join_dots (l : list string) : string :=
  match l with
  | [] => EmptyString
  | [x] => x
  | x :: l' => (x ++ "." ++ join_dots l')%string
  end.
(** [str.isdigit] on ASCII strings *)
Definition digit (c : ascii) : bool := (48 <=? nat_of_ascii c) && (nat_of_ascii c <=? 57).
Fixpoint all_digits (s : string) : bool :=
  match s with EmptyString => true | String c s' => digit c && all_digits s' end.
Definition isdigit (s : string) : bool := negb (String.eqb s EmptyString) && all_digits s.

(** [d.setdefault(k, []).append(v)] *)
Fixpoint append_to {K V} (eqb : K -> K -> bool) (k : K) (v : V) (d : list (K * list V)) : list (K * list V) :=
  match d with
  | [] => [(k, [v])]
  | (k', vs) :: d' => if eqb k k' then (k', vs ++ [v]) :: d' else (k', vs) :: append_to eqb k v d'
  end.
Definition group {K V} (eqb : K -> K -> bool) (l : list (K * V)) : list (K * list V) :=
  fold_left (fun d kv => append_to eqb (fst kv) (snd kv) d) l [].
(** [sorted(items, key=lambda item: len(item[1]), reverse=True)]: stable *)
Fixpoint insert_by {K V} (e : K * list V) (l : list (K * list V)) : list (K * list V) :=
  match l with
  | [] => [e]
  | e' :: l' => if length (snd e) <? length (snd e') then e' :: insert_by e l' else e :: l
  end.
Fixpoint sort_by {K V} (l : list (K * list V)) : list (K * list V) :=
  match l with [] => [] | e :: l' => insert_by e (sort_by l') end.

(** quantized_module.py:687-697 [_summarize_quantizers]: the quantizers with their names, and
    what [repr] says about each *)
Definition summarize (repr : nat -> string) (named : list (string * nat)) : list (string * list string) :=
  sort_by (group String.eqb (map (fun nq => (repr (snd nq), fst nq)) named)).
(** quantized_module.py:700-713 [_deduplicate_quantizer_names] *)
Definition part_key (p : string) : option string := if isdigit p then None else Some p.
Definition name_key (name : string) : list (option string) := map part_key (split_dots EmptyString name).
Definition opt_eqb (a b : option string) : bool :=
  match a, b with Some x, Some y => String.eqb x y | None, None => true | _, _ => false end.
Fixpoint key_eqb (a b : list (option string)) : bool :=
  match a, b with
  | [], [] => true
  | x :: a', y :: b' => opt_eqb x y && key_eqb a' b'
  | _, _ => false
  end.
Definition show_part (p : option string) : string := match p with Some s => s | None => "[]"%string end.
Definition dedup_row (e : list (option string) * list string) : string * nat :=
  match snd e with
  | [name] => (name, 1)
  | names => (join_dots (map show_part (fst e)), length names)
  end.
Definition deduplicate_names (names : list string) : list (string * nat) :=
  map dedup_row (sort_by (group key_eqb (map (fun n => (name_key n, n)) names))).
