(** Specification vocabulary for module graphs, conversion and initialization. *)
From Coq Require Import String Ascii.
From Verif Require Import Prelude ModulesModel.
Local Open Scope nat_scope.
Local Open Scope list_scope.

(** Following attribute names from module [id] along [p] arrives at [z]. *)
Inductive leads (h : heap) : nat -> list string -> nat -> Prop :=
| leads_here id m : nth_error h id = Some m -> leads h id [] id
| leads_step id m n c p z : nth_error h id = Some m -> In (n, Some c) (mkids m) -> leads h c p z -> leads h id (n :: p) z.

(** Attribute names of a module are distinct and refer to existing modules. *)
Definition heap_ok (h : heap) : Prop :=
  forall id m, nth_error h id = Some m -> NoDup (map fst (mkids m)) /\ forall n c, In (n, Some c) (mkids m) -> c < length h.
(** No module contains itself, directly or indirectly. *)
Definition ranked (h : heap) (rank : nat -> nat) : Prop :=
  forall id m n c, nth_error h id = Some m -> In (n, Some c) (mkids m) -> rank c < rank id.

(** ** Conversion *)
Section Convert.
  Variables (is_quantizer is_qmodule : nat -> bool).
  Variable mm : nat -> option entry.
  Variable skip_quantized : bool.
  Variable stub_names : nat -> list string.

  (** The class an instance of class [c] is converted to, if it is converted at all. *)
  Definition target (c : nat) : option nat :=
    if skip_quantized && is_qmodule c then None
    else match mm c with Some (To c') => Some c' | _ => None end.
  Definition final_class (c : nat) : nat := match target c with Some c' => c' | None => c end.
  (** The quantizer attributes the conversion creates. *)
  Definition new_attrs (c : nat) : list string := match target c with Some c' => stub_names c' | None => [] end.

  (** The modules [quantize_model] works on: the start, and below each module that ends up quantized
      its submodules (except quantizers and attributes replaced by new quantizers). *)
  Inductive visits (h : heap) : nat -> nat -> Prop :=
  | visits_here x : visits h x x
  | visits_step x m n y my z : nth_error h x = Some m -> is_qmodule (final_class (mcls m)) = true ->
      In (n, Some y) (mkids m) -> ~ In n (new_attrs (mcls m)) ->
      nth_error h y = Some my -> is_quantizer (mcls my) = false -> visits h y z -> visits h x z.

  (** [m'] is [m] converted, in a heap [h'] whose modules from [n0] on are new. *)
  Definition converted (stub_cls n0 : nat) (h' : heap) (m m' : modrec) : Prop :=
    mcls m' = final_class (mcls m) /\ mparams m' = mparams m /\
    (forall n, ~ In n (new_attrs (mcls m)) -> slookup n (mkids m') = slookup n (mkids m)) /\
    (forall n, In n (new_attrs (mcls m)) -> exists s, slookup n (mkids m') = Some (Some s) /\ n0 <= s /\
       nth_error h' s = Some (mkM stub_cls [] [])).
  (** Every module has one containing module among those reachable from [root]. *)
  Definition one_parent (h : heap) (root : nat) : Prop :=
    forall p1 a ma n1 p2 b mb n2 c, leads h root p1 a -> leads h root p2 b ->
      nth_error h a = Some ma -> In (n1, Some c) (mkids ma) -> nth_error h b = Some mb -> In (n2, Some c) (mkids mb) -> a = b.
End Convert.

(** ** The conversion map *)
(** A quantized class with these bases stands for the float class [m]: its only direct base that is a
    module and not a quantized module or, failing any such base, its only such ancestor other than
    [torch.nn.Module]. *)
Definition only (P : nat -> bool) (l : list nat) (m : nat) : Prop :=
  In m l /\ P m = true /\ forall b, In b l -> P b = true -> b = m.
Definition stands_for (is_module is_qmodule : nat -> bool) (base_module : nat) (bases mro : list nat) (m : nat) : Prop :=
  only (fun b => negb (is_qmodule b) && is_module b) bases m \/
  ((forall b, In b bases -> negb (is_qmodule b) && is_module b = false) /\
   only (fun b => negb (is_qmodule b) && (is_module b && negb (b =? base_module))) mro m).
(** A registration: the class, its direct bases, its ancestors. *)
Definition reg := (nat * list nat * list nat)%type.
(** [c] is the class of the last registration in [rs] that is allowed and stands for [m]. *)
Definition last_registered (Std : reg -> nat -> Prop) (allowed : nat -> bool) (rs : list reg) (m c : nat) : Prop :=
  exists pre r post, rs = pre ++ r :: post /\ fst (fst r) = c /\ Std r m /\ allowed c = true /\
    forall r', In r' post -> Std r' m -> allowed (fst (fst r')) = false.

(** ** Tags *)
(** [u] is [t] or one of its descendants. *)
Definition descends (u t : string) : Prop := u = t \/ exists s, u = (t ++ "/" ++ s)%string.

(** ** Initialization *)
(** A search result describes the heap: the parent holds the quantizer under that attribute. *)
Definition located (h : heap) (r : fresult) : Prop :=
  exists p, nth_error h (f_parent r) = Some p /\ NoDup (map fst (mkids p)) /\ slookup (f_attr r) (mkids p) = Some (Some (f_mod r)).
(** The rule [it] wins quantizer [q] among the candidates, in the order they are considered. *)
Definition wins (score : nat -> fresult -> Z) (cands : list (fresult * nat)) (q : nat) (it : fresult * nat) : Prop :=
  exists pre post, cands = pre ++ it :: post /\ f_mod (fst it) = q /\
    (forall it', In it' pre -> f_mod (fst it') = q -> (score (snd it') (fst it') <= score (snd it) (fst it))%Z) /\
    (forall it', In it' post -> f_mod (fst it') = q -> (score (snd it') (fst it') < score (snd it) (fst it))%Z).
(** What initializing [its] does to the heap: [touched] items are replaced by what their rule's
    factory made from the quantizer, under the same attribute; nothing else changes. *)
Definition initialized (factory : nat -> string -> modrec -> result modrec) (touched : fresult * nat -> bool)
  (h : heap) (its : list (fresult * nat)) (h' : heap) (rs : list fresult) : Prop :=
  Forall2 (fun it r' =>
    if touched it then
      exists m new id p', nth_error h (f_mod (fst it)) = Some m /\ factory (snd it) (f_name (fst it)) m = Ok new /\
        length h <= id /\ nth_error h' id = Some new /\
        nth_error h' (f_parent (fst it)) = Some p' /\ slookup (f_attr (fst it)) (mkids p') = Some (Some id) /\
        r' = mkF (f_name (fst it)) id (f_parent (fst it)) (f_attr (fst it))
    else r' = fst it) its rs /\
  length h' = length h + length (filter touched its) /\
  (forall x m, nth_error h x = Some m -> exists m', nth_error h' x = Some m' /\ mcls m' = mcls m /\ mparams m' = mparams m /\
    forall n, (forall it, In it its -> touched it = true -> ~ (f_parent (fst it) = x /\ f_attr (fst it) = n)) ->
      slookup n (mkids m') = slookup n (mkids m)) /\
  (forall x, x < length h -> (forall it, In it its -> touched it = true -> f_parent (fst it) <> x) -> nth_error h' x = nth_error h x).

(** ** Histories of registrations *)
Section Histories.
  Variables (is_module is_qmodule : nat -> bool) (base_module : nat).
  Definition record_all (q : qmap) (rs : list reg) : qmap := fold_left (fun q r => record_quantized_module is_module is_qmodule base_module q (fst (fst r)) (snd (fst r)) (snd r)) rs q.
  Definition std (r : reg) (m : nat) : Prop := stands_for is_module is_qmodule base_module (snd (fst r)) (snd r) m.
  Definition proper (r : reg) : Prop := NoDup (snd (fst r)) /\ NoDup (snd r).

End Histories.
  Fixpoint registrations (p : fprog) : list reg :=
    match p with
    | FEnd => []
    | FRegister c b m rest => (c, b, m) :: registrations rest
    | FQuery rest => registrations rest
    | FFilter _ _ body rest => registrations body ++ registrations rest
    end.
  (** every query with the filter of the innermost block around it and the registrations before it *)
  Fixpoint queries (past : list reg) (flt : option (list string)) (p : fprog) : list (option (list string) * list reg) :=
    match p with
    | FEnd => []
    | FRegister c b m rest => queries (past ++ [(c, b, m)]) flt rest
    | FQuery rest => (flt, past) :: queries past flt rest
    | FFilter ms _ body rest => queries past (Some ms) body ++ queries (past ++ registrations body) flt rest
    end.

Section Items.
  Variables (is_quantizer is_stub : nat -> bool).
  Variable factory : nat -> string -> modrec -> result modrec.
  (** what an item needs *)
  Definition ready (h : heap) (it : fresult * nat) : Prop :=
    located h (fst it) /\ is_quantizer (cls_of h (f_mod (fst it))) = true /\
    exists m, nth_error h (f_mod (fst it)) = Some m /\ exists new, factory (snd it) (f_name (fst it)) m = Ok new.
  Definition touched (pol : policy) (h : heap) (it : fresult * nat) : bool :=
    is_stub (cls_of h (f_mod (fst it))) || match pol with POverwrite => true | _ => false end.

  Definition runs (pol : policy) (h : heap) (its : list (fresult * nat)) : Prop :=
    pol = POverwrite \/ pol = PSkip \/ Forall (fun it => is_stub (cls_of h (f_mod (fst it))) = true) its.

End Items.

(** A quantizer that is listed: not a stub if stubs are to be skipped. *)
Definition listed (is_quantizer is_stub : nat -> bool) (h : heap) (skip_stubs : bool) (q : nat) : Prop :=
  exists m, nth_error h q = Some m /\ is_quantizer (mcls m) = true /\ (skip_stubs = true -> is_stub (mcls m) = false).
(** A class conversion accepts: it has an entry in the map, or needs none. *)
Definition supported (is_quantizer is_qmodule : nat -> bool) (base_module : nat) (mm : nat -> option entry) (skip_quantized : bool) (c : nat) : Prop :=
  mm c <> None \/ c = base_module \/ is_quantizer c = true \/ (skip_quantized = true /\ is_qmodule c = true).
