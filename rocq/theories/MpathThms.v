(** C39-C42: module path queries, query texts and collections of results. *)
From Coq Require Import String Ascii Permutation.
From Verif Require Import Prelude ModulesModel ModulesSpec ModulesInitProofs MpathModel MpathSpec MpathLangProofs MpathSetProofs MpathProofs
  MpathParseModel MpathParseSpec MpathParseProofs MpathCollModel MpathCollSpec MpathCollProofs.
Local Open Scope nat_scope.
Local Open Scope list_scope.

(** C39: for a query without brace groups, the search ends and its result is exactly the modules
    that some matching way leads to, each once and with the name, parent and attribute of such a
    way. The module graph is any graph without cycles in which no module holds the same child under
    two names; patterns, classes and predicates accept whatever they like. *)
Theorem C39_query_exact :
  forall re_fullmatch is_instance predicate h root q rank,
    named h -> heap_ok h -> ranked h rank -> root < length h ->
    q <> [] -> straight q -> consistent q -> all_frags sane q ->
    exists res N, (forall fuel, N <= fuel -> search re_fullmatch is_instance predicate fuel h root q = Ok res) /\
      answers re_fullmatch is_instance predicate h root q res.
Proof. exact search_straight. Qed.
Print Assumptions C39_query_exact.
Definition c39_query : sel := [NFrag 0 (Wild true); NFrag 1 (MpathModel.Inv (Name "b")); NFrag 2 (Wild true); NFrag 3 (Name "b")].
Example C39_nonvacuous :
  (named ex_tree /\ heap_ok ex_tree /\ ranked ex_tree (fun x => 10 - x)) /\
  straight c39_query /\ consistent c39_query /\ all_frags sane c39_query /\
  txt "**/~b/**/b" = [NFrag 0 (Wild true); NFrag 2 (MpathModel.Inv (Name "b")); NFrag 3 (Wild true); NFrag 4 (Name "b")] /\
  found ex_tree c39_query = Ok [("a.a.b", 6)]%string /\
  found ex_tree (txt "a/**") = Ok [("a", 1); ("a.a", 3); ("a.c", 4); ("a.a.b", 6)]%string.
Proof.
  split; [exact ex_tree_ok|]. split; [intros n [<-|[<-|[<-|[<-|[]]]]]; eauto|].
  split; [intros i f f' [E|[E|[E|[E|[]]]]] [E'|[E'|[E'|[E'|[]]]]]; congruence|].
  split; [repeat constructor; intros X; (discriminate X || reflexivity)|]. vm_compute. auto.
Qed.
(** Outside that class: a child held under two names is found under the first only. *)
Theorem C39_two_names_refuted :
  exists h, (exists x, goes h 0 [x] 1 /\ matched t_re t_inst t_pred (txt "b") [x]) /\ found h (txt "b") = Ok [].
Proof.
  exists [kidsm [("a", 1); ("b", 1)]; leaf]%string. split; [|reflexivity]. exists ("b"%string, 1). split.
  - eapply goes_step; [reflexivity|right; left; reflexivity|constructor].
  - change (txt "b") with [NFrag 0 (Name "b")]. constructor; [discriminate|reflexivity|constructor].
Qed.
Print Assumptions C39_two_names_refuted.

(** C40: a query with brace groups gives the union of the results of the queries that pick one
    alternative of each group, each module once, when no alternative consists of "**" only. *)
Theorem C40_alternatives_partial :
  forall re_fullmatch is_instance predicate h root q rank,
    named h -> heap_ok h -> ranked h rank -> root < length h ->
    q <> [] -> groups_ok q -> NoDup (objects q) -> all_frags sane q ->
    exists res N, (forall fuel, N <= fuel -> search re_fullmatch is_instance predicate fuel h root q = Ok res) /\
      NoDup (map r_mod res) /\
      forall z, In z (map r_mod res) <->
        exists q' res' N', picks q q' /\
          (forall fuel, N' <= fuel -> search re_fullmatch is_instance predicate fuel h root q' = Ok res') /\
          In z (map r_mod res').
Proof. exact search_union. Qed.
Print Assumptions C40_alternatives_partial.
(** And it gives exactly the modules on matching ways. *)
Theorem C40_alternatives_exact_partial :
  forall re_fullmatch is_instance predicate h root q rank,
    named h -> heap_ok h -> ranked h rank -> root < length h ->
    q <> [] -> groups_ok q -> NoDup (objects q) -> all_frags sane q ->
    exists res N, (forall fuel, N <= fuel -> search re_fullmatch is_instance predicate fuel h root q = Ok res) /\
      answers re_fullmatch is_instance predicate h root q res.
Proof. exact search_groups. Qed.
Print Assumptions C40_alternatives_exact_partial.
Definition c40_query : sel := [NMulti [[NFrag 0 (Wild true); NFrag 1 (Name "a")]; [NFrag 2 (Name "b")]]; NMulti [[NFrag 3 (Name "b")]; [NFrag 4 (Name "c"); NFrag 5 (Wild true)]]].
Example C40_nonvacuous :
  txt "{**/a, b}/{b, c/**}" = c40_query /\ groups_ok c40_query /\ NoDup (objects c40_query) /\ all_frags sane c40_query /\
  found ex_tree c40_query = Ok [("b.c", 5); ("a.a.b", 6); ("a.c", 4)]%string.
Proof.
  split; [reflexivity|]. split; [|split; [|split; [|vm_compute; reflexivity]]].
  - constructor; [discriminate| |constructor; [discriminate| |constructor]].
    + intros alt [<-|[<-|[]]]; (split; [|repeat constructor]).
      * apply sub_later. constructor. discriminate.
      * constructor. discriminate.
    + intros alt [<-|[<-|[]]]; (split; [|repeat constructor]); constructor; discriminate.
  - repeat constructor; cbn; intuition discriminate.
  - constructor; [intros alt [<-|[<-|[]]]; repeat constructor; intros X; discriminate X|].
    constructor; [intros alt [<-|[<-|[]]]; repeat constructor; intros X; discriminate X|]. constructor.
Qed.
(** An alternative that is "**" only: one result is missing, ... *)
Theorem C40_star_alternative_refuted :
  found ex_tree (txt "a/{**, c}") = Ok [("a.a", 3); ("a.c", 4); ("a.a.b", 6)]%string /\
  picks (txt "a/{**, c}") (txt "a/**") /\
  found ex_tree (txt "a/**") = Ok [("a", 1); ("a.a", 3); ("a.c", 4); ("a.a.b", 6)]%string.
Proof.
  split; [vm_compute; reflexivity|]. split; [|vm_compute; reflexivity].
  change (txt "a/{**, c}") with [NFrag 0 (Name "a"); NMulti [[NFrag 1 (Wild true)]; [NFrag 2 (Name "c")]]].
  change (txt "a/**") with [NFrag 0 (Name "a"); NFrag 1 (Wild true)]. constructor. eapply picks_multi; [now left|]. repeat constructor.
Qed.
Print Assumptions C40_star_alternative_refuted.
(** ... an alternative is dropped, ... *)
Theorem C40_dropped_alternative_refuted :
  found ex_tree (txt "{**, **/b}") = Ok [("b", 2); ("a.a.b", 6)]%string /\
  picks (txt "{**, **/b}") (txt "**") /\
  found ex_tree (txt "**") = Ok [("a", 1); ("b", 2); ("b.c", 5); ("a.a", 3); ("a.c", 4); ("a.a.b", 6)]%string.
Proof.
  split; [vm_compute; reflexivity|]. split; [|vm_compute; reflexivity].
  change (txt "{**, **/b}") with [NMulti [[NFrag 0 (Wild true)]; [NFrag 1 (Wild true); NFrag 2 (Name "b")]]].
  change (txt "**") with [NFrag 0 (Wild true)]. eapply picks_multi; [now left|]. repeat constructor.
Qed.
Print Assumptions C40_dropped_alternative_refuted.
(** ... or the search never ends. *)
Theorem C40_divergence_refuted :
  txt "{**}/b" = loop_query /\
  forall re_fullmatch is_instance predicate fuel, search re_fullmatch is_instance predicate fuel loop_heap 0 loop_query = Err RecursionError.
Proof. exact (conj eq_refl diverges). Qed.
Print Assumptions C40_divergence_refuted.

(** C41: parsing the text of a selector made of wildcards, names, plain patterns, inversions and
    brace groups gives back the selector, with new fragment objects; it matches the same ways. *)
Theorem C41_round_trip :
  forall re_valid extensions aliases class_name predicate_name s c,
    writable re_valid s ->
    exists s', parse re_valid extensions aliases c (sel_str class_name predicate_name s) = Ok s' /\
      forget s' = forget s /\ NoDup (objects s') /\
      forall re_fullmatch is_instance predicate p,
        matched re_fullmatch is_instance predicate s' p <-> matched re_fullmatch is_instance predicate s p.
Proof.
  intros rv ext al cn pn s c W. destruct (round_trip rv ext al cn pn s c W) as (s' & H1 & H2 & H3).
  exists s'. split; [exact H1|]. split; [exact H2|]. split; [exact H3|]. intros. now apply forget_lang.
Qed.
Print Assumptions C41_round_trip.
(** Parsing any text ends: with a selector or an error other than running out of recursion depth. *)
Theorem C41_parsing_ends :
  forall re_valid extensions aliases c text, parse re_valid extensions aliases c text <> Err RecursionError.
Proof. exact parse_terminates. Qed.
Print Assumptions C41_parsing_ends.
Definition c41_sel : sel :=
  [NFrag 7 (Wild true); NMulti [[NFrag 7 (Name "conv_1"); NFrag 8 (MpathModel.Inv (MpathModel.Inv (Wild false)))]; [NFrag 9 (Regex "layer\d+")]; [NMulti [[NFrag 3 (Name "0")]]]]; NFrag 4 (MpathModel.Inv (Name "bias"))].
Example C41_nonvacuous :
  writable (fun _ => true) c41_sel /\
  sel_str (fun _ => ""%string) (fun _ => ""%string) c41_sel = "**/{conv_1/~~*, [re:layer\d+], {0}}/~bias"%string.
Proof.
  split; [|reflexivity].
  assert (PP : plain_pattern "layer\d+").
  { split.
    - intros c H. cbn in H. repeat (destruct H as [<-|H]; [repeat split; discriminate|]). destruct H.
    - intros p' c E. assert (X : c = "+"%char).
      { do 7 (destruct p' as [|? p']; [discriminate E|]; cbn in E; injection E as <- E). destruct p'; [now injection E|destruct p'; discriminate E]. }
      subst c. split; [discriminate|]. unfold is_white, between. cbn. lia. }
  assert (W1 : word "conv_1").
  { left. exists "c"%char, "onv_1"%string. split; [reflexivity|]. split; [unfold is_letter, between; cbn; lia|].
    intros x H. cbn in H. unfold is_letter, is_digit, between. repeat (destruct H as [<-|H]; [cbn; lia|]). destruct H. }
  assert (W2 : word "bias").
  { left. exists "b"%char, "ias"%string. split; [reflexivity|]. split; [unfold is_letter, between; cbn; lia|].
    intros x H. cbn in H. unfold is_letter, is_digit, between. repeat (destruct H as [<-|H]; [cbn; lia|]). destruct H. }
  assert (W3 : word "0").
  { right. split; [discriminate|]. intros x [<-|[]]. unfold is_digit, between. cbn. lia. }
  split; [discriminate|]. intros n [<-|[<-|[<-|[]]]];
    [apply wn_frag, wf_wild| |apply wn_frag, wf_inv, wf_name; exact W2].
  apply wn_multi; [discriminate|intros a [<-|[<-|[<-|[]]]]; discriminate|].
  intros a n [<-|[<-|[<-|[]]]] H; cbn in H.
  - destruct H as [<-|[<-|[]]]; apply wn_frag; [now apply wf_name|apply wf_inv, wf_inv, wf_wild].
  - destruct H as [<-|[]]. apply wn_frag. now apply wf_regex.
  - destruct H as [<-|[]]. apply wn_multi; [discriminate|intros a [<-|[]]; discriminate|]. intros a n [<-|[]] [<-|[]]. now apply wn_frag, wf_name.
Qed.
(** A pattern with brackets prints as text that does not parse, or parses to something else. *)
Theorem C41_bracket_pattern_refuted :
  parse (fun _ => true) (fun _ => None) (fun _ => None) 0 (sel_str (fun _ => ""%string) (fun _ => ""%string) [NFrag 0 (Regex "[0-9]")]) = Err MPathParseError /\
  parse (fun _ => true) (fun _ => None) (fun _ => None) 0 (sel_str (fun _ => ""%string) (fun _ => ""%string) [NFrag 0 (Regex "a\[b")]) = Ok [NFrag 0 (Regex "a[b")].
Proof. vm_compute. auto. Qed.
Print Assumptions C41_bracket_pattern_refuted.
(** A name that starts with a digit but is no number is no query. *)
Theorem C41_digit_name_refuted :
  parse (fun _ => true) (fun _ => None) (fun _ => None) 0 (sel_str (fun _ => ""%string) (fun _ => ""%string) [NFrag 0 (Name "1x1")]) = Err MPathParseError.
Proof. vm_compute. reflexivity. Qed.
Print Assumptions C41_digit_name_refuted.

(** C42: the set operations on collections of the same root, as sets of entries, whatever order
    Python sets iterate in; on collections of different roots they raise. *)
Theorem C42_set_operations :
  forall order a b, (forall l, Permutation (order l) l) -> c_root a = c_root b ->
    exists u i d s, union order a b = Ok u /\ intersection order a b = Ok i /\ difference order a b = Ok d /\
      symmetric_difference order a b = Ok s /\
      c_root u = c_root a /\ c_root i = c_root a /\ c_root d = c_root a /\ c_root s = c_root a /\
      lists (map entry (c_results u)) (fun m => In m (map entry (c_results a)) \/ In m (map entry (c_results b))) /\
      lists (map entry (c_results i)) (fun m => In m (map entry (c_results a)) /\ In m (map entry (c_results b))) /\
      lists (map entry (c_results d)) (fun m => In m (map entry (c_results a)) /\ ~ In m (map entry (c_results b))) /\
      lists (map entry (c_results s)) (fun m => (In m (map entry (c_results a)) /\ ~ In m (map entry (c_results b))) \/
                                              (In m (map entry (c_results b)) /\ ~ In m (map entry (c_results a)))).
Proof. intros order a b Ho. exact (entry_sets order Ho a b). Qed.
Print Assumptions C42_set_operations.
Theorem C42_different_roots :
  forall order a b, c_root a <> c_root b ->
    union order a b = Err ValueError /\ intersection order a b = Err ValueError /\ difference order a b = Err ValueError /\
    symmetric_difference order a b = Err ValueError.
Proof. exact other_root. Qed.
Print Assumptions C42_different_roots.
(** As sets of modules, when the entries of a module in both collections are the same entry ... *)
Theorem C42_module_sets_partial :
  forall order a b, (forall l, Permutation (order l) l) -> c_root a = c_root b ->
    one_entry_per_module (c_results a ++ c_results b) ->
    exists u i d s, union order a b = Ok u /\ intersection order a b = Ok i /\ difference order a b = Ok d /\
      symmetric_difference order a b = Ok s /\
      lists (map r_mod (c_results u)) (fun m => In m (map r_mod (c_results a)) \/ In m (map r_mod (c_results b))) /\
      lists (map r_mod (c_results i)) (fun m => In m (map r_mod (c_results a)) /\ In m (map r_mod (c_results b))) /\
      lists (map r_mod (c_results d)) (fun m => In m (map r_mod (c_results a)) /\ ~ In m (map r_mod (c_results b))) /\
      lists (map r_mod (c_results s)) (fun m => (In m (map r_mod (c_results a)) /\ ~ In m (map r_mod (c_results b))) \/
                                              (In m (map r_mod (c_results b)) /\ ~ In m (map r_mod (c_results a)))).
Proof. intros order a b Ho. exact (module_sets order Ho a b). Qed.
Print Assumptions C42_module_sets_partial.
(** ... which holds for answers to any two queries on a tree. *)
Theorem C42_answers_on_trees :
  forall re_fullmatch is_instance predicate h root q1 q2 res1 res2, single_ways h root ->
    answers re_fullmatch is_instance predicate h root q1 res1 -> answers re_fullmatch is_instance predicate h root q2 res2 ->
    one_entry_per_module (res1 ++ res2).
Proof. exact search_entries. Qed.
Print Assumptions C42_answers_on_trees.
Definition coll_of (q : string) : coll :=
  mkColl 0 (match search t_re t_inst t_pred 100 ex_tree 0 (txt q) with Ok l => l | Err _ => [] end).
Example C42_nonvacuous :
  (match union (fun l => l) (coll_of "**/b") (coll_of "a/**") with Ok c => map r_mod (c_results c) | _ => [] end) = [2; 6; 1; 3; 4] /\
  (match intersection (fun l => l) (coll_of "**/b") (coll_of "a/**") with Ok c => map r_mod (c_results c) | _ => [] end) = [6] /\
  one_entry_per_module (c_results (coll_of "**/b") ++ c_results (coll_of "a/**")).
Proof.
  split; [vm_compute; reflexivity|]. split; [vm_compute; reflexivity|].
  intros r r' H H'. vm_compute in H, H'. repeat (destruct H as [<-|H]); try (destruct H); repeat (destruct H' as [<-|H']); try (destruct H'); vm_compute; congruence.
Qed.
(** A module shared by two parents, found under different names: the intersection of two
    collections that both contain it is empty, and their union contains it twice. *)
Definition shared_x : heap := [kidsm [("a", 1); ("b", 2)]; kidsm [("x", 3)]; kidsm [("x", 3)]; leaf]%string.
Theorem C42_shared_module_refuted :
  exists ra rb, search t_re t_inst t_pred 100 shared_x 0 (txt "a/x") = Ok ra /\ search t_re t_inst t_pred 100 shared_x 0 (txt "b/x") = Ok rb /\
    map r_mod ra = [3] /\ map r_mod rb = [3] /\
    intersection (fun l => l) (mkColl 0 ra) (mkColl 0 rb) = Ok (mkColl 0 []) /\
    exists u, union (fun l => l) (mkColl 0 ra) (mkColl 0 rb) = Ok u /\ map r_mod (c_results u) = [3; 3].
Proof. eexists _, _. split; [vm_compute; reflexivity|]. split; [vm_compute; reflexivity|]. repeat split; try reflexivity. eexists. split; reflexivity. Qed.
Print Assumptions C42_shared_module_refuted.
