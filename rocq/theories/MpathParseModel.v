(** Models the query language: fastforward/mpath/_parser.py, and the printing of selectors and
    fragments (selector.py, fragments.py). Texts are ASCII. *)
From Coq Require Import String Ascii.
From Verif Require Import Prelude MpathModel.
Local Open Scope nat_scope.
Local Open Scope list_scope.

(** _parser.py:24-44 [TokenType] *)
Inductive kind :=
| LBracket | RBracket | LParen | RParen | LBrace | RBrace | KString | Digit | Ident | FSlash | BSlash
| Colon | Comma | Period | Ellipsis | Tilde | Amp | Asterisk | Character | Eol.
(** _parser.py:47-52 [Token]; its unused length is left out *)
Record token := mkTok { t_pos : nat; t_kind : kind; t_raw : string }.
Scheme Equality for kind.

Definition code_in (lo hi : nat) (c : ascii) : bool := (lo <=? nat_of_ascii c) && (nat_of_ascii c <=? hi).
(** Python's [str.isspace], [str.isdigit] and [str.isidentifier] on ASCII *)
Definition isspace (c : ascii) : bool := code_in 9 13 c || code_in 28 32 c.
Definition isdigit (c : ascii) : bool := code_in 48 57 c.
Definition idstart (c : ascii) : bool := code_in 65 90 c || code_in 97 122 c || (nat_of_ascii c =? 95).
Definition idchar (c : ascii) : bool := idstart c || isdigit c.
Definition quote : ascii := ascii_of_nat 34.
Definition backslash : ascii := "\"%char.

(** _parser.py:65-79 [SINGLE_CHAR_TOKENS] *)
Definition single (c : ascii) : option kind :=
  match c with
  | "("%char => Some LParen | ")"%char => Some RParen
  | "["%char => Some LBracket | "]"%char => Some RBracket
  | "{"%char => Some LBrace | "}"%char => Some RBrace
  | ":"%char => Some Colon | ","%char => Some Comma | "~"%char => Some Tilde | "&"%char => Some Amp
  | "/"%char => Some FSlash | "\"%char => Some BSlash | "*"%char => Some Asterisk
  | _ => None
  end.

(** the longest prefix of [s] whose characters satisfy [p] *)
Fixpoint span (p : ascii -> bool) (s : string) : string :=
  match s with
  | EmptyString => EmptyString
  | String c r => if p c then String c (span p r) else EmptyString
  end.
(** _parser.py:117-119 with [quote_delimited] (140-141): how many characters after the opening
    quote belong to the string; [prev] is the character before [s] *)
Fixpoint string_end (prev : ascii) (s : string) : option nat :=
  match s with
  | EmptyString => None
  | String c r => if Ascii.eqb c quote && negb (Ascii.eqb prev backslash) then Some 1
                  else option_map S (string_end c r)
  end.

(** _parser.py:82-137 [_tokengen]: [skip] characters were read as part of the last token. An ellipsis
    token does not skip its second and third period; an unclosed quote gives two tokens. *)
Fixpoint tokengen (skip pos : nat) (s : string) : list token :=
  match s with
  | EmptyString => [mkTok pos Eol ""]
  | String c r =>
      match skip with
      | S k => tokengen k (S pos) r
      | 0 =>
          if isspace c then tokengen 0 (S pos) r
          else match single c with
          | Some k => mkTok pos k (String c "") :: tokengen 0 (S pos) r
          | None =>
              if Ascii.eqb c "." then
                (if prefix ".." r then mkTok pos Ellipsis "..." else mkTok pos Period ".") :: tokengen 0 (S pos) r
              else if isdigit c then
                mkTok pos Digit (String c (span isdigit r)) :: tokengen (String.length (span isdigit r)) (S pos) r
              else if Ascii.eqb c quote then
                match string_end quote r with
                | Some k => mkTok pos KString (String c (substring 0 k r)) :: tokengen k (S pos) r
                | None => mkTok pos Character (String c "") :: mkTok pos KString (String c "") :: tokengen 0 (S pos) r
                end
              else if idstart c then
                mkTok pos Ident (String c (span idchar r)) :: tokengen (String.length (span idchar r)) (S pos) r
              else mkTok pos Character (String c "") :: tokengen 0 (S pos) r
          end
      end
  end.

(** Python's [s.replace("\" + c, c)] *)
Fixpoint unescape (c : ascii) (s : string) : string :=
  match s with
  | String x (String y r as r') =>
      if Ascii.eqb x backslash && Ascii.eqb y c then String c (unescape c r) else String x (unescape c r')
  | _ => s
  end.

Section Parse.
  (** [re.compile] accepts the pattern (fragments.py:68-74) *)
  Variable re_valid : string -> bool.
  (** the registered extensions other than "re" (_parser.py:256-257), each reading its text into a
      fragment; None when it raises. *)
  Variable extensions : string -> option (string -> option frag).
  (** the aliases (_parser.py:398-406) *)
  Variable aliases : string -> option sel.

  (** _parser.py:144-161 [Tokenizer]: the end-of-line token is never dropped *)
  Definition advance (ts : list token) : list token :=
    match ts with
    | t :: r => if kind_beq (t_kind t) Eol then ts else r
    | [] => []
    end.
  Definition peek (ts : list token) : result token :=
    match ts with t :: _ => Ok t | [] => Err MPathParseError end.
  (** _parser.py:269-272 [consume]: whether a token of this kind was there, and what follows *)
  Definition at_kind (k : kind) (ts : list token) : bool :=
    match ts with t :: _ => kind_beq (t_kind t) k | [] => false end.
  (** _parser.py:274-297 [consume_until] with a closing bracket and backslash as escape *)
  Fixpoint consume_until (escaped : bool) (ts : list token) : result (token * list token) :=
    match ts with
    | [] => Err MPathParseError
    | t :: r =>
        if kind_beq (t_kind t) RBracket && negb escaped then Ok (t, r)
        else if kind_beq (t_kind t) Eol then Err MPathParseError
        else if kind_beq (t_kind t) BSlash && negb escaped then consume_until true r
        else consume_until false r
    end.
  (** _parser.py:299-313 [expect] *)
  Definition expect (k : kind) (ts : list token) : result (token * list token) :=
    let? t := peek ts in
    if kind_beq (t_kind t) k then Ok (t, advance ts) else Err MPathParseError.

  (** fragments.py:76-81, 104-130 and _parser.py:371-383: the text of an extension to a fragment *)
  Definition run_extension (tag spec : string) : result frag :=
    if String.eqb tag "re" then
      let pattern := unescape "]" (unescape "[" spec) in
      if re_valid pattern then Ok (Regex pattern) else Err MPathParseError
    else match extensions tag with
         | None => Err MPathParseError
         | Some f => match f spec with Some g => Ok g | None => Err MPathParseError end
         end.
  (** _parser.py:366-390 [_parse_extension] *)
  Definition p_ext (src : string) (ts : list token) (c : nat) : result (sel * list token * nat) :=
    let? (_, ts) := expect LBracket ts in
    let? (tag, ts) := expect Ident ts in
    let? (colon, ts) := expect Colon ts in
    let? (close, ts) := consume_until false ts in
    let spec := substring (S (t_pos colon)) (t_pos close - S (t_pos colon)) src in
    let? f := run_extension (t_raw tag) spec in
    Ok ([NFrag c f], ts, S c).

  (** selector.py:235-247, 131-133 [__invert__]; the inverted fragment is a new object *)
  Definition invert (c : nat) (s : sel) : result sel :=
    match s with
    | [NFrag _ f] => Ok [NFrag c (Inv f)]
    | _ => Err MPathQueryError
    end.

  (** _parser.py:324-338 [_parse_selector], 340-359 [_parse_fragment], 392-404
      [_parse_multi_selector]; [c] numbers the fragment objects. *)
  Fixpoint p_sel (fuel : nat) (src : string) (ts : list token) (c : nat) : result (sel * list token * nat) :=
    match fuel with
    | 0 => Err RecursionError
    | S n =>
        let? (s, ts, c) := p_frag n src ts c in
        if at_kind FSlash ts then
          let ts := advance ts in
          if at_kind Eol ts then Ok (s, ts, c)
          else let? (s', ts, c) := p_sel n src ts c in Ok (s ++ s', ts, c)
        else Ok (s, ts, c)
    end
  with p_frag (fuel : nat) (src : string) (ts : list token) (c : nat) : result (sel * list token * nat) :=
    match fuel with
    | 0 => Err RecursionError
    | S n =>
        let? t := peek ts in
        match t_kind t with
        | LBracket => p_ext src ts c
        | Digit | Ident => Ok ([NFrag c (Name (t_raw t))], advance ts, S c)
        | Asterisk =>
            let ts := advance ts in
            if at_kind Asterisk ts then Ok ([NFrag c (Wild true)], advance ts, S c)
            else Ok ([NFrag c (Wild false)], ts, S c)
        | LBrace => let? (alts, ts, c) := p_alts n src (advance ts) c in Ok ([NMulti alts], ts, c)
        | Tilde =>
            let? (s, ts, c) := p_frag n src (advance ts) c in
            let? s := invert c s in
            Ok (s, ts, S c)
        | Amp =>
            let? (i, ts) := expect Ident (advance ts) in
            match aliases (t_raw i) with
            | Some s => Ok (s, ts, c)
            | None => Err MPathParseError
            end
        | _ => Err MPathParseError
        end
    end
  with p_alts (fuel : nat) (src : string) (ts : list token) (c : nat) : result (list sel * list token * nat) :=
    match fuel with
    | 0 => Err RecursionError
    | S n =>
        let? (s, ts, c) := p_sel n src ts c in
        if at_kind Comma ts then let? (alts, ts, c) := p_alts n src (advance ts) c in Ok (s :: alts, ts, c)
        else if at_kind RBrace ts then Ok ([s], advance ts, c)
        else Err MPathParseError
    end.

  (** _parser.py:315-322 [Parser.parse] and 439-447 [parse]; the objects made by the parser are
      numbered from [c]. *)
  Definition parse (c : nat) (src : string) : result sel :=
    let ts := tokengen 0 0 src in
    let ts := if at_kind FSlash ts then advance ts else ts in
    let? (s, ts, _) := p_sel (3 * length ts + 3) src ts c in
    if at_kind Eol ts then Ok s else Err MPathParseError.
End Parse.

(** fragments.py [__str__] of each class; classes and predicates print their names *)
Section Print.
  Variable class_name : nat -> string.
  Variable predicate_name : nat -> string.
  Fixpoint join (sep : string) (l : list string) : string :=
    match l with
    | [] => ""
    | [a] => a
    | a :: l' => a ++ sep ++ join sep l'
    end%string.
  Fixpoint frag_str (f : frag) : string :=
    match f with
    | Wild mm => if mm then "**" else "*"                             (* fragments.py:33-35 *)
    | Name s => s                                                     (* fragments.py:52-54 *)
    | Regex p => "[re:" ++ p ++ "]"                                   (* fragments.py:88-90 *)
    | Cls c => "[cls:" ++ class_name c ++ "]"                         (* fragments.py:136-138 *)
    | Pred p => "<predicate: " ++ predicate_name p ++ ">"             (* fragments.py:156-158 *)
    | Joint fs => "<" ++ join " & " (map frag_str fs) ++ ">"          (* fragments.py:188-191 *)
    | Disjoint fs => "<" ++ join " | " (map frag_str fs) ++ ">"       (* fragments.py:216-219 *)
    | Inv g => "~" ++ frag_str g                                      (* fragments.py:241-243 *)
    end%string.
  (** selector.py:265-274, 375-385 [__str__] *)
  Fixpoint node_str (n : node) : string :=
    match n with
    | NFrag _ f => frag_str f
    | NMulti alts => "{" ++ join ", " (map (fun alt => join "/" (map node_str alt)) alts) ++ "}"
    end%string.
  Definition sel_str (s : sel) : string := join "/" (map node_str s).
End Print.
