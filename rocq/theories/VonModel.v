(** Model of the VON language: examples/oak-von/src/lexer/mod.rs, parser/mod.rs, builder/mod.rs and ast/mod.rs.
    The source is a [SourceText], the session is new.  The type [f64] is a parameter [F] with its [parse] and
    [to_string]. *)
From Verif Require Import Base Utf8 RopeModel SimdModel CursorModel LexModel TreeModel ParserModel VfsModel LangModel IniModel.

(** lexer/token_type.rs:10-36, and parser/element_type.rs:7-33 with the same numbers *)
Definition NWhitespace := 0. Definition NNewline := 1. Definition NComment := 2. Definition NEof := 3.
Definition NLeftBrace := 4. Definition NRightBrace := 5. Definition NLeftBracket := 6. Definition NRightBracket := 7.
Definition NComma := 8. Definition NColon := 9. Definition NEq := 10. Definition NString := 11. Definition NNumber := 12.
Definition NBool := 13. Definition NNull := 14. Definition NIdentifier := 15. Definition NValue := 16. Definition NObject := 17.
Definition NArray := 18. Definition NEntry := 19. Definition NEnum := 20. Definition NError := 22. Definition NRoot := 23.
Definition NElement := 24.

Definition von_blank (c : Z) : bool := ((c =? 32) || (c =? 9))%Z.
Definition von_quote (c : Z) : bool := ((c =? 34) || (c =? 39))%Z.
Definition von_start (c : Z) : bool := ascii_alpha_c c || (c =? 95)%Z.
Definition von_word (c : Z) : bool := ascii_alpha_c c || ascii_digit_c c || (c =? 95)%Z.
Definition von_figure (c : Z) : bool := ascii_digit_c c || (c =? 95)%Z.
Definition von_opt (p : Z -> bool) (o : option Z) : bool := match o with Some c => p c | None => false end.

Section Lexer.
  Variable text : str.
  Let src := flat_source text.

  (** [state.add_token(kind, start_pos, state.get_position()); true] *)
  Definition von_token_from (kind : nat) (l l' : lexer) : option (bool * lexer) := Some (true, add_token l' kind (lx_pos l) (lx_pos l')).
  (** the character [n] bytes after the current one *)
  Definition von_peek (l : lexer) (n : nat) : option Z := peek_next_n src (lx_cur l) n.

  (** lexer/mod.rs:24-43 [skip_whitespace] *)
  Definition von_whitespace (l : lexer) : option (bool * lexer) :=
    option_map (token_if NWhitespace l) (lx_take_while src (scan_fuel src) von_blank l).

  (** lexer/mod.rs:46-65 [lex_newline] *)
  Definition von_newline (l : lexer) : option (bool * lexer) :=
    let '(ch, l1) := lx_current src l in
    if is_char 10 ch then von_token_from NNewline l (lx_advance src l1 1)
    else if is_char 13 ch then
      let '(next, l2) := lx_current src (lx_advance src l1 1) in
      von_token_from NNewline l (if is_char 10 next then lx_advance src l2 1 else l2)
    else Some (false, l1).

  (** lexer/mod.rs:68-87 [lex_comment] *)
  Definition von_comment (l : lexer) : option (bool * lexer) :=
    let '(ch, l1) := lx_current src l in
    if is_char 35 ch then
      match lx_take_while src (scan_fuel src) (fun c => negb ((c =? 10) || (c =? 13))%Z) (lx_advance src l1 1) with
      | None => None
      | Some l2 => von_token_from NComment l l2
      end
    else Some (false, l1).

  (** lexer/mod.rs:94-106 and 299-311: [r], [a], [w] and a quote *)
  Definition von_raw (ch : option Z) (l : lexer) : bool :=
    is_char 114 ch && is_char 97 (von_peek l 1) && is_char 119 (von_peek l 2) && von_opt von_quote (von_peek l 3).

  (** lexer/mod.rs:147-174: the inside of a string with [n] quotes; [k] is [current_consecutive].  The boolean says
      that the string is closed. *)
  Fixpoint von_string_loop (raw : bool) (quote : Z) (n : nat) (fuel : nat) (k : nat) (escaped : bool) (l : lexer) : option (bool * lexer) :=
    match fuel with
    | O => None
    | S f =>
        match lx_current src l with
        | (None, l1) => Some (false, l1)
        | (Some c, l1) =>
            if negb raw && escaped then von_string_loop raw quote n f 0 false (lx_advance src l1 (char_len c))
            else if negb raw && (c =? 92)%Z && (n =? 1) then von_string_loop raw quote n f 0 true (lx_advance src l1 1)
            else if (c =? quote)%Z then
              let l2 := lx_advance src l1 (char_len c) in
              if S k =? n then Some (true, l2) else von_string_loop raw quote n f (S k) escaped l2
            else von_string_loop raw quote n f 0 escaped (lx_advance src l1 (char_len c))
        end
    end.

  (** lexer/mod.rs:90-179 [lex_string].  The run of opening quotes is counted by the distance it covers, a quote being
      one byte.  A count of zero (lines 139-142) does not happen after a quote has been seen, but is there. *)
  Definition von_string (l : lexer) : option (bool * lexer) :=
    let '(ch, l1) := lx_current src l in
    let raw := von_raw ch l1 in
    match (if raw then von_peek l1 3 else if von_opt von_quote ch then ch else None) with
    | None => Some (false, l1)
    | Some quote =>
        let l2 := if raw then lx_advance src l1 3 else l1 in
        match lx_take_while src (scan_fuel src) (Z.eqb quote) l2 with
        | None => None
        | Some l3 =>
            let n := lx_pos l3 - lx_pos l2 in
            if n =? 2 then von_token_from NString l l3
            else if n =? 0 then Some (false, Lexer (set_position src (lx_cur l3) (lx_pos l)) (lx_toks l3))
            else
              match von_string_loop raw quote n (scan_fuel src) 0 false l3 with
              | None => None
              | Some (closed, l4) => von_token_from (if closed then NString else NError) l l4
              end
        end
    end.

  (** lexer/mod.rs:214-222: how far the underscores after the point go *)
  Fixpoint von_underscores (fuel : nat) (n : nat) (l : lexer) : option nat :=
    match fuel with
    | O => None
    | S f => if is_char 95 (von_peek l n) then von_underscores f (S n) l else Some n
    end.
  (** lexer/mod.rs:212-236: the fraction *)
  Definition von_fraction (l : lexer) : option lexer :=
    let '(ch, l1) := lx_current src l in
    if is_char 46 ch then
      match von_underscores (scan_fuel src) 1 l1 with
      | None => None
      | Some n => if von_opt ascii_digit_c (von_peek l1 n) then lx_take_while src (scan_fuel src) von_figure (lx_advance src l1 1) else Some l1
      end
    else Some l1.
  (** lexer/mod.rs:239-272: the exponent *)
  Definition von_exponent (l : lexer) : option lexer :=
    let '(ch, l1) := lx_current src l in
    if is_char 101 ch || is_char 69 ch then
      let signed := is_char 43 (von_peek l1 1) || is_char 45 (von_peek l1 1) in
      let n := if signed then 2 else 1 in
      if von_opt ascii_digit_c (von_peek l1 n) || is_char 95 (von_peek l1 n) && von_opt ascii_digit_c (von_peek l1 (S n)) then
        let '(sign, l2) := lx_current src (lx_advance src l1 1) in
        lx_take_while src (scan_fuel src) von_figure (if is_char 43 sign || is_char 45 sign then lx_advance src l2 1 else l2)
      else Some l1
    else Some l1.
  (** lexer/mod.rs:182-291 [lex_number].  The loops advance by one byte over ASCII characters, which is their length.
      The test of line 276 is always true, but is there. *)
  Definition von_number (l : lexer) : option (bool * lexer) :=
    let '(ch, l1) := lx_current src l in
    if von_opt ascii_digit_c ch || (is_char 45 ch || is_char 46 ch) && von_opt ascii_digit_c (von_peek l1 1) then
      let '(first, l2) := lx_current src (if is_char 45 ch then lx_advance src l1 1 else l1) in
      match (if von_opt ascii_digit_c first then lx_take_while src (scan_fuel src) von_figure l2 else Some l2) with
      | None => None
      | Some l3 =>
          match von_fraction l3 with
          | None => None
          | Some l4 =>
              match von_exponent l4 with
              | None => None
              | Some l5 =>
                  if lx_moved l l5 then
                    let '(next, l6) := lx_current src l5 in
                    if von_opt von_start next then Some (false, Lexer (set_position src (lx_cur l6) (lx_pos l)) (lx_toks l6))
                    else von_token_from NNumber l l6
                  else Some (false, l5)
              end
          end
      end
    else Some (false, l1).

  (** lexer/mod.rs:294-334 [lex_identifier_or_keyword] *)
  Definition von_identifier (l : lexer) : option (bool * lexer) :=
    let '(ch, l1) := lx_current src l in
    if von_opt von_start ch then
      if von_raw ch l1 then Some (false, l1)
      else
        match lx_take_while src (scan_fuel src) von_word l1 with
        | None => None
        | Some l2 =>
            let t := flat_text_in text (lx_pos l) (lx_pos l2) in
            let kind := if existsb (str_eqb t) [lit "true"; lit "false"] then NBool else if str_eqb t (lit "null") then NNull else NIdentifier in
            von_token_from kind l l2
        end
    else Some (false, l1).

  (** lexer/mod.rs:342-371 *)
  Definition von_mark (ch : Z) : option nat :=
    (if ch =? 91 then Some NLeftBracket else if ch =? 93 then Some NRightBracket else if ch =? 123 then Some NLeftBrace
     else if ch =? 125 then Some NRightBrace else if ch =? 44 then Some NComma else if ch =? 58 then Some NColon
     else if ch =? 61 then Some NEq else None)%Z.
  (** lexer/mod.rs:337-378 [lex_operator] *)
  Definition von_operator (l : lexer) : option (bool * lexer) :=
    match lx_current src l with
    | (None, l1) => Some (false, l1)
    | (Some ch, l1) =>
        match von_mark ch with
        | None => Some (false, l1)
        | Some kind => von_token_from kind l (lx_advance src l1 1)
        end
    end.

  (** lexer/mod.rs:385-415: the rules in their order, and an error of one character when none applies *)
  Definition von_rules : list (lexer -> option (bool * lexer)) :=
    [von_whitespace; von_newline; von_comment; von_identifier; von_number; von_string; von_operator].
  Definition von_round (l : lexer) : option lexer :=
    match try_rules von_rules l with
    | None => None
    | Some (true, l') => Some l'
    | Some (false, l1) =>
        match lx_current src l1 with
        | (Some ch, l2) => option_map snd (von_token_from NError l1 (lx_advance src l2 (char_len ch)))
        | (None, l2) => Some l2
        end
    end.
  (** lexer/mod.rs:382-418 [lex]: no token for the end is added.  The [break] of line 414 is only reached at the end,
      where the loop ends too. *)
  Definition von_lex : option (list token) :=
    option_map lx_toks (rounds src von_round (scan_fuel src) (new_lexer src)).
End Lexer.

(** ** Parser
    [None] is a panic or that the fuel is used up; the boolean is [Ok] or [Err]. *)

(** lexer/token_type.rs:42-44 *)
Definition von_ignored (k : nat) : bool := (k =? NWhitespace) || (k =? NNewline) || (k =? NComment).

(** parser/mod.rs:192-201 [skip_trivia], and 229-237: the same at the end *)
Fixpoint von_skip_loop (fuel : nat) (s : pstate) : pstate :=
  match fuel with
  | O => s
  | S f =>
      match peek_kind s with
      | Some k => if von_ignored k then von_skip_loop f (bump von_ignored s) else s
      | None => s
      end
  end.
Definition von_skip (s : pstate) : pstate := von_skip_loop (length (ps_toks s)) s.
Definition von_skipped (a : step) : step := fun s => a (von_skip s).

Definition von_bump : step := fun s => Some (true, bump von_ignored s).
(** [record_expected] (tag 0), [record_unexpected_token] (tag 1) and [unexpected_eof] (tag 2), each followed by [Err] *)
Definition von_expected (s : pstate) : pstate := push_error s 0 (current_offset s).
Definition von_fail_expected : step := fun s => Some (false, von_expected s).
Definition von_fail_token : step := fun s => Some (false, push_error s 1 (current_offset s)).
Definition von_fail_eof : step := fun s => Some (false, push_error s 2 (ps_srclen s)).

(** oak-core parser/state.rs:629-641 [incremental_node] without an old tree: the node is finished after an error too *)
Definition von_node (kind : nat) (body : step) : step := fun s =>
  match body s with
  | None => None
  | Some (b, s') => match finish_at s' (checkpoint s) kind with None => None | Some (_, s2) => Some (b, s2) end
  end.

(** [if !state.eat(kind) { record_expected; return Err }] *)
Definition von_open (kind : nat) : step := fun s =>
  let '(ok, s1) := eat von_ignored kind s in if ok then Some (true, s1) else von_fail_expected s1.
(** parser/mod.rs:111-116, 182-187: the closing bracket *)
Definition von_close (kind : nat) : step := fun s =>
  let '(ok, s1) := eat von_ignored kind s in
  if ok then Some (true, s1)
  else if at_kind s1 NEof || negb (ps_not_at_end s1) then von_fail_eof s1
  else Some (true, von_expected s1).

(** parser/mod.rs:68-100 [parse_object_inner] *)
Fixpoint von_entries (entry : step) (fuel : nat) (first : bool) (s : pstate) : option (bool * pstate) :=
  match fuel with
  | O => None
  | S f =>
      if ps_not_at_end s then
        let s1 := von_skip s in
        if at_kind s1 NRightBrace || at_kind s1 NEof then Some (true, s1)
        else
          let '(comma, s2) := if first then (false, s1) else eat von_ignored NComma s1 in
          let s3 := if comma then von_skip s2 else s2 in
          if comma && (at_kind s3 NRightBrace || at_kind s3 NEof) then Some (true, s3)
          else if negb (at_kind s3 NIdentifier) && negb (at_kind s3 NString) then Some (true, s3)
          else match entry s3 with Some (true, s4) => von_entries entry f false (von_skip s4) | r => r end
      else Some (true, s)
  end.

(** parser/mod.rs:158-180: the elements of an array *)
Fixpoint von_elements (element : step) (fuel : nat) (first : bool) (s : pstate) : option (bool * pstate) :=
  match fuel with
  | O => None
  | S f =>
      if ps_not_at_end s then
        let s1 := von_skip s in
        if at_kind s1 NRightBracket then Some (true, s1)
        else if at_kind s1 NEof then von_fail_eof s1
        else
          let '(comma, s2) := if first then (false, s1) else eat von_ignored NComma s1 in
          let s3 := if comma then von_skip s2 else s2 in
          if comma && at_kind s3 NRightBracket then Some (true, s3)
          else match element s3 with Some (true, s4) => von_elements element f false (von_skip s4) | r => r end
      else Some (true, s)
  end.

(** parser/mod.rs:121-147 [parse_object_entry], with [parse_value] given *)
Definition von_entry (value : step) : step :=
  von_node NEntry (fun s =>
    if at_kind s NIdentifier || at_kind s NString then
      let s1 := von_skip (bump von_ignored s) in
      let s2 := von_skip (if at_kind s1 NEq then bump von_ignored s1 else von_expected s1) in
      if at_kind s2 NRightBrace || at_kind s2 NEof then von_fail_expected s2 else value s2
    else von_fail_expected s).
Definition von_inner (value : step) : step := fun s => von_entries (von_entry value) (S (length (ps_toks s))) true s.
(** parser/mod.rs:102-119 [parse_object] *)
Definition von_object (value : step) : step :=
  von_node NObject (andthen (von_open NLeftBrace) (andthen (von_inner value) (von_close NRightBrace))).
(** parser/mod.rs:149-190 [parse_array] *)
Definition von_array (value : step) : step :=
  von_node NArray (andthen (von_open NLeftBracket)
    (andthen (fun s => von_elements (von_node NElement value) (S (length (ps_toks s))) true s) (von_close NRightBracket))).
(** parser/mod.rs:53-66 [parse_enum] *)
Definition von_enum (value : step) : step :=
  von_node NEnum (andthen (von_open NIdentifier) (fun s =>
    let s1 := von_skip s in
    if at_kind s1 NLeftBrace || at_kind s1 NLeftBracket then value s1 else Some (true, s1))).

(** parser/mod.rs:24-51 [parse_value] *)
Fixpoint von_value (fuel : nat) (s : pstate) : option (bool * pstate) :=
  match fuel with
  | O => None
  | S f =>
      von_node NValue (fun s =>
        match peek_kind s with
        | None => von_fail_eof s
        | Some k =>
            if k =? NEof then von_fail_eof s
            else if k =? NLeftBrace then von_object (von_value f) s
            else if k =? NLeftBracket then von_array (von_value f) s
            else if k =? NIdentifier then von_enum (von_value f) s
            else if existsb (Nat.eqb k) [NString; NNumber; NBool; NNull] then von_bump s
            else von_fail_token s
        end) (von_skip s)
  end.
Definition von_parse_value : step := fun s => von_value (S (length (ps_toks s))) s.

(** parser/mod.rs:208-227: the value of the root or the entries of the root; [let _ =] drops an error *)
Definition von_body : step := fun s =>
  let s1 := von_skip s in
  if at_kind s1 NLeftBrace || at_kind s1 NLeftBracket then von_parse_value s1
  else if at_kind s1 NIdentifier then von_node NObject (von_inner von_parse_value) s1
  else if at_kind s1 NEof then Some (true, s1)
  else von_parse_value s1.
(** parser/mod.rs:207-240 *)
Definition von_root (s : pstate) : option (green * list (nat * nat)) :=
  match von_body s with
  | None => None
  | Some (_, s1) =>
      match finish_at (von_skip s1) (checkpoint s) NRoot with
      | None => None
      | Some ((_, root), s2) => Some (root, ps_errs s2)
      end
  end.

(** parser/mod.rs:205-241 with oak-core parser/mod.rs:77-120: parsing a text in a new session *)
Definition von_parse (text : str) : option (green * list (nat * nat)) :=
  match von_lex text with
  | None => None
  | Some toks => von_root (ps_new von_ignored toks (length text) [])
  end.

(** ** Values *)

(** ast/mod.rs:22-37 [VonValue] with the structures it holds: fields are name, value and span *)
Inductive vvalue (F : Type) :=
| VObject (fields : list (str * vvalue F * (nat * nat))) (span : nat * nat)
| VArray (elements : list (vvalue F)) (span : nat * nat)
| VTuple (elements : list (vvalue F)) (span : nat * nat)
| VString (s : str) (span : nat * nat)
| VNumber (x : F) (span : nat * nat)
| VBoolean (b : bool) (span : nat * nat)
| VNull (span : nat * nat)
| VUndefined (span : nat * nat)
| VInf (span : nat * nat)
| VNan (span : nat * nat)
| VEnum (variant : str) (payload : option (vvalue F)) (span : nat * nat).
Arguments VObject {F}. Arguments VArray {F}. Arguments VTuple {F}. Arguments VString {F}. Arguments VNumber {F}.
Arguments VBoolean {F}. Arguments VNull {F}. Arguments VUndefined {F}. Arguments VInf {F}. Arguments VNan {F}. Arguments VEnum {F}.

(** [elements.join(",")] *)
Fixpoint von_join (l : list str) : str :=
  match l with
  | [] => []
  | [s] => s
  | s :: r => s ++ lit "," ++ von_join r
  end.

(** ast/mod.rs:78-281 [to_source], and 45-75 [to_string], which writes the same *)
Fixpoint von_print {F} (show : F -> str) (v : vvalue F) : str :=
  match v with
  | VObject fs _ => lit "{" ++ von_join (map (fun f => fst (fst f) ++ lit "=" ++ von_print show (snd (fst f))) fs) ++ lit "}"
  | VArray vs _ => lit "[" ++ von_join (map (von_print show) vs) ++ lit "]"
  | VTuple vs _ => lit "(" ++ von_join (map (von_print show) vs) ++ lit ")"
  | VString s _ => lit """" ++ s ++ lit """"
  | VNumber x _ => show x
  | VBoolean b _ => if b then lit "true" else lit "false"
  | VNull _ => lit "null"
  | VUndefined _ => lit "undefined"
  | VInf _ => lit "inf"
  | VNan _ => lit "nan"
  | VEnum n (Some p) _ => n ++ lit " " ++ von_print show p
  | VEnum n None _ => n
  end.

(** ** Builder: builder/mod.rs
    [None] is a panic, [Some None] is [Err]. *)
Section Builder.
  Variable F : Type.
  Variable parse : str -> option F.
  Variable source : str.

  Definition result A := option (option A).
  Definition bind {A B} (r : result A) (f : A -> result B) : result B :=
    match r with None => None | Some None => Some None | Some (Some a) => f a end.

  Fixpoint leading (q : Z) (cs : list Z) : nat := match cs with c :: r => if (c =? q)%Z then S (leading q r) else 0 | [] => 0 end.
  (** builder/mod.rs:129-153: the value of a string literal; [text[..]] panics off a character boundary, [unwrap] on an
      empty text.  The quotes are counted in characters. *)
  Definition von_unquote (t : str) : option str :=
    let raw := prefixb (lit "raw") t && match skipn 3 t with c :: _ => von_quote c | [] => false end in
    let t1 := if raw then skipn 3 t else t in
    match chars t1 with
    | [] => None
    | q :: _ =>
        let n := leading q (chars t1) in
        if 2 * n <=? length t1 then str_get t1 n (length t1 - n) else Some []
    end.
  (** [text.replace('_', "")] *)
  Definition von_clean (t : str) : str := filter (fun c => negb (c =? 95)%Z) t.
  (** [text.trim_matches] of double quotes *)
  Fixpoint trim_start (t : str) : str := match t with c :: r => if (c =? 34)%Z then trim_start r else t | [] => [] end.
  Definition von_trim (t : str) : str := rev (trim_start (rev (trim_start t))).

  (** builder/mod.rs:124-183: what a leaf of a value gives, [Some None] if the loop goes on *)
  Definition von_leaf (k n off : nat) : option (option (result (vvalue F))) :=
    let t := flat_text_in source off (off + n) in
    let span := (off, off + n) in
    if k =? NString then match von_unquote t with None => None | Some s => Some (Some (Some (Some (VString s span)))) end
    else if k =? NNumber then Some (Some (match parse (von_clean t) with None => Some None | Some x => Some (Some (VNumber x span)) end))
    else if k =? NBool then Some (Some (Some (Some (VBoolean (str_eqb t (lit "true")) span))))
    else if k =? NNull then Some (Some (Some (Some (VNull span))))
    else Some None.

  (** builder/mod.rs:191-221 [build_field], with [build_value] given *)
  Definition von_field_kind (k : nat) : bool := (k =? NValue) || (k =? NObject) || (k =? NArray) || (k =? NEnum).
  (** builder/mod.rs:60-189 [build_value] *)
  Fixpoint build_value (node : green) (offset : nat) : result (vvalue F) :=
    match node with
    | GLeaf _ _ _ => Some None
    | GNode kind len ch =>
        let span := (offset, offset + len) in
        if kind =? NObject then
          bind ((fix go (l : list green) (off : nat) : result (list (str * vvalue F * (nat * nat))) :=
             match l with
             | [] => Some (Some [])
             | GNode k n sub :: r =>
                 if k =? NEntry then
                   bind ((fix field (l : list green) (o : nat) (name : option str) (value : option (vvalue F)) : result (str * vvalue F * (nat * nat)) :=
                      match l with
                      | [] => match name, value with Some x, Some v => Some (Some (x, v, (off, off + n))) | _, _ => Some None end
                      | c :: r =>
                          match c with
                          | GNode k' n' _ =>
                              if von_field_kind k' then bind (build_value c o) (fun v => field r (o + n') name (Some v))
                              else field r (o + n') name value
                          | GLeaf k' n' _ =>
                              field r (o + n') (if (k' =? NIdentifier) || (k' =? NString) then Some (von_trim (flat_text_in source o (o + n'))) else name) value
                          end
                      end) sub off None None)
                   (fun f => bind (go r (off + n)) (fun fs => Some (Some (f :: fs))))
                 else go r (off + n)
             | GLeaf _ n _ :: r => go r (off + n)
             end) ch offset) (fun fs => Some (Some (VObject fs span)))
        else if kind =? NArray then
          bind ((fix go (l : list green) (off : nat) : result (list (vvalue F)) :=
             match l with
             | [] => Some (Some [])
             | c :: r =>
                 match c with
                 | GNode k n _ =>
                     if k =? NElement then bind (build_value c off) (fun v => bind (go r (off + n)) (fun vs => Some (Some (v :: vs))))
                     else go r (off + n)
                 | GLeaf _ n _ => go r (off + n)
                 end
             end) ch offset) (fun vs => Some (Some (VArray vs span)))
        else if kind =? NEnum then
          (fix go (l : list green) (off : nat) (variant : option str) (payload : option (vvalue F)) : result (vvalue F) :=
             match l with
             | [] => match variant with Some x => Some (Some (VEnum x payload span)) | None => Some None end
             | c :: r =>
                 match c with
                 | GNode _ n _ => bind (build_value c off) (fun v => go r (off + n) variant (Some v))
                 | GLeaf k n _ => go r (off + n) (if k =? NIdentifier then Some (flat_text_in source off (off + n)) else variant) payload
                 end
             end) ch offset None None
        else if (kind =? NValue) || (kind =? NElement) || (kind =? NRoot) then
          (fix go (l : list green) (off : nat) : result (vvalue F) :=
             match l with
             | [] => Some None
             | c :: r =>
                 match c with
                 | GNode _ _ _ => build_value c off
                 | GLeaf k n _ => match von_leaf k n off with None => None | Some (Some x) => x | Some None => go r (off + n) end
                 end
             end) ch offset
        else Some None
    end.

  (** builder/mod.rs:49-58 [build_root] *)
  Definition build_root (root : green) : result (vvalue F) :=
    match root with
    | GNode _ _ (GNode k n ch :: _) => build_value (GNode k n ch) 0
    | _ => Some None
    end.
End Builder.

(** builder/mod.rs:22-46 [build]: the value, and the diagnostics of the parser.  The lexer is run once for nothing and
    again by the parser.  The error of the builder, if any, is added to the diagnostics; that is left out. *)
Definition von_build {F} (parse : str -> option F) (text : str) : option (option (vvalue F) * list (nat * nat)) :=
  match von_parse text with
  | None => None
  | Some (root, errs) => option_map (fun v => (v, errs)) (build_root F parse text root)
  end.
