(** Model of the JSON language: examples/oak-json/src/lexer/mod.rs and parser/mod.rs.

    Token and element kinds are the positions in the enumerations of token_type.rs:9-37 and
    parser/element_type.rs:7-35, which are the same ([From] is a transmute).  [alpha] and [alnum]
    stand for Rust's [char::is_alphabetic] and [char::is_alphanumeric].  Loops and recursion carry
    fuel; [None] is a panic or that the fuel is used up. *)
From Verif Require Import Base Utf8 EditModel SimdModel CursorModel LexModel TreeModel ParserModel.

Definition KRoot := 0. Definition KObject := 2. Definition KArray := 3. Definition KString := 4.
Definition KNumber := 5. Definition KBoolean := 6. Definition KNull := 7. Definition KEntry := 8.
Definition KLBrace := 11. Definition KRBrace := 12. Definition KLBracket := 13. Definition KRBracket := 14.
Definition KComma := 15. Definition KColon := 16. Definition KStringLit := 17. Definition KNumberLit := 18.
Definition KBooleanLit := 19. Definition KNullLit := 20. Definition KBareKey := 21. Definition KWhitespace := 22.
Definition KComment := 23. Definition KEof := 24. Definition KError := 25.

(** language/mod.rs:9-22; [infinity_and_nan] is not read by the lexer or the parser *)
Record json_config := JsonConfig
  { jc_trailing : bool; jc_bare : bool; jc_single : bool; jc_comments : bool; jc_hex : bool }.

(** language/mod.rs:49-53, 36-38 *)
Definition standard : json_config := JsonConfig false false false false false.
Definition json5 : json_config := JsonConfig true true true true true.

(** ** Lexer *)
Section Lexer.
  Variable (alpha alnum : Z -> bool) (src : source) (cfg : json_config).

  Definition ascii_digit (c : Z) : bool := ((48 <=? c) && (c <=? 57))%Z.
  Definition ascii_hexdigit (c : Z) : bool :=
    (ascii_digit c || ((65 <=? c) && (c <=? 70)) || ((97 <=? c) && (c <=? 102)))%Z.

  (** lexer/mod.rs:14 *)
  Definition json_comment : comment_config := CommentConfig (lit "//") (lit "/*") (lit "*/") false.

  Definition moved (a b : lexer) : bool := lx_pos a <? lx_pos b.

  (** lexer/mod.rs:203-222; the loop is that of [take_while] *)
  Definition skip_whitespace_fast (l : lexer) : option lexer :=
    match lx_take_while src (scan_fuel src) char_is_whitespace l with
    | None => None
    | Some l1 => Some (if moved l l1 then add_token l1 KWhitespace (lx_pos l) (lx_pos l1) else l1)
    end.

  (** lexer/mod.rs:230-245; whether the closing quote was found *)
  Fixpoint string_loop (fuel : nat) (escaped : bool) (l : lexer) : option (bool * lexer) :=
    match fuel with
    | O => None
    | S f =>
        match lx_current src l with
        | (None, l1) => Some (false, l1)
        | (Some ch, l1) =>
            let l2 := lx_advance src l1 (char_len ch) in
            if escaped then string_loop f false l2
            else if (ch =? 92)%Z then string_loop f true l2
            else if (ch =? 34)%Z then Some (true, l2)
            else string_loop f false l2
        end
    end.

  (** lexer/mod.rs:224-249 *)
  Definition lex_string_fast (l : lexer) : option lexer :=
    match lx_consume src l (lit """") with
    | None => None
    | Some (false, l1) => Some l1
    | Some (true, l1) =>
        match string_loop (scan_fuel src) false l1 with
        | None => None
        | Some (true, l2) => Some (add_token l2 KStringLit (lx_pos l) (lx_pos l2))
        | Some (false, l2) => Some (add_token l2 KError (lx_pos l) (lx_pos l2))
        end
    end.

  (** lexer/mod.rs:114-149: the decimal part of [lex_number]; [start] is the token's start *)
  Definition lex_decimal (start : nat) (l : lexer) : option lexer :=
    match lx_take_while src (scan_fuel src) ascii_digit l with
    | None => None
    | Some l1 =>
        match lx_consume src l1 (lit ".") with
        | None => None
        | Some (dot, l2) =>
            match (if dot then lx_take_while src (scan_fuel src) ascii_digit l2 else Some l2) with
            | None => None
            | Some l3 =>
                let has_digits := moved l l1 || (dot && moved l2 l3) in
                let '(c, l4) := lx_current src l3 in
                let exponent := match c with Some ch => ((ch =? 101) || (ch =? 69))%Z | None => false end in
                match (if exponent then
                         let l5 := lx_advance src l4 1 in
                         let '(s, l6) := lx_current src l5 in
                         let sign := match s with Some ch => ((ch =? 43) || (ch =? 45))%Z | None => false end in
                         lx_take_while src (scan_fuel src) ascii_digit (if sign then lx_advance src l6 1 else l6)
                       else Some l4) with
                | None => None
                | Some l7 => Some (if has_digits then add_token l7 KNumberLit start (lx_pos l7) else l7)
                end
            end
        end
    end.

  (** lexer/mod.rs:94-150 *)
  Definition lex_number (l : lexer) : option lexer :=
    let start := lx_pos l in
    match lx_consume src l (lit "-") with
    | None => None
    | Some (_, l1) =>
        match (if jc_hex cfg then lx_starts_with src l1 (lit "0") else Some (false, l1)) with
        | None => None
        | Some (zero, l2) =>
            let n1 := peek_next_n src (lx_cur l2) 1 in
            if zero && match n1 with Some c => ((c =? 120) || (c =? 88))%Z | None => false end then
              let l3 := lx_advance src l2 2 in
              match lx_take_while src (scan_fuel src) (fun c => ascii_hexdigit c || (c =? 95)%Z) l3 with
              | None => None
              | Some l4 => if moved l3 l4 then Some (add_token l4 KNumberLit start (lx_pos l4)) else lex_decimal start l4
              end
            else lex_decimal start l2
        end
    end.

  (** lexer/mod.rs:153-164 *)
  Definition lex_keyword (l : lexer) : option (bool * lexer) :=
    match lx_consume src l (lit "true") with
    | None => None
    | Some (true, l1) => Some (true, add_token l1 KBooleanLit (lx_pos l) (lx_pos l1))
    | Some (false, l1) =>
        match lx_consume src l1 (lit "false") with
        | None => None
        | Some (true, l2) => Some (true, add_token l2 KBooleanLit (lx_pos l) (lx_pos l2))
        | Some (false, l2) =>
            match lx_consume src l2 (lit "null") with
            | None => None
            | Some (true, l3) => Some (true, add_token l3 KNullLit (lx_pos l) (lx_pos l3))
            | Some (false, l3) => Some (false, l3)
            end
        end
    end.

  (** [ch.is_alphabetic() || ch == '_' || ch == '$'] and the same with [is_alphanumeric] *)
  Definition key_start (c : Z) : bool := alpha c || ((c =? 95) || (c =? 36))%Z.
  Definition key_rest (c : Z) : bool := alnum c || ((c =? 95) || (c =? 36))%Z.

  (** lexer/mod.rs:167-178 *)
  Definition lex_bare_key (l : lexer) : option (bool * lexer) :=
    match lx_current src l with
    | (Some ch, l1) =>
        if key_start ch then
          match lx_take_while src (scan_fuel src) key_rest (lx_advance src l1 (char_len ch)) with
          | None => None
          | Some l2 => Some (true, add_token l2 KBareKey (lx_pos l) (lx_pos l2))
          end
        else Some (false, l1)
    | (None, l1) => Some (false, l1)
    end.

  (** lexer/mod.rs:184-192 *)
  Definition punctuation (c : Z) : option nat :=
    (if c =? 123 then Some KLBrace else if c =? 125 then Some KRBrace
     else if c =? 91 then Some KLBracket else if c =? 93 then Some KRBracket
     else if c =? 44 then Some KComma else if c =? 58 then Some KColon else None)%Z.

  (** lexer/mod.rs:181-201 *)
  Definition lex_operator (l : lexer) : lexer :=
    match lx_current src l with
    | (Some ch, l1) =>
        match punctuation ch with
        | Some k => let l2 := lx_advance src l1 (char_len ch) in add_token l2 k (lx_pos l) (lx_pos l2)
        | None => l1
        end
    | (None, l1) => l1
    end.

  (** lexer/mod.rs:47-85: the arms of the match *)
  Definition json_rule (ch : Z) (l : lexer) : option lexer :=
    if ((ch =? 32) || (ch =? 9) || (ch =? 10) || (ch =? 13))%Z then skip_whitespace_fast l
    else if (ch =? 34)%Z then lex_string_fast l
    else if (ch =? 47)%Z && jc_comments cfg then option_map snd (scan_comment src json_comment KComment KComment l)
    else if (ch =? 45)%Z || ascii_digit ch then lex_number l
    else if match punctuation ch with Some _ => true | None => false end then Some (lex_operator l)
    else if ((ch =? 116) || (ch =? 102) || (ch =? 110))%Z then
      match lex_keyword l with
      | None => None
      | Some (true, l1) => Some l1
      | Some (false, l1) => if jc_bare cfg then option_map snd (lex_bare_key l1) else Some l1
      end
    else if (ch =? 39)%Z && jc_single cfg then option_map snd (scan_string src [39%Z] (Some 92%Z) KStringLit l)
    else
      match (if jc_bare cfg && key_start ch then lex_bare_key l else Some (false, l)) with
      | None => None
      | Some (true, l1) => Some l1
      | Some (false, l1) =>
          let l2 := lx_advance src l1 (char_len ch) in Some (add_token l2 KError (lx_pos l) (lx_pos l2))
      end.

  (** lexer/mod.rs:39-91 *)
  Fixpoint json_loop (fuel : nat) (l : lexer) : option lexer :=
    match fuel with
    | O => None
    | S f =>
        if not_at_end src l then
          match lx_current src l with
          | (None, l1) => Some l1
          | (Some ch, l1) =>
              match json_rule ch l1 with
              | None => None
              | Some l2 => json_loop f (advance_if_dead_lock src (lx_pos l) l2)
              end
          end
        else Some l
    end.

  (** lexer/mod.rs:24-31; the state of a new lexer is at the start, without tokens *)
  Definition json_lex : option (list token) :=
    match json_loop (scan_fuel src) (Lexer (cursor_at src 0) []) with
    | None => None
    | Some l => Some (lx_toks (add_eof l KEof))
    end.
End Lexer.

(** ** Parser *)

(** token_type.rs:43-45 *)
Definition ignored (k : nat) : bool := (k =? KWhitespace) || (k =? KComment).

(** The errors of state.rs:278-324: 0 expected, 1 unexpected token, 2 trailing comma, 3 end of file *)
Definition expected_error (s : pstate) : pstate := push_error s 0 (current_offset s).
Definition unexpected_error (s : pstate) : pstate := push_error s 1 (current_offset s).
Definition trailing_error (s : pstate) : pstate := push_error s 2 (current_offset s).
Definition eof_error (s : pstate) : pstate := push_error s 3 (ps_srclen s).

(** parser/mod.rs:176-185; every round moves on, so the remaining tokens are enough fuel *)
Fixpoint skip_loop (fuel : nat) (s : pstate) : pstate :=
  match fuel with
  | O => s
  | S f =>
      match ps_current s with
      | Some t => if ignored (tk_kind t) then skip_loop f (bump ignored s) else s
      | None => s
      end
  end.
Definition json_skip (s : pstate) : pstate := skip_loop (length (ps_toks s) - ps_index s) s.

(** A parser: whether it answers [Ok], and the state after it *)
Definition parsing := pstate -> option (bool * pstate).

(** oak-core parser/state.rs:629-640 [incremental_node] *)
Definition node (kind : nat) (body : parsing) : parsing := fun s =>
  match try_reuse kind s with
  | None => None
  | Some (true, s1) => Some (true, s1)
  | Some (false, s1) =>
      let cp := checkpoint s1 in
      match body s1 with
      | None => None
      | Some (ok, s2) =>
          match finish_at s2 cp kind with
          | None => None
          | Some (_, s3) => Some (ok, s3)
          end
      end
  end.

(** parser/mod.rs:64-95 and 134-164: the loops of objects and arrays, which differ in the closing
    kind and in what is parsed.  True: the loop ended; false: an error was returned. *)
Fixpoint items_loop (cfg : json_config) (close : nat) (item : parsing) (fuel : nat) (first : bool) (s : pstate)
  : option (bool * pstate) :=
  match fuel with
  | O => None
  | S f =>
      if ps_not_at_end s then
        let s1 := json_skip s in
        if at_kind s1 close then Some (true, s1)
        else if at_kind s1 KEof then Some (false, eof_error s1)
        else
          let next s2 :=
            match item s2 with
            | None => None
            | Some (false, s3) => Some (false, s3)
            | Some (true, s3) => items_loop cfg close item f false (json_skip s3)
            end in
          if first then next s1
          else
            match eat ignored KComma s1 with
            | (false, s2) => Some (true, expected_error s2)
            | (true, s2) =>
                let s3 := json_skip s2 in
                if at_kind s3 close then
                  if jc_trailing cfg then Some (true, s3) else Some (false, trailing_error s3)
                else next s3
            end
      else Some (true, s)
  end.

(** parser/mod.rs:58-106 and 128-174 *)
Definition items (cfg : json_config) (open close : nat) (item : parsing) : parsing := fun s =>
  match eat ignored open s with
  | (false, s1) => Some (false, expected_error s1)
  | (true, s1) =>
      match items_loop cfg close item (S (length (ps_toks s1))) true s1 with
      | None => None
      | Some (false, s2) => Some (false, s2)
      | Some (true, s2) =>
          match eat ignored close s2 with
          | (true, s3) => Some (true, s3)
          | (false, s3) =>
              if at_kind s3 KEof || negb (ps_not_at_end s3) then Some (false, eof_error s3)
              else Some (false, expected_error s3)
          end
      end
  end.

(** parser/mod.rs:108-126 *)
Definition entry (cfg : json_config) (value : parsing) : parsing :=
  node KEntry (fun s =>
    if at_kind s KStringLit || (jc_bare cfg && at_kind s KBareKey) then
      let s1 := json_skip (bump ignored s) in
      let '(colon, s2) := eat ignored KColon s1 in
      value (json_skip (if colon then s2 else expected_error s2))
    else Some (false, expected_error s)).

(** parser/mod.rs:31-37 *)
Definition value_kind (k : nat) : option nat :=
  if k =? KLBrace then Some KObject else if k =? KLBracket then Some KArray
  else if k =? KStringLit then Some KString else if k =? KNumberLit then Some KNumber
  else if k =? KBooleanLit then Some KBoolean else if k =? KNullLit then Some KNull else None.

(** parser/mod.rs:19-56 *)
Fixpoint parse_value (cfg : json_config) (fuel : nat) (s : pstate) : option (bool * pstate) :=
  match fuel with
  | O => None
  | S f =>
      let s1 := json_skip s in
      match ps_current s1 with
      | None => Some (false, eof_error s1)
      | Some t =>
          if tk_kind t =? KEof then Some (false, eof_error s1)
          else
            match value_kind (tk_kind t) with
            | None => Some (false, unexpected_error s1)
            | Some k =>
                node k (fun s2 =>
                  if k =? KObject then items cfg KLBrace KRBrace (entry cfg (parse_value cfg f)) s2
                  else if k =? KArray then items cfg KLBracket KRBracket (parse_value cfg f) s2
                  else Some (true, bump ignored s2)) s1
            end
      end
  end.

(** parser/mod.rs:191-213: the closure; [None] stands for a panic.  The root and the diagnostics. *)
Definition run_parser (cfg : json_config) (s : pstate) : option (green * list (nat * nat)) :=
  let cp := checkpoint s in
  match parse_value cfg (S (length (ps_toks s))) s with
  | None => None
  | Some (_, s1) =>
      let s2 := json_skip s1 in
      match finish_at s2 cp KRoot with
      | None => None
      | Some ((_, root), s3) => Some (root, ps_errs s3)
      end
  end.

(** parser/mod.rs:189-214 with oak-core parser/mod.rs:77-120: parsing a text; [previous] is the tree of
    the previous parse of the session and the edits made since *)
Definition json_parse (alpha alnum : Z -> bool) (cfg : json_config) (text : str) (previous : option (green * list edit))
  : option (green * list (nat * nat)) :=
  match json_lex alpha alnum (flat_source text) cfg with
  | None => None
  | Some toks =>
      let s := ps_new ignored toks (length text) [] in
      run_parser cfg (match previous with Some (old, es) => set_inc s (Some (inc_new old es)) | None => s end)
  end.
