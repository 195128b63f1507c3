(** Model of the Scheme language: examples/oak-scheme/src/lexer/mod.rs and parser/parse_top_level.rs, for any source.  The session
    is new.  [None] is a panic or that the fuel is used up.  [char::is_alphabetic] (a Unicode table) is the parameter [alpha];
    [slice] is [get_text_in] of the source. *)
From Verif Require Import Base Utf8 RopeModel CursorModel LexModel TreeModel VfsModel ParserModel LangModel IniModel BareModel.

(** lexer/token_type.rs:31-103: the kinds in use, numbered as they are declared; parser/element_type.rs:7-51 has the same names,
    and the conversion (63-115) maps each to itself *)
Definition HWhitespace := 0. Definition HNewline := 1. Definition HComment := 2. Definition HLineComment := 3.
Definition HNumber := 4. Definition HString := 5. Definition HIdentifier := 8. Definition HKeyword := 10.
Definition HQuote := 21. Definition HQuasiquote := 22. Definition HUnquote := 23. Definition HLeftParen := 29. Definition HRightParen := 30.
Definition HLeftBracket := 31. Definition HRightBracket := 32. Definition HLeftBrace := 33. Definition HRightBrace := 34.
Definition HDot := 35. Definition HHash := 36. Definition HError := 41. Definition HEof := 42. Definition HSourceFile := 43.

(** lexer/mod.rs:13 *)
Definition sch_comments : comment_config := CommentConfig (lit ";") (lit "#|") (lit "|#") true.

(** lexer/mod.rs:206-207 *)
Definition sch_words : list str :=
  [lit "define"; lit "lambda"; lit "if"; lit "cond"; lit "case"; lit "and"; lit "or"; lit "not"; lit "let"; lit "let*"; lit "letrec"; lit "begin";
   lit "do"; lit "quote"; lit "quasiquote"; lit "unquote"; lit "unquote-splicing"; lit "set!"; lit "delay"; lit "force"; lit "#t"; lit "#f";
   lit "null"; lit "car"; lit "cdr"; lit "cons"; lit "list"; lit "append"; lit "length"; lit "reverse"; lit "map"; lit "for-each"; lit "apply"].
Definition sch_word_kind (w : str) : nat := if existsb (str_eqb w) sch_words then HKeyword else HIdentifier.

(** lexer/mod.rs:232-245 *)
Definition sch_mark (c : Z) : option nat :=
  (if c =? 40 then Some HLeftParen else if c =? 41 then Some HRightParen else if c =? 91 then Some HLeftBracket else if c =? 93 then Some HRightBracket
   else if c =? 123 then Some HLeftBrace else if c =? 125 then Some HRightBrace else if c =? 39 then Some HQuote else if c =? 96 then Some HQuasiquote
   else if c =? 44 then Some HUnquote else if c =? 46 then Some HDot else if c =? 35 then Some HHash else None)%Z.

Section Lexer.
  Variable alpha : Z -> bool.
  Variable (src : source) (slice : nat -> nat -> str).

  (** lexer/mod.rs:217-219, 221-223 *)
  Definition sch_start (c : Z) : bool := alpha c || existsb (Z.eqb c) (lit "!$%&*+-./:<=>?@^_~").
  Definition sch_continue (c : Z) : bool := sch_start c || ascii_digit_c c.
  (** [state.add_token(kind, start, state.get_position()); true] *)
  Definition sch_token (kind : nat) (l l' : lexer) : option (bool * lexer) := Some (true, add_token l' kind (lx_pos l) (lx_pos l')).

  (** lexer/mod.rs:81-83 *)
  Definition sch_whitespace (l : lexer) : option (bool * lexer) := scan_whitespace src true char_is_whitespace HWhitespace l.
  (** lexer/mod.rs:86-105 *)
  Definition sch_newline (l : lexer) : option (bool * lexer) :=
    let '(ch, l1) := lx_current src l in
    if is_char 10 ch then sch_token HNewline l (lx_advance src l1 1)
    else if is_char 13 ch then
      let '(next, l2) := lx_current src (lx_advance src l1 1) in
      sch_token HNewline l (if is_char 10 next then lx_advance src l2 1 else l2)
    else Some (false, l1).
  (** lexer/mod.rs:107-109, 111-113 *)
  Definition sch_comment (l : lexer) : option (bool * lexer) := scan_comment src sch_comments HLineComment HComment l.
  Definition sch_string (l : lexer) : option (bool * lexer) := scan_string src [34%Z] (Some 92%Z) HString l.

  (** lexer/mod.rs:147-155, 140-160: the digits after the point; those before it.  The answer is [len] and [has_digits]. *)
  Fixpoint sch_fraction (cs : list Z) (len : nat) (has : bool) : nat * bool :=
    match cs with
    | ch :: r => if ascii_digit_c ch then sch_fraction r (len + char_len ch) true else (len, has)
    | [] => (len, has)
    end.
  Fixpoint sch_figures (cs : list Z) (len : nat) (has : bool) : nat * bool :=
    match cs with
    | ch :: r => if ascii_digit_c ch then sch_figures r (len + char_len ch) true
                 else if (ch =? 46)%Z then sch_fraction r (len + char_len ch) has
                 else (len, has)
    | [] => (len, has)
    end.
  (** lexer/mod.rs:115-173; [rest] is what the current chunk still has *)
  Definition sch_number (l : lexer) : option (bool * lexer) :=
    let '(r, c) := rest src (lx_cur l) in
    let l1 := Lexer c (lx_toks l) in
    match chars r with
    | [] => Some (false, l1)
    | first :: more =>
        let sign := ((first =? 45) || (first =? 43))%Z in
        if negb (ascii_digit_c first) && negb sign then Some (false, l1)
        else
          let '(len, has) := if sign then sch_figures more (char_len first) false else sch_figures (first :: more) 0 false in
          if has then sch_token HNumber l (lx_advance src l1 len) else Some (false, l1)
    end.

  (** lexer/mod.rs:192-199 *)
  Fixpoint sch_run (cs : list Z) (len : nat) : nat :=
    match cs with
    | ch :: r => if sch_continue ch then sch_run r (len + char_len ch) else len
    | [] => len
    end.
  (** lexer/mod.rs:175-215 *)
  Definition sch_identifier (l : lexer) : option (bool * lexer) :=
    let '(r, c) := rest src (lx_cur l) in
    let l1 := Lexer c (lx_toks l) in
    match chars r with
    | [] => Some (false, l1)
    | first :: more =>
        if sch_start first then
          let len := sch_run more (char_len first) in
          sch_token (sch_word_kind (slice (lx_pos l) (lx_pos l + len))) l (lx_advance src l1 len)
        else Some (false, l1)
    end.

  (** lexer/mod.rs:225-255 *)
  Definition sch_single (l : lexer) : option (bool * lexer) :=
    match lx_current src l with
    | (None, l1) => Some (false, l1)
    | (Some ch, l1) => match sch_mark ch with Some k => sch_token k l (lx_advance src l1 (char_len ch)) | None => Some (false, l1) end
    end.
  (** lexer/mod.rs:67-71 *)
  Definition sch_other (l : lexer) : option (bool * lexer) :=
    match lx_current src l with
    | (None, l1) => Some (false, l1)
    | (Some ch, l1) => sch_token HError l (lx_advance src l1 (char_len ch))
    end.
  (** lexer/mod.rs:34-79, 22-26; the guard comes after [sch_other] too, where it does nothing if a character was taken *)
  Definition sch_rules : list (lexer -> option (bool * lexer)) :=
    [sch_whitespace; sch_newline; sch_comment; sch_string; sch_number; sch_identifier; sch_single].
  Definition sch_round (l : lexer) : option lexer :=
    match try_rules sch_rules l with
    | None => None
    | Some (true, l') => Some l'
    | Some (false, l') => match sch_other l' with None => None | Some (_, l2) => Some (advance_if_dead_lock src (lx_pos l) l2) end
    end.
  Definition sch_lex : option (list token) := lex_all src sch_round HEof.
End Lexer.

(** lexer/token_type.rs:12-14 *)
Definition sch_ignored (k : nat) : bool := existsb (Nat.eqb k) [HWhitespace; HNewline; HComment; HLineComment].

(** parser/mod.rs:25-28 of a [SourceText], with parse_top_level.rs:9-17 (BareModel) *)
Definition sch_parse (alpha : Z -> bool) (text : str) : option (green * list (nat * nat)) :=
  match sch_lex alpha (flat_source text) (flat_text_in text) with
  | None => None
  | Some toks => advancing_parse sch_ignored HSourceFile toks (length text) []
  end.
