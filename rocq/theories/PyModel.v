(** Model of the Python lexer: examples/oak-python/src/lexer/mod.rs.  Its parser is not modelled. *)
From Verif Require Import Base Utf8 RopeModel CursorModel LexModel LangModel.

(** lexer/token_type.rs:80-273: the kinds, in order *)
Definition PyWhitespace := 0. Definition PyComment := 1. Definition PyIdentifier := 2. Definition PyNumber := 3. Definition PyString := 4.
Definition PyBytes := 5. Definition PyFString := 6. Definition PyAndKeyword := 7. Definition PyAsKeyword := 8. Definition PyAssertKeyword := 9.
Definition PyAsyncKeyword := 10. Definition PyAwaitKeyword := 11. Definition PyBreakKeyword := 12. Definition PyClassKeyword := 13.
Definition PyContinueKeyword := 14. Definition PyDefKeyword := 15. Definition PyDelKeyword := 16. Definition PyElifKeyword := 17.
Definition PyElseKeyword := 18. Definition PyExceptKeyword := 19. Definition PyFalseKeyword := 20. Definition PyFinallyKeyword := 21.
Definition PyForKeyword := 22. Definition PyFromKeyword := 23. Definition PyGlobalKeyword := 24. Definition PyIfKeyword := 25.
Definition PyImportKeyword := 26. Definition PyInKeyword := 27. Definition PyIsKeyword := 28. Definition PyLambdaKeyword := 29.
Definition PyNoneKeyword := 30. Definition PyNonlocalKeyword := 31. Definition PyNotKeyword := 32. Definition PyOrKeyword := 33.
Definition PyPassKeyword := 34. Definition PyRaiseKeyword := 35. Definition PyReturnKeyword := 36. Definition PyTrueKeyword := 37.
Definition PyTryKeyword := 38. Definition PyWhileKeyword := 39. Definition PyWithKeyword := 40. Definition PyYieldKeyword := 41.
Definition PyPlus := 42. Definition PyMinus := 43. Definition PyStar := 44. Definition PyDoubleStar := 45. Definition PySlash := 46.
Definition PyDoubleSlash := 47. Definition PyPercent := 48. Definition PyAt := 49. Definition PyLeftShift := 50. Definition PyRightShift := 51.
Definition PyAmpersand := 52. Definition PyPipe := 53. Definition PyCaret := 54. Definition PyTilde := 55. Definition PyLess := 56.
Definition PyGreater := 57. Definition PyLessEqual := 58. Definition PyGreaterEqual := 59. Definition PyEqual := 60. Definition PyNotEqual := 61.
Definition PyAssign := 62. Definition PyPlusAssign := 63. Definition PyMinusAssign := 64. Definition PyStarAssign := 65.
Definition PyDoubleStarAssign := 66. Definition PySlashAssign := 67. Definition PyDoubleSlashAssign := 68. Definition PyPercentAssign := 69.
Definition PyAtAssign := 70. Definition PyAmpersandAssign := 71. Definition PyPipeAssign := 72. Definition PyCaretAssign := 73.
Definition PyLeftShiftAssign := 74. Definition PyRightShiftAssign := 75. Definition PyLeftParen := 76. Definition PyRightParen := 77.
Definition PyLeftBracket := 78. Definition PyRightBracket := 79. Definition PyLeftBrace := 80. Definition PyRightBrace := 81. Definition PyComma := 82.
Definition PyColon := 83. Definition PySemicolon := 84. Definition PyDot := 85. Definition PyArrow := 86. Definition PyEllipsis := 87.
Definition PyNewline := 88. Definition PyIndent := 89. Definition PyDedent := 90. Definition PyEof := 91. Definition PyError := 92.

(** lexer/mod.rs:231-268: the keywords *)
Definition py_keywords : list (str * nat) :=
 [(lit "and", PyAndKeyword); (lit "as", PyAsKeyword); (lit "assert", PyAssertKeyword); (lit "async", PyAsyncKeyword); (lit "await", PyAwaitKeyword);
  (lit "break", PyBreakKeyword); (lit "class", PyClassKeyword); (lit "continue", PyContinueKeyword); (lit "def", PyDefKeyword); (lit "del",
  PyDelKeyword); (lit "elif", PyElifKeyword); (lit "else", PyElseKeyword); (lit "except", PyExceptKeyword); (lit "False", PyFalseKeyword); (lit
  "finally", PyFinallyKeyword); (lit "for", PyForKeyword); (lit "from", PyFromKeyword); (lit "global", PyGlobalKeyword); (lit "if", PyIfKeyword); (lit
  "import", PyImportKeyword); (lit "in", PyInKeyword); (lit "is", PyIsKeyword); (lit "lambda", PyLambdaKeyword); (lit "None", PyNoneKeyword); (lit
  "nonlocal", PyNonlocalKeyword); (lit "not", PyNotKeyword); (lit "or", PyOrKeyword); (lit "pass", PyPassKeyword); (lit "raise", PyRaiseKeyword); (lit
  "return", PyReturnKeyword); (lit "True", PyTrueKeyword); (lit "try", PyTryKeyword); (lit "while", PyWhileKeyword); (lit "with", PyWithKeyword); (lit
  "yield", PyYieldKeyword)].
Definition py_same (a b : str) : bool := if list_eq_dec Z.eq_dec a b then true else false.
Definition py_word_kind (t : list Z) : nat :=
  match find (fun e => py_same t (fst e)) py_keywords with Some (_, k) => k | None => PyIdentifier end.

(** [is_ascii_digit], [is_ascii_alphabetic] or the underscore, and both *)
Definition py_digit (c : Z) : bool := ((48 <=? c) && (c <=? 57))%Z.
Definition py_letter (c : Z) : bool := ((97 <=? c) && (c <=? 122) || (65 <=? c) && (c <=? 90) || (c =? 95))%Z.
Definition py_word_char (c : Z) : bool := py_letter c || py_digit c.
(** The characters of frbuFRBU: lexer/mod.rs:106, 529 *)
Definition py_prefix (c : Z) : bool :=
  ((c =? 102) || (c =? 114) || (c =? 98) || (c =? 117) || (c =? 70) || (c =? 82) || (c =? 66) || (c =? 85))%Z.
Definition py_quote (c : Z) : bool := ((c =? 34) || (c =? 39))%Z.
Definition py_blank (c : Z) : bool := ((c =? 32) || (c =? 9))%Z.
Definition py_eol (c : Z) : bool := ((c =? 10) || (c =? 13))%Z.

(** The variables of [run], lexer/mod.rs:498-500.  The top of the stack of indentations is the head of the list;
    the widths and the bracket level are unbounded. *)
Record py := Py { py_lx : lexer; py_stack : list nat; py_depth : nat; py_start : bool }.

Section Lexer.
  Variable (src : source).

  (** [state.current() == Some(c)] *)
  Definition py_is (p : Z -> bool) (l : lexer) : bool * lexer :=
    let '(c, l1) := lx_current src l in (match c with Some c => p c | None => false end, l1).
  Definition py_token_to (kind : nat) (l l' : lexer) : lexer := add_token l' kind (lx_pos l) (lx_pos l').

  (** lexer/mod.rs:38-52 [skip_whitespace]; the answer is not used *)
  Definition py_whitespace (l : lexer) : option lexer :=
    option_map (fun l' => snd (token_if PyWhitespace l l')) (lx_take_while src (scan_fuel src) py_blank l).

  (** lexer/mod.rs:55-75 [lex_newline]; the answer is not used *)
  Definition py_newline (depth : nat) (l : lexer) : lexer :=
    let kind := if 0 <? depth then PyWhitespace else PyNewline in
    let '(lf, l1) := py_is (Z.eqb 10) l in
    if lf then py_token_to kind l (lx_advance src l1 1)
    else
      let '(cr, l2) := py_is (Z.eqb 13) l1 in
      if cr then
        let '(lf, l3) := py_is (Z.eqb 10) (lx_advance src l2 1) in
        py_token_to kind l (if lf then lx_advance src l3 1 else l3)
      else l2.

  (** lexer/mod.rs:78-97 [lex_comment] where the first character is [#] *)
  Definition py_comment (l : lexer) : option lexer :=
    option_map (py_token_to PyComment l) (lx_take_while src (scan_fuel src) (fun c => negb (py_eol c)) (lx_advance src l 1)).

  (** lexer/mod.rs:133, 155-156: both of two characters, [n] and [n+1] bytes ahead, are the quote *)
  Definition py_quotes (q : Z) (n : nat) (l : lexer) : bool :=
    match peek_next_n src (lx_cur l) n, peek_next_n src (lx_cur l) (n + 1) with
    | Some c1, Some c2 => ((c1 =? q) && (c2 =? q))%Z
    | _, _ => false
    end.
  (** lexer/mod.rs:139-176: the rest of a string *)
  Fixpoint py_string_loop (q : Z) (triple escaped : bool) (fuel : nat) (l : lexer) : option lexer :=
    match fuel with
    | O => None
    | S f =>
        match lx_current src l with
        | (None, l1) => Some l1
        | (Some ch, l1) =>
            if escaped then py_string_loop q triple false f (lx_advance src l1 (char_len ch))
            else if (ch =? 92)%Z then py_string_loop q triple true f (lx_advance src l1 1)
            else if (ch =? q)%Z then
              if triple then
                if py_quotes q 1 l1 then Some (lx_advance src l1 3) else py_string_loop q triple false f (lx_advance src l1 1)
              else Some (lx_advance src l1 1)
            else if py_eol ch && negb triple then Some l1
            else py_string_loop q triple false f (lx_advance src l1 (char_len ch))
        end
    end.
  (** lexer/mod.rs:178-182: the kind by the prefix, in lower case *)
  Definition py_lower (c : Z) : Z := (if (65 <=? c) && (c <=? 90) then c + 32 else c)%Z.
  Definition py_string_kind (prefix : option Z) : nat :=
    match prefix with
    | Some c => if (py_lower c =? 102)%Z then PyFString else if (py_lower c =? 98)%Z then PyBytes else PyString
    | None => PyString
    end.
  (** lexer/mod.rs:104-115: the prefix, if a quote follows *)
  Definition py_string_prefix (l : lexer) : option Z * lexer :=
    match lx_current src l with
    | (Some ch, l1) =>
        if py_prefix ch then
          match peek_next_n src (lx_cur l1) (char_len ch) with
          | Some next => if py_quote next then (Some ch, lx_advance src l1 (char_len ch)) else (None, l1)
          | None => (None, l1)
          end
        else (None, l1)
    | (None, l1) => (None, l1)
    end.
  (** lexer/mod.rs:100-185 [lex_string] *)
  Definition py_string (l : lexer) : option (bool * lexer) :=
    let '(prefix, l1) := py_string_prefix l in
    match lx_current src l1 with
    | (Some q, l2) =>
        if py_quote q then
          let l3 := lx_advance src l2 1 in
          let triple := py_quotes q 0 l3 in
          option_map (fun l' => (true, py_token_to (py_string_kind prefix) l l'))
            (py_string_loop q triple false (scan_fuel src) (if triple then lx_advance src l3 2 else l3))
        else Some (false, l2)
    | (None, l2) => Some (false, l2)
    end.

  (** lexer/mod.rs:188-207 [lex_number] where the first character is a digit; a step is one byte, all these characters are ASCII *)
  Definition py_number (l : lexer) : option lexer :=
    option_map (py_token_to PyNumber l) (lx_take_while src (scan_fuel src) (fun c => py_digit c || (c =? 46)%Z) l).

  (** lexer/mod.rs:219-228: the characters of a word are collected *)
  Fixpoint py_collect (fuel : nat) (text : list Z) (l : lexer) : option (list Z * lexer) :=
    match fuel with
    | O => None
    | S f =>
        match lx_current src l with
        | (Some ch, l1) => if py_word_char ch then py_collect f (text ++ [ch]) (lx_advance src l1 (char_len ch)) else Some (text, l1)
        | (None, l1) => Some (text, l1)
        end
    end.
  (** lexer/mod.rs:210-272 [lex_identifier_or_keyword] where the first character is a letter *)
  Definition py_word (l : lexer) : option lexer :=
    option_map (fun '(text, l') => py_token_to (py_word_kind text) l l') (py_collect (scan_fuel src) [] l).

  (** lexer/mod.rs:275-466 [lex_operator]: the arms advance and ask for what follows *)
  Definition py_arm_eq (one eq : nat) (l : lexer) : nat * lexer :=
    let '(b, l1) := py_is (Z.eqb 61) (lx_advance src l 1) in if b then (eq, lx_advance src l1 1) else (one, l1).
  Definition py_arm_other (c : Z) (one eq : nat) (other : lexer -> nat * lexer) (l : lexer) : nat * lexer :=
    let '(b, l1) := py_is (Z.eqb 61) (lx_advance src l 1) in
    if b then (eq, lx_advance src l1 1)
    else let '(b2, l2) := py_is (Z.eqb c) l1 in if b2 then other l2 else (one, l2).
  Definition py_arm (ch : Z) (l : lexer) : option nat * lexer :=
    let some (x : nat * lexer) := (Some (fst x), snd x) in
    if (ch =? 43)%Z then some (py_arm_eq PyPlus PyPlusAssign l)
    else if (ch =? 45)%Z then some (py_arm_other 62 PyMinus PyMinusAssign (fun l => (PyArrow, lx_advance src l 1)) l)
    else if (ch =? 42)%Z then some (py_arm_other 42 PyStar PyStarAssign (py_arm_eq PyDoubleStar PyDoubleStarAssign) l)
    else if (ch =? 47)%Z then some (py_arm_other 47 PySlash PySlashAssign (py_arm_eq PyDoubleSlash PyDoubleSlashAssign) l)
    else if (ch =? 37)%Z then some (py_arm_eq PyPercent PyPercentAssign l)
    else if (ch =? 61)%Z then some (py_arm_eq PyAssign PyEqual l)
    else if (ch =? 60)%Z then some (py_arm_other 60 PyLess PyLessEqual (py_arm_eq PyLeftShift PyLeftShiftAssign) l)
    else if (ch =? 62)%Z then some (py_arm_other 62 PyGreater PyGreaterEqual (py_arm_eq PyRightShift PyRightShiftAssign) l)
    else if (ch =? 33)%Z then
      let '(b, l1) := py_is (Z.eqb 61) (lx_advance src l 1) in if b then (Some PyNotEqual, lx_advance src l1 1) else (None, l1)
    else if (ch =? 38)%Z then some (py_arm_eq PyAmpersand PyAmpersandAssign l)
    else if (ch =? 124)%Z then some (py_arm_eq PyPipe PyPipeAssign l)
    else if (ch =? 94)%Z then some (py_arm_eq PyCaret PyCaretAssign l)
    else if (ch =? 126)%Z then (Some PyTilde, lx_advance src l 1)
    else if (ch =? 64)%Z then some (py_arm_eq PyAt PyAtAssign l)
    else (None, l).
  Definition py_operator (l : lexer) : lexer :=
    match lx_current src l with
    | (Some ch, l1) => let '(k, l2) := py_arm ch l1 in match k with Some k => py_token_to k l l2 | None => l2 end
    | (None, l1) => l1
    end.

  (** lexer/mod.rs:469-493 [lex_delimiter] *)
  Definition py_delimiters : list (Z * nat) :=
    [(40, PyLeftParen); (41, PyRightParen); (91, PyLeftBracket); (93, PyRightBracket); (123, PyLeftBrace); (125, PyRightBrace);
     (44, PyComma); (58, PyColon); (59, PySemicolon); (46, PyDot)]%Z.
  Definition py_delimiter (l : lexer) : lexer :=
    match lx_current src l with
    | (Some ch, l1) =>
        match find (fun e => (fst e =? ch)%Z) py_delimiters with
        | Some (_, k) => py_token_to k l (lx_advance src l1 1)
        | None => l1
        end
    | (None, l1) => l1
    end.

  (** lexer/mod.rs:572-627 [handle_indentation].  579-592: the width of the blanks at [at_] and where they end *)
  Fixpoint py_measure (fuel : nat) (at_ indent : nat) : option (nat * nat) :=
    match fuel with
    | O => None
    | S f =>
        match get_char_at src at_ with
        | Some ch =>
            if (ch =? 32)%Z then py_measure f (S at_) (indent + 1)
            else if (ch =? 9)%Z then py_measure f (S at_) (indent + 8)
            else Some (at_, indent)
        | None => Some (at_, indent)
        end
    end.
  Definition py_mark (kind : nat) (l : lexer) : lexer := add_token l kind (lx_pos l) (lx_pos l).
  (** 620-623: [unwrap] panics on an empty stack *)
  Fixpoint py_pop (indent : nat) (stack : list nat) (l : lexer) : option (list nat * lexer) :=
    match stack with
    | [] => None
    | top :: rest => if indent <? top then py_pop indent rest (py_mark PyDedent l) else Some (stack, l)
    end.
  Definition py_indentation (stack : list nat) (l : lexer) : option (list nat * lexer) :=
    match py_measure (scan_fuel src) (lx_pos l) 0 with
    | None => None
    | Some (at_, indent) =>
        let go :=
          let l1 := if 0 <? indent then
                      let l1 := add_token l PyWhitespace (lx_pos l) at_ in Lexer (set_position src (lx_cur l1) at_) (lx_toks l1)
                    else l in
          match stack with
          | [] => None
          | top :: _ => if top <? indent then Some (indent :: stack, py_mark PyIndent l1) else py_pop indent stack l1
          end in
        match get_char_at src at_ with
        | Some ch => if py_eol ch || (ch =? 35)%Z then Some (stack, l) else go
        | None => Some (stack, l)
        end
    end.

  (** lexer/mod.rs:511-556: the arms of the match on the next character *)
  Definition py_is_open (c : Z) : bool := ((c =? 40) || (c =? 91) || (c =? 123))%Z.
  Definition py_is_close (c : Z) : bool := ((c =? 41) || (c =? 93) || (c =? 125))%Z.
  Definition py_is_operator (c : Z) : bool :=
    ((c =? 43) || (c =? 45) || (c =? 42) || (c =? 47) || (c =? 37) || (c =? 61) || (c =? 60) || (c =? 62) || (c =? 38) || (c =? 124)
     || (c =? 94) || (c =? 126) || (c =? 64))%Z.
  Definition py_is_punct (c : Z) : bool := ((c =? 44) || (c =? 58) || (c =? 59) || (c =? 46))%Z.
  Definition py_match (ch : Z) (s : py) (l : lexer) : option py :=
    let set (l : lexer) := Py l (py_stack s) (py_depth s) (py_start s) in
    if py_blank ch then option_map set (py_whitespace l)
    else if py_eol ch then Some (Py (py_newline (py_depth s) l) (py_stack s) (py_depth s) true)
    else if (ch =? 35)%Z then option_map set (py_comment l)
    else if py_quote ch then option_map (fun x => set (snd x)) (py_string l)
    else if py_digit ch then option_map set (py_number l)
    else if py_prefix ch then
      match py_string l with
      | None => None
      | Some (true, l') => Some (set l')
      | Some (false, l') => option_map set (py_word l')
      end
    else if py_letter ch then option_map set (py_word l)
    else if py_is_open ch then Some (Py (py_delimiter l) (py_stack s) (S (py_depth s)) (py_start s))
    else if py_is_close ch then Some (Py (py_delimiter l) (py_stack s) (py_depth s - 1) (py_start s))
    else if py_is_operator ch then Some (set (py_operator l))
    else if py_is_punct ch then Some (set (py_delimiter l))
    else Some (set (py_token_to PyError l (lx_advance src l (char_len ch)))).

  (** lexer/mod.rs:502-560: one round of the loop *)
  Definition py_round (s : py) : option py :=
    let l := py_lx s in
    if py_start s && (py_depth s =? 0) then
      match py_indentation (py_stack s) l with
      | None => None
      | Some (stack, l') => Some (Py l' stack (py_depth s) false)
      end
    else
      let '(c, l1) := lx_current src l in
      match (match c with Some ch => py_match ch s l1 | None => Some (Py l1 (py_stack s) (py_depth s) (py_start s)) end) with
      | None => None
      | Some s' => Some (Py (advance_if_dead_lock src (lx_pos l) (py_lx s')) (py_stack s') (py_depth s') (py_start s'))
      end.

  Fixpoint py_rounds (fuel : nat) (s : py) : option py :=
    match fuel with
    | O => None
    | S f => if not_at_end src (py_lx s) then match py_round s with None => None | Some s' => py_rounds f s' end else Some s
    end.

  (** lexer/mod.rs:562-567: the levels still open *)
  Fixpoint py_close (stack : list nat) (l : lexer) : lexer :=
    match stack with
    | _ :: ((_ :: _) as rest) => py_close rest (py_mark PyDedent l)
    | _ => l
    end.

  (** lexer/mod.rs:21-28 [lex]; the end of stream has the kind of the errors (token_type.rs:63).  A round either moves or ends
      the start of a line, so twice the fuel of a scan is enough. *)
  Definition py_lex : option (list token) :=
    match py_rounds (2 * scan_fuel src) (Py (new_lexer src) [0] 0 true) with
    | None => None
    | Some s => Some (lx_toks (add_eof (py_close (py_stack s) (py_lx s)) PyError))
    end.
End Lexer.
